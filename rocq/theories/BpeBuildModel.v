(** Model of building BPE models: /repo/model/bpe/bpe.go:30-161, 201-241 and 649-680. *)
From Coq Require Import QArith.
From Verif Require Import Base BpeModel BpeSaveModel.
Open Scope Z_scope.
Open Scope list_scope.

(** A float32: a number, not a number, or an infinity ([Inf true] is the negative one).
    Simplification: numbers are rational; which of them a float32 can hold does not matter here. *)
Inductive f32 := Num (q : Q) | NaN | Inf (negative : bool).
(** The comparisons p <= 0.0 and p > 1.0 (bpe.go:122); both are false of NaN. *)
Definition at_most_0 (p : f32) : bool := match p with Num q => Qle_bool q 0 | NaN => false | Inf n => n end.
Definition above_1 (p : f32) : bool := match p with Num q => negb (Qle_bool q 1) | NaN => false | Inf n => negb n end.

(** The settings of a BpeBuilder, bpe.go:30-45. *)
Record bpe_builder := BB {
  bb_files : option (str * str);
  bb_vocab : vocab;
  bb_merges : merge_table;
  bb_cache : Z;
  bb_dropout : option f32;
  bb_unk : option str;
  bb_prefix : option str;
  bb_suffix : option str;
}.
(** bpe.go:47-64; word.go:12 (DefaultCacheCapacity). *)
Definition bb_new : bpe_builder := BB None [] [] 10000 None None None None.

(** The calls of a builder, bpe.go:67-101; [BBuild] is a call of Build the model of which is not used. *)
Inductive bb_op :=
  | BFiles (vocab_file merges_file : str)
  | BTables (v : vocab) (m : merge_table)
  | BCache (n : Z)
  | BDropout (p : f32)
  | BUnk (s : str)
  | BPrefix (s : str)
  | BSuffix (s : str)
  | BBuild.

(** A built model, bpe.go:150-159, with the capacity of its cache (141-145) and its dropout. *)
Record built := Built { bt_bpe : bpe; bt_cache : option Z; bt_dropout : option f32 }.

Section Build.
  (** Reading a JSON file with a vocabulary, and a file as text; errors are errors of reading or of
      encoding/json.  Simplification: files do not change between calls. *)
  Variable vocab_of_file : str -> res vocab.
  Variable text_of_file : str -> res str.
  (** The order in which Go walks a vocabulary. *)
  Variable order : vocab -> vocab.

  (** bpe.go:244-333.  [ReadFiles]. *)
  Definition read_files (vf mf : str) : res (vocab * merge_table) :=
    do v <- vocab_of_file vf;
    do s <- text_of_file mf;
    do m <- read_merges v s;
    Ok (v, m).

  (** bpe.go:104-161.  [Build]: the builder afterwards and the model. *)
  Definition bb_build (c : bpe_builder) : bpe_builder * res built :=
    let made c' := Built (Bpe (bb_vocab c') (build_vocab_r (order (bb_vocab c'))) (bb_merges c') (bb_unk c') (bb_prefix c') (bb_suffix c'))
                         (if bb_cache c' =? 0 then None else Some (bb_cache c')) (bb_dropout c') in
    if match bb_dropout c with Some p => at_most_0 p || above_1 p | None => false end then (c, Err)
    else
      match bb_files c with
      | None => (c, Ok (made c))
      | Some (vf, mf) =>
          match read_files vf mf with
          | Ok (v, m) =>
              let c' := BB (bb_files c) v m (bb_cache c) (bb_dropout c) (bb_unk c) (bb_prefix c) (bb_suffix c) in
              (c', Ok (made c'))
          | Err => (c, Err)
          | Panic => (c, Panic)
          | Fatal => (c, Fatal)
          | NoFuel => (c, NoFuel)
          end
      end.

  (** bpe.go:67-101 and 104-161. *)
  Definition bb_step (c : bpe_builder) (o : bb_op) : bpe_builder :=
    match o with
    | BFiles a b => BB (Some (a, b)) (bb_vocab c) (bb_merges c) (bb_cache c) (bb_dropout c) (bb_unk c) (bb_prefix c) (bb_suffix c)
    | BTables v m => BB (bb_files c) v m (bb_cache c) (bb_dropout c) (bb_unk c) (bb_prefix c) (bb_suffix c)
    | BCache n => BB (bb_files c) (bb_vocab c) (bb_merges c) n (bb_dropout c) (bb_unk c) (bb_prefix c) (bb_suffix c)
    | BDropout p => BB (bb_files c) (bb_vocab c) (bb_merges c) (bb_cache c) (Some p) (bb_unk c) (bb_prefix c) (bb_suffix c)
    | BUnk s => BB (bb_files c) (bb_vocab c) (bb_merges c) (bb_cache c) (bb_dropout c) (Some s) (bb_prefix c) (bb_suffix c)
    | BPrefix s => BB (bb_files c) (bb_vocab c) (bb_merges c) (bb_cache c) (bb_dropout c) (bb_unk c) (Some s) (bb_suffix c)
    | BSuffix s => BB (bb_files c) (bb_vocab c) (bb_merges c) (bb_cache c) (bb_dropout c) (bb_unk c) (bb_prefix c) (Some s)
    | BBuild => fst (bb_build c)
    end.
  Definition bb_run (ops : list bb_op) : bpe_builder := fold_left bb_step ops bb_new.

  (** bpe.go:201-204 and 218-235.  [NewBPE]: a model built from a new builder, of which the tables are
      then replaced; an error of Build ends the process. *)
  Definition new_bpe (v : vocab) (m : merge_table) : res built :=
    match snd (bb_build bb_new) with
    | Ok b =>
        Ok (Built (Bpe v (build_vocab_r (order v)) m (b_unk (bt_bpe b)) (b_prefix (bt_bpe b)) (b_suffix (bt_bpe b))) (bt_cache b) (bt_dropout b))
    | Err => Fatal
    | Panic => Panic
    | Fatal => Fatal
    | NoFuel => NoFuel
    end.
  (** bpe.go:211-215 (NewBpeFromFiles) and 237-241 (FromFiles, then Build). *)
  Definition new_bpe_from_files (vf mf : str) : res built := snd (bb_build (bb_step bb_new (BFiles vf mf))).
  (** bpe.go:649-680.  [New]. *)
  Definition bpe_make (v : vocab) (lines : list str) (dropout : option f32) (unk prefix suffix : option str) : res built :=
    do m <- create_merges v lines;
    snd (bb_build (BB None v m 10000 dropout unk prefix suffix)).
End Build.
