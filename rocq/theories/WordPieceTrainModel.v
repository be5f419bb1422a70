(** Model of the WordPiece trainer and of the two WordPiece builders:
    /repo/model/wordpiece/trainer.go, /repo/model/wordpiece/wordpiece.go:17-110, 224-241 and the
    builder of the BPE trainer, /repo/model/bpe/trainer.go:35-164. *)
From Verif Require Import Base Utf8Model BpeModel WordPieceModel TrainerModel.
Open Scope Z_scope.

(** "[UNK]" and "##". *)
Definition unk_text : str := [91; 85; 78; 75; 93]%N.
Definition hashes : str := [35; 35]%N.

(** wordpiece.go:224-241.  [order] is the order in which Go iterates over the vocabulary. *)
Definition wp_from_bpe (b : bpe) (order : vocab) : wordpiece :=
  wp_build (b_vocab b) order
    (match b_unk b with Some u => u | None => unk_text end)
    (match b_prefix b with Some p => p | None => hashes end) 100.

(** wordpiece/trainer.go:101-106. *)
Definition wp_train (addr : nat -> nat -> str) (pick : list tmerge -> nat) (cf : tcfg) (arrival : list nat)
  (wc : list (str * Z)) (fuel : nat) (order : vocab -> vocab) : res wordpiece :=
  do r <- train_bpe addr pick cf arrival wc fuel;
  let b := trained_model cf r in Ok (wp_from_bpe b (order (b_vocab b))).

(** ** The trainer builders *)
(** bpe/trainer.go:35-66: the settings are reached through a pointer.  All settings there
    are, in the order in which they were allocated; a builder is a number. *)
Definition tconfigs := list tcfg.
(** bpe/trainer.go:53-62; the progress bar setting is left out. *)
Definition default_tcfg : tcfg := TCfg 0 30000 [] None [] None None.

(** bpe/trainer.go:68-106: the setters. *)
Inductive tset :=
| SetMin (n : Z) | SetSize (n : Z) | SetSpecial (l : list str) | SetLimit (n : Z)
| SetInitial (l : list str) | SetPrefix (p : str) | SetSuffix (p : str).
Definition apply_set (c : tcfg) (o : tset) : tcfg :=
  let '(TCfg mn sz sp lim ini pre suf) := c in
  match o with
  | SetMin n => TCfg n sz sp lim ini pre suf
  | SetSize n => TCfg mn n sp lim ini pre suf
  | SetSpecial l => TCfg mn sz l lim ini pre suf
  | SetLimit n => TCfg mn sz sp (Some n) ini pre suf
  | SetInitial l => TCfg mn sz sp lim l pre suf
  | SetPrefix p => TCfg mn sz sp lim ini (Some p) suf
  | SetSuffix p => TCfg mn sz sp lim ini pre (Some p)
  end.

Definition nth_cfg (h : tconfigs) (b : nat) : tcfg := nth b h default_tcfg.
(** wordpiece/trainer.go:24-78.  The receiver is a copy of the builder, but the copy has the
    same pointer to the settings; the result is this copy. *)
Definition wtb_set (h : tconfigs) (b : nat) (o : tset) : tconfigs * nat :=
  (firstn b h ++ apply_set (nth_cfg h b) o :: skipn (S b) h, b)%list.
(** wordpiece/trainer.go:15-22 (and 94-96). *)
Definition wtb_new (h : tconfigs) : tconfigs * nat :=
  wtb_set (h ++ [default_tcfg])%list (length h) (SetPrefix hashes).
(** bpe/trainer.go:108-120 and wordpiece/trainer.go:80-86. *)
Definition wtb_build (h : tconfigs) (b : nat) : tcfg := nth_cfg h b.
(** bpe/trainer.go:154-164. *)
Definition new_bpe_trainer (minFreq vocabSize : Z) : tcfg :=
  apply_set (apply_set default_tcfg (SetMin minFreq)) (SetSize vocabSize).

(** ** The model builder *)
(** wordpiece.go:17-23.  The name of the file is empty when there is none. *)
Record wpb := WPB { wb_files : str; wb_vocab : vocab; wb_unk : str; wb_prefix : str; wb_max : Z }.
(** wordpiece.go:31-42. *)
Definition wpb_new : wpb := WPB [] [] unk_text hashes 100.
(** wordpiece.go:44-77: the setters.  Simplification: the vocabulary is a copy of the map. *)
Inductive wset := WFiles (f : str) | WVocab (v : vocab) | WUnk (u : str) | WPrefix (p : str) | WMax (n : Z).
Definition wpb_set (c : wpb) (o : wset) : wpb :=
  let '(WPB f v u p n) := c in
  match o with
  | WFiles f => WPB f v u p n
  | WVocab v => WPB f v u p n
  | WUnk u => WPB f v u p n
  | WPrefix p => WPB f v u p n
  | WMax n => WPB f v u p n
  end.
(** wordpiece.go:80-110.  [read]: the content of a file; a file that cannot be read ends the
    process.  [order]: the iteration order. *)
Definition wpb_build (read : str -> option str) (order : vocab -> vocab) (c : wpb) : res wordpiece :=
  do v <- match wb_files c with
          | [] => Ok (wb_vocab c)
          | f => match read f with
                 | None => Fatal
                 | Some content => match load_vocab content with Ok v => Ok v | _ => Fatal end
                 end
          end;
  Ok (wp_build v (order v) (wb_unk c) (wb_prefix c) (wb_max c)).
