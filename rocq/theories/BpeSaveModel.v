(** Model of writing and reading BPE merge tables: /repo/model/bpe/bpe.go:243-333,
    509-582 and 603-646. *)
From Verif Require Import Base BpeModel.

(** strings.Split(s, sep) for a one-byte separator. *)
Fixpoint split_on (sep : N) (s : str) : list str :=
  match s with
  | [] => [[]]
  | c :: s' =>
      if (c =? sep)%N then [] :: split_on sep s'
      else match split_on sep s' with
           | [] => [[c]]
           | p :: ps => (c :: p) :: ps
           end
  end.

Fixpoint starts_with (p s : str) : bool :=
  match p, s with
  | [], _ => true
  | x :: p', y :: s' => (x =? y)%N && starts_with p' s'
  | _ :: _, [] => false
  end.

(** Does the literal [p] occur in [s]?  (A regular expression that is a literal,
    bpe.go:281.) *)
Fixpoint contains (p s : str) : bool :=
  starts_with p s || match s with [] => false | _ :: s' => contains p s' end.

Definition SP : N := 32.
Definition NL : N := 10.
Definition CR : N := 13.

(** "#version" *)
Definition version_mark : str := [35; 118; 101; 114; 115; 105; 111; 110]%N.

(** bufio.ScanLines: one trailing carriage return is dropped. *)
Definition drop_cr (s : str) : str :=
  match rev s with
  | c :: r => if (c =? CR)%N then rev r else s
  | [] => s
  end.

(** bufio.Scanner over a whole file: lines end with a newline, which the last one
    may lack; a line of 64 KiB or more is an error. *)
Definition scan_lines (file : str) : res (list str) :=
  let parts := split_on NL file in
  let raw := match rev parts with [] :: r => rev r | _ => parts end in
  if existsb (fun l => 65536 <=? zlen l)%Z raw then Err else Ok (map drop_cr raw).

(** One line of a merge table, bpe.go:611-641 (and 286-325).  The state is the
    line counter and the table. *)
Definition merge_line (v : vocab) (st : Z * merge_table) (line : str) : res (Z * merge_table) :=
  let '(n, m) := st in
  match split_on SP line with
  | [x; y] =>
      match vget x v, vget y v with
      | Some a, Some b =>
          match vget (x ++ y) v with
          | Some new => Ok (n + 1, aset pair_eqb (a, b) (n, new) m)%Z
          | None => Err
          end
      | _, _ => Ok (n, m)
      end
  | _ => Err
  end.

(** bpe.go:603-646.  [CreateMerges]. *)
Definition create_merges (v : vocab) (lines : list str) : res merge_table :=
  do st <- foldR (merge_line v) lines (0%Z, []);
  Ok (snd st).

(** bpe.go:264-330.  The merges part of [ReadFiles]; the vocabulary has been read
    already. *)
Definition read_merges (v : vocab) (file : str) : res merge_table :=
  do lines <- scan_lines file;
  create_merges v (filter (fun l => negb (contains version_mark l)) lines).

(** bpe.go:557-564.  One saved line. *)
Definition save_line (vr : vocab_r) (e : (Z * Z) * (Z * Z)) : str :=
  opt_str (vrget (fst (fst e)) vr) ++ [SP] ++ opt_str (vrget (snd (fst e)) vr).

(** bpe.go:557-579.  The merges file; [sorted] is the merge table in the order
    produced by sort.Slice at 551-554. *)
Definition save_merges (vr : vocab_r) (sorted : merge_table) : str :=
  concat (map (fun e => save_line vr e ++ [NL]) sorted).

(** The model with another merge table, as after loading (bpe.go:134-159). *)
Definition with_merges (b : bpe) (m : merge_table) : bpe :=
  Bpe (b_vocab b) (b_vocab_r b) m (b_unk b) (b_prefix b) (b_suffix b).
