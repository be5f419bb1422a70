(** Specification of greedy longest-match-first segmentation, written without the
    model's loops. *)
From Verif Require Import Base Utf8Model BpeModel.
From Coq Require Import Permutation Sorted.
Open Scope Z_scope.

(** What is looked up for the piece [p]: [p] itself at the beginning of the word, the
    prefixed piece elsewhere. *)
Definition piece_key (prefix : str) (first : bool) (p : list N) : str :=
  if first then encode p else prefix ++ encode p.

(** [greedy v prefix first w ps]: [ps] is the greedy segmentation of the characters [w]:
    each piece is the longest non-empty beginning of the rest that is in the vocabulary. *)
Inductive greedy (v : vocab) (prefix : str) : bool -> list N -> list (Z * list N) -> Prop :=
| greedy_end first : greedy v prefix first [] []
| greedy_piece first p rest id ps :
    p <> [] -> vget (piece_key prefix first p) v = Some id ->
    (forall q r, p ++ rest = q ++ r -> (length p < length q)%nat ->
       vget (piece_key prefix first q) v = None) ->
    greedy v prefix false rest ps ->
    greedy v prefix first (p ++ rest) ((id, p) :: ps).

(** The tokens of a segmentation, numbered from character [pos]. *)
Fixpoint piece_tokens (prefix : str) (first : bool) (pos : Z) (ps : list (Z * list N)) : list token :=
  match ps with
  | [] => []
  | (id, p) :: ps' =>
      Tok id (piece_key prefix first p) (pos, pos + zlen p) :: piece_tokens prefix false (pos + zlen p) ps'
  end.

(** The ids of a vocabulary are 0 .. n-1, each once. *)
Definition dense (v : vocab) : Prop :=
  Permutation (map snd v) (map Z.of_nat (seq 0 (length v))).

(** A vocabulary file line that survives reading: no newline, no final carriage return,
    shorter than 64 KiB. *)
Definition plain_token (t : str) : Prop :=
  ~ In 10%N t /\ last t 0%N <> 13%N /\ zlen t < 65536.

(** [sorted] lists the vocabulary [v] by increasing id, as sort.Slice leaves it. *)
Definition by_id (v sorted : vocab) : Prop :=
  Permutation v sorted /\ StronglySorted (fun a b => snd a <= snd b) sorted.
