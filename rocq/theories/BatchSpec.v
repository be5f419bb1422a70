(** Specification side of C44, C45 and C46. *)
From Verif Require Import Base.
From Coq Require Import Permutation.
Open Scope Z_scope.

(** How often [w] occurs in [l]. *)
Fixpoint times (w : str) (l : list str) : Z :=
  match l with
  | [] => 0
  | x :: l' => (if str_eqb w x then 1 else 0) + times w l'
  end.

Definition zsum (l : list Z) : Z := fold_right Z.add 0 l.

(** How often [w] occurs in the words of all the lines. *)
Definition times_in_lines (words_of : str -> list str) (w : str) (lines : list str) : Z :=
  zsum (map (fun l => times w (words_of l)) lines).

(** A dictionary holds exactly the counts [count]: the words with a non-zero count. *)
Definition counts_are (dict : list (str * Z)) (count : str -> Z) : Prop :=
  forall w, aget str_eqb w dict = if count w =? 0 then None else Some (count w).

(** [idx] is a list of distinct positions of a list of length [n]. *)
Definition distinct_positions (n : nat) (idx : list nat) : Prop :=
  NoDup idx /\ forall i, In i idx -> (i < n)%nat.

(** The lines that are read before more than [limit] bytes (line ends not counted) have
    been read. *)
Fixpoint fitting (limit : Z) (lines : list str) : list str :=
  match lines with
  | [] => []
  | l :: lines' => if zlen l <=? limit then l :: fitting (limit - zlen l) lines' else []
  end.

Definition total_length (lines : list str) : Z := zsum (map zlen lines).
