(** Specification of byte-pair encoding on plain lists of (id, length), without
    linked lists and queues. *)
From Verif Require Import Base.

Definition seg := (Z * Z)%type.   (* id, length in bytes *)

(** [table c1 c2 = Some (rank, new)]: the pair may be merged. *)
Definition table := Z -> Z -> option (Z * Z).

(** One prescribed merge: two adjacent symbols are replaced by the one the table
    prescribes; [r] is its rank. *)
Inductive merge_step (t : table) : Z -> list seg -> list seg -> Prop :=
| MergeStep A B c1 l1 c2 l2 r new :
    t c1 c2 = Some (r, new) ->
    merge_step t r (A ++ (c1, l1) :: (c2, l2) :: B) (A ++ (new, (l1 + l2)%Z) :: B).

(** Any number of prescribed merges. *)
Inductive merge_steps (t : table) : list seg -> list seg -> Prop :=
| MergeDone l : merge_steps t l l
| MergeMore r l1 l2 l3 :
    merge_step t r l1 l2 -> merge_steps t l2 l3 -> merge_steps t l1 l3.

(** No adjacent pair is in the table. *)
Definition exhausted (t : table) (l : list seg) : Prop :=
  forall A B c1 l1 c2 l2, l = A ++ (c1, l1) :: (c2, l2) :: B -> t c1 c2 = None.

(** Any number of merges, each of an adjacent pair of lowest rank. *)
Definition lowest_rank (t : table) (r : Z) (l : list seg) : Prop :=
  forall A B c1 l1 c2 l2 r' n',
    l = A ++ (c1, l1) :: (c2, l2) :: B -> t c1 c2 = Some (r', n') -> (r <= r')%Z.

Inductive ranked_steps (t : table) : list seg -> list seg -> Prop :=
| RankedDone l : ranked_steps t l l
| RankedMore r l1 l2 l3 :
    merge_step t r l1 l2 -> lowest_rank t r l1 -> ranked_steps t l2 l3 -> ranked_steps t l1 l3.

(** The reference procedure: find the lowest rank of an adjacent pair, merge its
    leftmost occurrence, repeat. *)
Fixpoint best_rank (t : table) (l : list seg) : option Z :=
  match l with
  | (c1, _) :: (((c2, _) :: _) as l') =>
      match t c1 c2, best_rank t l' with
      | Some (r, _), Some r' => Some (Z.min r r')
      | Some (r, _), None => Some r
      | None, o => o
      end
  | _ => None
  end.

Fixpoint merge_leftmost (t : table) (r : Z) (l : list seg) : list seg :=
  match l with
  | (c1, l1) :: (((c2, l2) :: l'') as l') =>
      match t c1 c2 with
      | Some (r', new) =>
          if (r' =? r)%Z then (new, (l1 + l2)%Z) :: l'' else (c1, l1) :: merge_leftmost t r l'
      | None => (c1, l1) :: merge_leftmost t r l'
      end
  | _ => l
  end.

Fixpoint reference_f (t : table) (fuel : nat) (l : list seg) : list seg :=
  match fuel with
  | O => l
  | S fuel' =>
      match best_rank t l with
      | Some r => reference_f t fuel' (merge_leftmost t r l)
      | None => l
      end
  end.

(** Each merge shortens the list, so its length is enough fuel. *)
Definition reference (t : table) (l : list seg) : list seg := reference_f t (length l) l.

(** Offsets that start at [a], are contiguous, and end at [b]. *)
Fixpoint tiles (a b : Z) (offs : list (Z * Z)) : Prop :=
  match offs with
  | [] => a = b
  | (s, e) :: offs' => s = a /\ (s < e)%Z /\ tiles e b offs'
  end.

(** The segments as (id, start, end). *)
Fixpoint spans (pos : Z) (l : list seg) : list (Z * Z * Z) :=
  match l with
  | [] => []
  | (c, n) :: l' => (c, pos, (pos + n)%Z) :: spans (pos + n) l'
  end.
