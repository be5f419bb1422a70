(** Vocabulary for the statements about added tokens. *)
From Coq Require Export Permutation Sorted.
From Verif Require Import Base BpeModel AddedVocabModel.

(** A model over the ids 0, ..., n-1 whose two lookups are inverse. *)
Definition base_ok (m : base_model) : Prop :=
  (forall t i, bm_t2i m t = Some i -> 0 <= i < bm_size m)%Z /\
  (forall t i, bm_t2i m t = Some i <-> bm_i2t m i = Some t).

(** [news] lists, once each, the non-empty contents of [ts] without an id. *)
Definition new_contents (m : base_model) (av : added_vocab) (ts : list added_token) (news : list str) : Prop :=
  NoDup news /\
  forall t, In t news <->
    In t (map at_content ts) /\ t <> [] /\ av_token_to_id m av t = None.

Definition call_tokens (c : add_call) : list added_token :=
  match c with AddTok ts => ts | AddSpecial ts => ts end.

(** Every pattern the call can need is there and compiles. *)
Definition patterns_ok (pattern : added_token -> option str) (compiles : str -> bool)
    (t : added_token) : Prop :=
  exists p, pattern t = Some p /\ compiles p = true.

(** Results of sort.Sort: a sorted permutation; a slice that is sorted already is
    left alone. *)
Definition sorts (key : io_pair -> Z) (sort : list io_pair -> list io_pair) : Prop :=
  forall l, Permutation l (sort l) /\ StronglySorted (fun a b => key a <= key b)%Z (sort l) /\
    (StronglySorted (fun a b => key a <= key b)%Z l -> sort l = l).

Definition start_key (p : io_pair) : Z := fst (snd p).
Definition id_key (p : io_pair) : Z := Z.of_nat (fst p).

(** The match lists of a regexp engine over a text of [total] bytes: non-empty
    ranges, ordered and disjoint within a pattern. *)
Fixpoint ordered_from (lo total : Z) (l : list (Z * Z)) : Prop :=
  match l with
  | [] => (lo <= total)%Z
  | (a, b) :: l' => (lo <= a < b)%Z /\ ordered_from b total l'
  end.
Definition matches_ok (total : Z) (found : list (list (Z * Z))) : Prop :=
  Forall (ordered_from 0 total) found.

(** Consecutive non-empty pieces from [from] to [upto]. *)
Fixpoint pieces {A} (from upto : Z) (l : list (A * (Z * Z))) : Prop :=
  match l with
  | [] => from = upto
  | (_, (a, b)) :: l' => a = from /\ (a < b)%Z /\ pieces b upto l'
  end.

(** Pattern [i] was found at the range [r]. *)
Definition occurs (found : list (list (Z * Z))) (i : nat) (r : Z * Z) : Prop :=
  exists l, nth_error found i = Some l /\ In r l.

Definition disjoint (r s : Z * Z) : Prop := (snd r <= fst s \/ snd s <= fst r)%Z.
