(** What the slice helpers must leave alone. *)
From Verif Require Import Base SliceModel.

(** Every slice that existed before shows the same elements after. *)
Definition keeps {A} (M M' : mem (A:=A)) : Prop :=
  forall t, valid M t -> valid M' t /\ sread M' t = sread M t.

(** The same for the slices outside backing array [k]. *)
Definition frame {A} (k : nat) (M M' : mem (A:=A)) : Prop :=
  forall t, valid M t -> sarr t <> k -> valid M' t /\ sread M' t = sread M t.
