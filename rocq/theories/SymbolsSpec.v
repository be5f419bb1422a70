(** Which of two merges comes first: the one with the lower rank; among equal ranks, the one
    further to the left. *)
From Verif Require Import Base.
Open Scope Z_scope.

Definition before (rank pos rank' pos' : Z) : Prop := rank < rank' \/ rank = rank' /\ pos < pos'.
