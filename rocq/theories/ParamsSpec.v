(** Parameters as a map from keys to values. *)
From Verif Require Import Base ParamsModel.
Open Scope Z_scope.

(** A well-formed heap: every map has each key once, every reference points to a map. *)
Definition well_formed (h : heap) : Prop :=
  forall m, In m h -> NoDup (map fst m) /\ forall k r, In (k, VParams r) m -> (r < length h)%nat.

(** What is stored under a key. *)
Definition stored (h : heap) (r : nat) (k : str) : option value := aget str_eqb k (params_at h r).

Definition nil_like (v : value) : Prop := v = VNil \/ v = VNilRef.
Definition is_array (v : value) : Prop := exists x, v = VArray x.
(** A stored value that counts as present. *)
Definition proper (v : value) : Prop := ~ nil_like v /\ ~ is_array v.

(** Two heaps that agree outside the map [r]. *)
Definition elsewhere (r : nat) (h h' : heap) : Prop := forall r', r' <> r -> (r' < length h)%nat -> params_at h' r' = params_at h r'.

(** [v'] in [h'] is a deep copy of [v] in [h]: nested parameters are copied, nil-like values
    become nil, everything else is the same value. *)
Inductive deep_copy_of (h h' : heap) : value -> value -> Prop :=
| DC_nil : forall v, nil_like v -> deep_copy_of h h' v VNil
| DC_other : forall x, deep_copy_of h h' (VOther x) (VOther x)
| DC_params : forall r r',
    (forall k, stored h r k = None <-> stored h' r' k = None) ->
    (forall k v v', stored h r k = Some v -> stored h' r' k = Some v' -> deep_copy_of h h' v v') ->
    deep_copy_of h h' (VParams r) (VParams r').

(** [r] can be reached from the value. *)
Inductive reaches (h : heap) : value -> nat -> Prop :=
| Reach_here : forall r, reaches h (VParams r) r
| Reach_in : forall r k v r', stored h r k = Some v -> reaches h v r' -> reaches h (VParams r) r'.

(** No map contains itself, directly or not: there is a depth that decreases. *)
Definition nested_below (h : heap) (depth : nat -> nat) : Prop :=
  forall r k r', stored h r k = Some (VParams r') -> (depth r' < depth r)%nat.
(** No reachable array. *)
Definition array_free (h : heap) (v : value) : Prop :=
  forall r k x, reaches h v r -> stored h r k = Some x -> ~ is_array x.
