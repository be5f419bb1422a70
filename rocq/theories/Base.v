(** Basic vocabulary shared by all model files: Go results, slices, strings. *)
From Coq Require Export List Arith ZArith NArith Lia Bool.
From Coq Require Export ZifyBool ZifyNat ZifyN.
Export ListNotations.

(** Outcome of a Go call.  [Err]: an error value is returned.  [Panic]: a
    run-time panic.  [Fatal]: log.Fatal ends the process.  [NoFuel]: the model's
    explicit loop bound was exhausted (never a Go outcome; excluded by theorem). *)
Inductive res (A : Type) : Type :=
| Ok (a : A) | Err | Panic | Fatal | NoFuel.
Arguments Ok {A} a. Arguments Err {A}. Arguments Panic {A}.
Arguments Fatal {A}. Arguments NoFuel {A}.

Definition bind {A B} (x : res A) (f : A -> res B) : res B :=
  match x with
  | Ok a => f a | Err => Err | Panic => Panic | Fatal => Fatal | NoFuel => NoFuel
  end.

Declare Scope res_scope.
Notation "'do' x <- e ; f" := (bind e (fun x => f))
  (at level 200, x pattern, e at level 100, f at level 200) : res_scope.
Open Scope res_scope.

Section MapR.
  Context {A B : Type} (f : A -> res B).
  (** Sequential loop [for _, x := range l { out = append(out, f(x)) }] that
      stops at the first abnormal outcome. *)
  Fixpoint mapR (l : list A) : res (list B) :=
    match l with
    | [] => Ok []
    | x :: xs => do y <- f x; do ys <- mapR xs; Ok (y :: ys)
    end.
End MapR.

Section FoldR.
  Context {A S : Type} (f : S -> A -> res S).
  (** Sequential loop updating a state. *)
  Fixpoint foldR (l : list A) (s : S) : res S :=
    match l with
    | [] => Ok s
    | x :: xs => do s' <- f s x; foldR xs s'
    end.
End FoldR.

(** Go strings are byte sequences. *)
Definition str := list N.

Fixpoint str_eqb (a b : str) : bool :=
  match a, b with
  | [], [] => true
  | x :: a', y :: b' => N.eqb x y && str_eqb a' b'
  | _, _ => false
  end.

Definition zlen {A} (l : list A) : Z := Z.of_nat (length l).

(** Go [l[i:j]] on a slice whose capacity equals its length. *)
Definition zslice {A} (l : list A) (i j : Z) : res (list A) :=
  if ((0 <=? i) && (i <=? j) && (j <=? zlen l))%Z
  then Ok (firstn (Z.to_nat (j - i)) (skipn (Z.to_nat i) l))
  else Panic.

(** Go [l[i]]. *)
Definition zindex {A} (l : list A) (i : Z) : res A :=
  if (0 <=? i)%Z then
    match nth_error l (Z.to_nat i) with Some x => Ok x | None => Panic end
  else Panic.

(** Go maps with integer keys as association lists (first binding wins,
    insertion replaces in place or appends). *)
Section Assoc.
  Context {K V : Type} (keqb : K -> K -> bool).
  Fixpoint aget (k : K) (m : list (K * V)) : option V :=
    match m with
    | [] => None
    | (k', v) :: m' => if keqb k k' then Some v else aget k m'
    end.
  Fixpoint aset (k : K) (v : V) (m : list (K * V)) : list (K * V) :=
    match m with
    | [] => [(k, v)]
    | (k', v') :: m' => if keqb k k' then (k', v) :: m' else (k', v') :: aset k v m'
    end.
End Assoc.
