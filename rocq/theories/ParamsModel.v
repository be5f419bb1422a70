(** Model of /repo/util/param.go.  A Params is a reference into a heap of maps, since
    parameters can be Params themselves.  Maps are lists; the order in which Go iterates
    over a map is left to the order of the list. *)
From Verif Require Import Base.
Open Scope Z_scope.

(** interface{}: nil; a nil pointer, map, channel or slice; an array; a pointer to a Params;
    any other value, which the code only hands on. *)
Inductive value := VNil | VNilRef | VArray (x : Z) | VParams (r : nat) | VOther (x : Z).
(** param.go:10-12.  All maps there are. *)
Definition heap := list (list (str * value)).
Definition params_at (h : heap) (r : nat) : list (str * value) := nth r h [].
Definition put_params (h : heap) (r : nat) (m : list (str * value)) : heap := firstn r h ++ m :: skipn (S r) h.

(** The builtin delete. *)
Definition aremove (k : str) (m : list (str * value)) : list (str * value) := filter (fun e => negb (str_eqb k (fst e))) m.

(** param.go:205-216.  reflect.Value.IsNil panics on arrays. *)
Definition is_nil (v : value) : res bool :=
  match v with
  | VNil | VNilRef => Ok true
  | VArray _ => Panic
  | VParams _ | VOther _ => Ok false
  end.

(** param.go:35-41. *)
Definition p_param (h : heap) (r : nat) (k : str) : value :=
  match aget str_eqb k (params_at h r) with Some v => v | None => VNil end.

(** param.go:24-31. *)
Definition p_pop (h : heap) (r : nat) (k : str) : value * heap :=
  match aget str_eqb k (params_at h r) with
  | Some v => (v, put_params h r (aremove k (params_at h r)))
  | None => (VNil, h)
  end.

(** param.go:44-55. *)
Definition p_has (h : heap) (r : nat) (k : str) : res bool :=
  match aget str_eqb k (params_at h r) with
  | None => Ok false
  | Some v => do b <- is_nil v; Ok (negb b)
  end.

(** param.go:59-73; without a default value it is nil. *)
Definition p_get (h : heap) (r : nat) (k : str) (dflt : value) : res value :=
  match aget str_eqb k (params_at h r) with
  | None => Ok dflt
  | Some v => do b <- is_nil v; Ok (if b : bool then dflt else v)
  end.

(** param.go:174-176. *)
Definition p_set (h : heap) (r : nat) (k : str) (v : value) : heap := put_params h r (aset str_eqb k v (params_at h r)).

(** param.go:76-83. *)
Definition p_copy (h : heap) (r from : nat) (k newKey : str) : res heap :=
  do v <- p_get h from k VNil; Ok (p_set h r newKey v).

(** param.go:138-145. *)
Definition p_keys (h : heap) (r : nat) : list str := map fst (params_at h r).
(** param.go:169-171. *)
Definition p_len (h : heap) (r : nat) : Z := zlen (params_at h r).

(** param.go:147-155. *)
Definition p_delete (h : heap) (r : nat) (k : str) : res heap :=
  do _ <- p_get h r k VNil; Ok (put_params h r (aremove k (params_at h r))).
(** param.go:157-161. *)
Definition p_delete_all (h : heap) (r : nat) : res heap := foldR (fun h k => p_delete h r k) (p_keys h r) h.

(** param.go:127-135.  The result is a new Params. *)
Definition p_select (h : heap) (r : nat) (keys : list str) : res (heap * nat) :=
  do h' <- foldR (fun h' k => do v <- p_get h' r k VNil; Ok (p_set h' (length h) k v)) keys (h ++ [[]]);
  Ok (h', length h).

(** param.go:97-124: the copy of a value that Get returned.  [fuel] is the depth of the
    recursion. *)
Fixpoint deep (fuel : nat) (h : heap) (v : value) : res (heap * value) :=
  match v with
  | VParams r =>
      match fuel with
      | O => NoFuel
      | S fuel' =>
          do h' <- foldR (fun h' k =>
                     do x <- p_get h' r k VNil;
                     do hx <- deep fuel' h' x;
                     Ok (p_set (fst hx) (length h) k (snd hx))) (p_keys h r) (h ++ [[]]);
          Ok (h', VParams (length h))
      end
  | _ => Ok (h, v)
  end.
(** param.go:97-105. *)
Definition p_clone (fuel : nat) (h : heap) (r : nat) : res (heap * value) := deep fuel h (VParams r).
(** param.go:86-94, 107-124. *)
Definition p_deep_copy (fuel : nat) (h : heap) (r from : nat) (k newKey : str) : res heap :=
  do v <- p_get h from k VNil;
  do hv <- deep fuel h v;
  Ok (p_set (fst hv) r newKey (snd hv)).

(** param.go:14-21: without values an empty map. *)
Definition p_new (h : heap) : heap * nat := (h ++ [[]], length h).

(** param.go:178-196: the options that WithParams makes, applied to a Params. *)
Definition p_with (h : heap) (r : nat) (opts : list (str * value)) : heap := fold_left (fun h e => p_set h r (fst e) (snd e)) opts h.
Definition p_options (h : heap) (from : nat) : list (str * value) := params_at h from.
