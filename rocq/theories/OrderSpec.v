(** Which of the special tokens written in a text are found, in any order (C73, C76). *)
From Verif Require Import Base ItemsSpec.
Open Scope list_scope.

(** Token [a] stands before token [b] in the list. *)
Definition listed_before (l : list (str * Z)) (a b : str) : Prop :=
  exists i j, (i < j)%nat /\ nth_error (map fst l) i = Some a /\ nth_error (map fst l) j = Some b.

(** A text, given as its first part and the tokens with what follows each of them, and the same text
    cut only at the tokens that are found: those after which no token is written that is listed
    before them.  The others belong to the parts. *)
Inductive found_as (l : list (str * Z)) : str -> list (str * Z * str) -> str -> list (str * Z * str) -> Prop :=
| found_end p : found_as l p [] p []
| found_kept p t id q ps q' ps' : found_as l q ps q' ps' ->
    (forall x, In x ps -> ~ listed_before l (fst (fst x)) t) -> found_as l p ((t, id, q) :: ps) p ((t, id, q') :: ps')
| found_lost p t id q ps q' ps' x : found_as l q ps q' ps' ->
    In x ps -> listed_before l (fst (fst x)) t -> found_as l p ((t, id, q) :: ps) (p ++ t ++ q') ps'.

(** The same for texts in which each token is written once at most: the parts between the tokens hold
    none of them. *)
Definition found_in (l : list (str * Z)) (q r : str * list (str * Z * str)) : Prop :=
  Forall (fun x => In (fst x) l) (snd q) /\ NoDup (map fst (snd q)) /\ Forall (free_of (map fst l)) (between q) /\
  found_as l (fst q) (snd q) (fst r) (snd r).
