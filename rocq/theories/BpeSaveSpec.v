(** Vocabulary for the statements about merge files. *)
From Coq Require Export Permutation Sorted.
From Verif Require Import Base BpeModel BpeSaveModel.

(** A line is "left right": exactly one space. *)
Definition two_tokens (line x y : str) : Prop :=
  line = x ++ [SP] ++ y /\ ~ In SP x /\ ~ In SP y.

Definition malformed (line : str) : Prop := ~ exists x y, two_tokens line x y.

(** A line whose two tokens are known but whose concatenation is not. *)
Definition dangling (v : vocab) (line : str) : Prop :=
  exists x y a b, two_tokens line x y /\ vget x v = Some a /\ vget y v = Some b /\
    vget (x ++ y) v = None.

(** [accepts v lines acc]: [acc] lists, in line order, the merges (pair, new id)
    given by the lines; a line with an unknown token gives none. *)
Inductive accepts (v : vocab) : list str -> list ((Z * Z) * Z) -> Prop :=
| acc_nil : accepts v [] []
| acc_skip line lines acc x y :
    two_tokens line x y -> vget x v = None \/ vget y v = None ->
    accepts v lines acc -> accepts v (line :: lines) acc
| acc_line line lines acc x y a b new :
    two_tokens line x y -> vget x v = Some a -> vget y v = Some b ->
    vget (x ++ y) v = Some new ->
    accepts v lines acc -> accepts v (line :: lines) (((a, b), new) :: acc).

(** The last position at which [acc] has the pair. *)
Definition last_at (acc : list ((Z * Z) * Z)) (p : Z * Z) (i : nat) (new : Z) : Prop :=
  nth_error acc i = Some (p, new) /\
  forall j new', i < j -> nth_error acc j <> Some (p, new').

Definition rank_of (e : (Z * Z) * (Z * Z)) : Z := fst (snd e).

(** A merge table over a vocabulary: the pairs and their ranks are distinct, and
    each merge concatenates two tokens into the token it names. *)
Definition consistent (v : vocab) (vr : vocab_r) (t : merge_table) : Prop :=
  NoDup (map fst t) /\ NoDup (map rank_of t) /\
  forall c1 c2 rank new, In ((c1, c2), (rank, new)) t ->
    exists x y, vrget c1 vr = Some x /\ vrget c2 vr = Some y /\
      vget x v = Some c1 /\ vget y v = Some c2 /\ vget (x ++ y) v = Some new.

(** No token of a merge contains a space or a newline. *)
Definition separable (vr : vocab_r) (t : merge_table) : Prop :=
  forall c1 c2 rank new x, In ((c1, c2), (rank, new)) t ->
    vrget c1 vr = Some x \/ vrget c2 vr = Some x -> ~ In SP x /\ ~ In NL x.

(** What else the file format needs of a merge's line: the scanner's length
    limit, no "#version" in it, no carriage return at its end. *)
Definition plain_line (line : str) : Prop :=
  (zlen line < 65536)%Z /\ contains version_mark line = false /\ last line 0%N <> CR.

(** The possible results of sorting the table by rank. *)
Definition sorting (t sorted : merge_table) : Prop :=
  Permutation t sorted /\ StronglySorted (fun a b => rank_of a <= rank_of b)%Z sorted.

(** The number of merges of lower rank. *)
Definition position (t : merge_table) (rank : Z) : Z :=
  zlen (filter (fun e => rank_of e <? rank)%Z t).

(** The same pairs with the same results, ranked in the same order. *)
Definition same_order (t t' : merge_table) : Prop :=
  (forall c1 c2, option_map snd (lookup_merge t c1 c2) = option_map snd (lookup_merge t' c1 c2)) /\
  (forall c1 c2 d1 d2 r n s m r' n' s' m',
     lookup_merge t c1 c2 = Some (r, n) -> lookup_merge t d1 d2 = Some (s, m) ->
     lookup_merge t' c1 c2 = Some (r', n') -> lookup_merge t' d1 d2 = Some (s', m') ->
     (r < s <-> r' < s')%Z).
