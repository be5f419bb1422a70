(** Specification side of C46 (pair counts) and C47 (BPE training). *)
From Verif Require Import Base DecoderSpec TrainerModel.
Open Scope Z_scope.

(** How often the symbol [a] is directly followed by [b] in a word. *)
Fixpoint follows (a b : Z) (w : list Z) : Z :=
  match w with
  | x :: w' =>
      (match w' with y :: _ => if (x =? a) && (y =? b) then 1 else 0 | [] => 0 end) + follows a b w'
  | [] => 0
  end.

(** The number of occurrences of the pair in a corpus: words with their counts. *)
Fixpoint corpus_count (a b : Z) (words : list (list Z)) (counts : list Z) : Z :=
  match words, counts with
  | w :: ws, c :: cs => follows a b w * c + corpus_count a b ws cs
  | _, _ => 0
  end.

Definition occurs_in (a b : Z) (words : list (list Z)) (k : nat) : Prop :=
  exists w, nth_error words k = Some w /\ 0 < follows a b w.

(** A pair table: [count p] and [where_ p], defined for the pairs that occur. *)
Definition pair_table_of (words : list (list Z)) (counts : list Z)
  (count : Z * Z -> option Z) (where_ : Z * Z -> option (list nat)) : Prop :=
  forall a b,
    ((exists k, occurs_in a b words k) /\ count (a, b) = Some (corpus_count a b words counts) /\
     exists ks, where_ (a, b) = Some ks /\ forall k, In k ks <-> occurs_in a b words k)
    \/ ((forall k, ~ occurs_in a b words k) /\ count (a, b) = None /\ where_ (a, b) = None).

(** The highest index at which [s] stands in [l]. *)
Fixpoint last_index (s : str) (l : list str) : option Z :=
  match l with
  | [] => None
  | x :: l' => match last_index s l' with
               | Some i => Some (i + 1)
               | None => if str_eqb s x then Some 0 else None
               end
  end.

(** The entry with number [i]. *)
Definition at_index (l : list str) (i : Z) (s : str) : Prop := 0 <= i /\ nth_error l (Z.to_nat i) = Some s.

(** [s] without a leading [p]. *)
Definition without_prefix (p : option str) (s s' : str) : Prop :=
  match p with
  | None => s' = s
  | Some q => s = (q ++ s')%list \/ ((forall t, s <> (q ++ t)%list) /\ s' = s)
  end.

(** The entries made by training, [news] (a merged pair and the id it got): from [base] on,
    consecutive ids, each the concatenation of two earlier entries. *)
Definition merges_fit (prefix : option str) (base : Z) (l : list str) (news : list ((Z * Z) * Z)) : Prop :=
  forall i a b id, nth_error news i = Some ((a, b), id) ->
    id = base + Z.of_nat i /\ a < id /\ b < id /\
    exists sa sb sb', at_index l a sa /\ at_index l b sb /\ without_prefix prefix sb sb' /\ at_index l id (sa ++ sb').

(** A character of a word of the corpus, or an entry of the initial alphabet. *)
Definition initial_char (cf : tcfg) (wc : list (str * Z)) (c : str) : Prop :=
  (exists w n, In (w, n) wc /\ exists cs, characters w cs /\ In c cs) \/ In c (tc_initial cf).

(** The queue hands out an entry with the highest count. *)
Definition picks_highest (pick : list tmerge -> nat) : Prop :=
  forall q, q <> [] -> exists m, nth_error q (pick q) = Some m /\ forall e, In e q -> tm_count e <= tm_count m.

(** The limit on the initial alphabet, if there is one, is not negative. *)
Definition limit_ok (cf : tcfg) : Prop := forall l, tc_limit cf = Some l -> 0 <= l.
