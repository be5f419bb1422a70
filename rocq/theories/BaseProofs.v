(** Facts about the basic vocabulary. *)
From Verif Require Import Base.

Lemma str_eqb_eq a b : str_eqb a b = true <-> a = b.
Proof.
  revert b; induction a as [|x a IH]; intros [|y b]; cbn; split; try congruence.
  - intros H. apply andb_true_iff in H as [H1 H2]. apply N.eqb_eq in H1 as ->.
    apply IH in H2 as ->. reflexivity.
  - intros [= -> ->]. rewrite N.eqb_refl. now apply IH.
Qed.

Lemma str_eqb_refl a : str_eqb a a = true.
Proof. now apply str_eqb_eq. Qed.

Lemma str_eqb_neq a b : str_eqb a b = false <-> a <> b.
Proof.
  destruct (str_eqb a b) eqn:E.
  - apply str_eqb_eq in E. split; congruence.
  - split; [|reflexivity]. intros _ ->. rewrite str_eqb_refl in E. discriminate.
Qed.

Lemma str_eq_dec (a b : str) : {a = b} + {a <> b}.
Proof.
  destruct (str_eqb a b) eqn:E; [left; now apply str_eqb_eq|right; now apply str_eqb_neq].
Qed.

Section Assoc.
  Context {K V : Type} (keqb : K -> K -> bool).
  Hypothesis keqb_eq : forall a b, keqb a b = true <-> a = b.

  Lemma keqb_refl k : keqb k k = true.
  Proof. now apply keqb_eq. Qed.

  Lemma keqb_neq a b : a <> b -> keqb a b = false.
  Proof. intros H. destruct (keqb a b) eqn:E; [|reflexivity]. now apply keqb_eq in E. Qed.

  Lemma ag_aset (m : list (K * V)) k v k' :
    aget keqb k' (aset keqb k v m) = if keqb k' k then Some v else aget keqb k' m.
  Proof.
    induction m as [|[k0 v0] m IH]; cbn.
    - destruct (keqb k' k); reflexivity.
    - destruct (keqb k k0) eqn:E; cbn.
      + apply keqb_eq in E as ->. destruct (keqb k' k0); reflexivity.
      + destruct (keqb k' k0) eqn:E2.
        * apply keqb_eq in E2 as ->. destruct (keqb k0 k) eqn:E3; [|reflexivity].
          apply keqb_eq in E3 as ->. now rewrite keqb_refl in E.
        * apply IH.
  Qed.

  Lemma ag_in (m : list (K * V)) k v : aget keqb k m = Some v -> In (k, v) m.
  Proof.
    induction m as [|[k0 v0] m IH]; cbn; [discriminate|]. destruct (keqb k k0) eqn:E.
    - apply keqb_eq in E as ->. intros [= ->]. now left.
    - intros H. right. now apply IH.
  Qed.

  Lemma ag_none (m : list (K * V)) k : aget keqb k m = None <-> ~ In k (map fst m).
  Proof.
    induction m as [|[k0 v0] m IH]; cbn; [tauto|]. destruct (keqb k k0) eqn:E.
    - apply keqb_eq in E as ->. split; [discriminate|]. intros H. exfalso. apply H. now left.
    - rewrite IH. split.
      + intros H [->|H1]; [now rewrite keqb_refl in E|now apply H].
      + intros H H1. apply H. now right.
  Qed.

  Lemma ag_nodup (m : list (K * V)) k v : NoDup (map fst m) -> In (k, v) m -> aget keqb k m = Some v.
  Proof.
    induction m as [|[k0 v0] m IH]; cbn; [tauto|]. intros N [E|H].
    - injection E as -> ->. now rewrite keqb_refl.
    - inversion N as [|? ? N1 N2]; subst. destruct (keqb k k0) eqn:E.
      + apply keqb_eq in E as ->. exfalso. apply N1. change k0 with (fst (k0, v)). now apply in_map.
      + now apply IH.
  Qed.

  Lemma ag_iff (m : list (K * V)) k v : NoDup (map fst m) -> (aget keqb k m = Some v <-> In (k, v) m).
  Proof. intros N. split; [apply ag_in|now apply ag_nodup]. Qed.

  Lemma aset_fresh (m : list (K * V)) k v : ~ In k (map fst m) -> aset keqb k v m = m ++ [(k, v)].
  Proof.
    induction m as [|[k0 v0] m IH]; cbn; [reflexivity|]. intros H.
    rewrite keqb_neq by (intros ->; apply H; now left). f_equal. apply IH. tauto.
  Qed.

  Lemma aset_keys_present (m : list (K * V)) k v :
    In k (map fst m) -> map fst (aset keqb k v m) = map fst m.
  Proof.
    induction m as [|[k0 v0] m IH]; cbn; [tauto|]. intros H. destruct (keqb k k0) eqn:E; [reflexivity|].
    cbn. f_equal. apply IH. destruct H as [->|H]; [now rewrite keqb_refl in E|exact H].
  Qed.

  Lemma in_keys_dec (m : list (K * V)) k : {In k (map fst m)} + {~ In k (map fst m)}.
  Proof.
    destruct (aget keqb k m) as [v|] eqn:E.
    - left. apply ag_in in E. change k with (fst (k, v)). now apply in_map.
    - right. now apply ag_none.
  Qed.

  Lemma aset_nodup (m : list (K * V)) k v :
    NoDup (map fst m) -> NoDup (map fst (aset keqb k v m)).
  Proof.
    intros N. destruct (in_keys_dec m k) as [I|I].
    - now rewrite aset_keys_present.
    - rewrite aset_fresh, map_app by exact I. cbn.
      rewrite <- rev_involutive. apply NoDup_rev. rewrite rev_app_distr. cbn. constructor.
      + now rewrite <- in_rev.
      + now apply NoDup_rev.
  Qed.

  Lemma aset_len (m : list (K * V)) k v :
    length (aset keqb k v m) = if in_keys_dec m k then length m else S (length m).
  Proof.
    destruct (in_keys_dec m k) as [I|I].
    - rewrite <- (map_length fst), aset_keys_present, map_length by exact I. reflexivity.
    - rewrite aset_fresh, app_length by exact I. cbn. lia.
  Qed.
End Assoc.
