From Verif Require Import Base BaseProofs BpeModel AddedVocabModel AddedVocabSpec.
From Verif Require Import EncodingProofs.

Local Notation t2i := av_token_to_id.

Record inv (m : base_model) (av : added_vocab) : Prop := Inv {
  inv_ids : map snd (av_map av) = map (fun k => bm_size m + Z.of_nat k)%Z (seq 0 (length (av_map av)));
  inv_keys : NoDup (map fst (av_map av));
  inv_new : forall t i, In (t, i) (av_map av) -> bm_t2i m t = None;
  inv_r : forall i t, aget Z.eqb i (av_map_r av) = Some t -> t2i m av t = Some i;
  inv_fwd : forall t i, In (t, i) (av_map av) -> aget Z.eqb i (av_map_r av) = Some t;
  inv_added : forall t, In t (av_added av) -> exists i, t2i m av (at_content t) = Some i;
}.

Lemma map_id_ge m av t i : inv m av -> In (t, i) (av_map av) -> (bm_size m <= i < bm_size m + zlen (av_map av))%Z.
Proof.
  intros I H. assert (K : In i (map snd (av_map av))) by (change i with (snd (t, i)); now apply in_map).
  rewrite (inv_ids _ _ I) in K. apply in_map_iff in K as (k & <- & K). apply in_seq in K. unfold zlen. lia.
Qed.

Lemma inv_nil m : inv m new_added_vocab.
Proof. constructor; cbn; try constructor; try (intros; discriminate); try tauto. Qed.

Lemma t2i_map m av t i : inv m av -> In (t, i) (av_map av) -> t2i m av t = Some i.
Proof.
  intros I H. unfold av_token_to_id. now rewrite (ag_nodup str_eqb str_eqb_eq _ _ _ (inv_keys _ _ I) H).
Qed.

Lemma t2i_cases m av t i : t2i m av t = Some i ->
  In (t, i) (av_map av) \/ (aget str_eqb t (av_map av) = None /\ bm_t2i m t = Some i).
Proof.
  unfold av_token_to_id. destruct (aget str_eqb t (av_map av)) as [j|] eqn:E.
  - intros [= <-]. left. now apply (ag_in str_eqb str_eqb_eq) in E.
  - intros H. right. auto.
Qed.

Lemma t2i_lt m av t i : base_ok m -> inv m av -> t2i m av t = Some i -> (i < bm_size m + zlen (av_map av))%Z.
Proof.
  intros [B _] I H. apply t2i_cases in H as [H|[_ H]].
  - apply (map_id_ge m av t i I) in H. lia.
  - apply B in H. unfold zlen. lia.
Qed.

Lemma t2i_inj m av t t' i : base_ok m -> inv m av -> t2i m av t = Some i -> t2i m av t' = Some i -> t = t'.
Proof.
  intros B I H H'. apply t2i_cases in H as [H|[_ H]]; apply t2i_cases in H' as [H'|[_ H']].
  - apply (inv_fwd _ _ I) in H, H'. congruence.
  - apply (map_id_ge m av t i I) in H. apply (proj1 B) in H'. lia.
  - apply (map_id_ge m av t' i I) in H'. apply (proj1 B) in H. lia.
  - destruct B as [_ B]. apply B in H, H'. congruence.
Qed.

Lemma zlen_aset_fresh {V} (l : list (str * V)) k v : ~ In k (map fst l) ->
  zlen (aset str_eqb k v l) = (zlen l + 1)%Z.
Proof. intros H. rewrite (aset_fresh _ str_eqb_eq) by exact H. unfold zlen. rewrite app_length. cbn. lia. Qed.

Definition add_new (m : base_model) (av : added_vocab) (t : added_token) (added : list added_token) : added_vocab :=
  AV (aset str_eqb (at_content t) (bm_size m + zlen (av_map av))%Z (av_map av))
     (aset Z.eqb (bm_size m + zlen (av_map av))%Z (at_content t) (av_map_r av))
     added (av_special av) (av_set av) (av_norm av) (av_nnorm av).

Lemma Zeqb_eq a b : Z.eqb a b = true <-> a = b. Proof. apply Z.eqb_eq. Qed.

Lemma t2i_none_key m av t : t2i m av t = None -> ~ In t (map fst (av_map av)) /\ bm_t2i m t = None.
Proof.
  unfold av_token_to_id. destruct (aget str_eqb t (av_map av)) eqn:E; [discriminate|].
  intros H. split; [|exact H]. now apply (ag_none str_eqb str_eqb_eq).
Qed.

Lemma t2i_add_new m av t added u :
  t2i m (add_new m av t added) u =
    if str_eqb u (at_content t) then Some (bm_size m + zlen (av_map av))%Z else t2i m av u.
Proof.
  unfold av_token_to_id, add_new. cbn [av_map]. rewrite (ag_aset _ str_eqb_eq).
  destruct (str_eqb u (at_content t)); reflexivity.
Qed.

Lemma add_new_inv m av t added : base_ok m -> inv m av -> t2i m av (at_content t) = None ->
  (forall t', In t' added -> In t' (av_added av) \/ t' = t) ->
  inv m (add_new m av t added).
Proof.
  intros B I H Ha. destruct (t2i_none_key m av _ H) as [Hk Hm].
  set (id := (bm_size m + zlen (av_map av))%Z).
  assert (Hid : forall u, t2i m av u <> Some id).
  { intros u K. apply (t2i_lt m av u id B I) in K. unfold id in K. lia. }
  assert (Kr : aget Z.eqb id (av_map_r av) = None).
  { destruct (aget Z.eqb id (av_map_r av)) as [u|] eqn:E; [|reflexivity].
    apply (inv_r _ _ I) in E. now apply Hid in E. }
  assert (Em : av_map (add_new m av t added) = av_map av ++ [(at_content t, id)]).
  { unfold add_new. cbn [av_map]. now rewrite (aset_fresh _ str_eqb_eq). }
  constructor.
  - rewrite Em, map_app, app_length, seq_app, map_app, <- (inv_ids _ _ I). reflexivity.
  - unfold add_new. cbn [av_map]. apply (aset_nodup _ str_eqb_eq). apply I.
  - intros u i. rewrite Em, in_app_iff. intros [K|[[= <- <-]|[]]]; [now apply (inv_new _ _ I) in K|exact Hm].
  - intros i u. unfold add_new at 1. cbn [av_map_r]. rewrite (ag_aset _ Zeqb_eq), t2i_add_new. fold id.
    destruct (Z.eqb_spec i id) as [->|Hi].
    + intros [= <-]. now rewrite str_eqb_refl.
    + intros K. apply (inv_r _ _ I) in K. destruct (str_eqb u (at_content t)) eqn:E; [|exact K].
      apply str_eqb_eq in E as ->. congruence.
  - intros u i. rewrite Em, in_app_iff. unfold add_new. cbn [av_map_r]. rewrite (ag_aset _ Zeqb_eq). fold id.
    intros [K|[[= <- <-]|[]]]; [|now rewrite Z.eqb_refl].
    assert (i <> id) by (intros ->; apply (Hid u); now apply (t2i_map m av u id I)).
    destruct (Z.eqb_spec i id); [congruence|]. now apply (inv_fwd _ _ I).
  - intros u. cbn [add_new av_added]. intros K. rewrite t2i_add_new. fold id.
    destruct (str_eqb (at_content u) (at_content t)) eqn:E; [eauto|].
    destruct (Ha u K) as [K'| ->]; [now apply (inv_added _ _ I)|]. rewrite str_eqb_refl in E. discriminate.
Qed.

Definition same_map (m : base_model) (av av' : added_vocab) : Prop := forall u, t2i m av' u = t2i m av u.

Lemma add_old_inv m av t id : base_ok m -> inv m av -> t2i m av (at_content t) = Some id ->
  inv m (AV (av_map av) (aset Z.eqb id (at_content t) (av_map_r av)) (av_added av)
            (av_special av) (av_set av) (av_norm av) (av_nnorm av)).
Proof.
  intros B I H. constructor; try apply I.
  - intros i u. cbn [av_map_r]. rewrite (ag_aset _ Zeqb_eq). destruct (Z.eqb_spec i id) as [->|_].
    + intros [= <-]. exact H.
    + apply I.
  - intros u i K. cbn [av_map av_map_r] in *. rewrite (ag_aset _ Zeqb_eq).
    destruct (Z.eqb_spec i id) as [->|_]; [|now apply I].
    f_equal. apply (t2i_inj m av _ _ id B I H). now apply (t2i_map m av).
Qed.

Lemma add_one_spec m av n t : base_ok m -> inv m av ->
  let '(av', n') := add_one m (av, n) t in
  inv m av' /\ av_special av' = av_special av /\ av_set av' = av_set av /\
  ((at_content t <> [] /\ t2i m av (at_content t) = None /\ n' = n /\
    (exists id, forall u, t2i m av' u = if str_eqb u (at_content t) then Some id else t2i m av u) /\
    (is_special av (at_content t) = true \/ In t (av_added av'))) \/
   (~ (at_content t <> [] /\ t2i m av (at_content t) = None) /\ n' = (n + 1)%Z /\ same_map m av av')) /\
  (forall u, In u (av_added av) -> In u (av_added av')) /\
  (forall u, In u (av_added av') -> In u (av_added av) \/ u = t).
Proof.
  intros B I. unfold add_one. destruct (length (at_content t) =? 0) eqn:El.
  - apply Nat.eqb_eq, length_zero_iff_nil in El. split; [exact I|]. repeat (split; [reflexivity|]).
    split; [|now auto]. right. split; [intros [K _]; congruence|]. split; [reflexivity|]. intros u. reflexivity.
  - assert (Hn : at_content t <> []) by (intros K; rewrite K in El; discriminate El).
    destruct (av_token_to_id m av (at_content t)) as [id|] eqn:E.
    + split; [now apply add_old_inv|]. repeat (split; [reflexivity|]).
      split; [|now auto]. right. split; [intros [_ K]; congruence|]. split; [reflexivity|]. intros u. reflexivity.
    + set (added := if is_special av (at_content t) then av_added av else av_added av ++ [t]).
      change (AV _ _ _ _ _ _ _) with (add_new m av t added).
      assert (Ha : forall u, In u added -> In u (av_added av) \/ u = t).
      { intros u. unfold added. destruct (is_special av (at_content t)); [auto|]. rewrite in_app_iff. cbn.
        intros [?|[<-|[]]]; auto. }
      split; [now apply add_new_inv|]. repeat (split; [reflexivity|]).
      split; [|split; [|exact Ha]].
      * left. split; [exact Hn|]. split; [reflexivity|]. split; [reflexivity|]. split.
        -- eexists. intros u. apply t2i_add_new.
        -- cbn [add_new av_added]. unfold added. destruct (is_special av (at_content t)); [now left|].
           right. apply in_or_app. right. now left.
      * intros u K. cbn [add_new av_added]. unfold added. destruct (is_special av (at_content t)); [exact K|].
        apply in_or_app. now left.
Qed.

Lemma add_fold_spec m ts : base_ok m -> forall av n, inv m av ->
  let '(av', n') := fold_left (add_one m) ts (av, n) in
  inv m av' /\ av_special av' = av_special av /\ av_set av' = av_set av /\
  (forall u i, t2i m av u = Some i -> t2i m av' u = Some i) /\
  (exists news, new_contents m av ts news /\ n' = (n + zlen ts - zlen news)%Z /\
     (forall u, t2i m av' u <> None <-> t2i m av u <> None \/ In u news) /\
     (forall u, In u news -> is_special av u = true \/ exists t, In t (av_added av') /\ In t ts /\ at_content t = u)) /\
  (forall u, In u (av_added av) -> In u (av_added av')) /\
  (forall u, In u (av_added av') -> In u (av_added av) \/ In u ts).
Proof.
  intros B. induction ts as [|t ts IH]; intros av n I.
  - cbn. split; [exact I|]. repeat (split; [reflexivity|]). split; [auto|]. split; [|auto].
    exists []. split; [|split; [unfold zlen; cbn; lia|split; [cbn; tauto|intros u []]]].
    split; [constructor|]. cbn. tauto.
  - cbn [fold_left].
    pose proof (add_one_spec m av n t B I) as S. destruct (add_one m (av, n) t) as [av1 n1].
    destruct S as (I1 & Hs & Hset & Hcase & Hadd & Hadd').
    specialize (IH av1 n1 I1). destruct (fold_left (add_one m) ts (av1, n1)) as [av2 n2].
    destruct IH as (I2 & Hs2 & Hset2 & Hkeep & (news & [Nd Hnews] & Hn & Hdom & Hsp) & Hadd2 & Hadd2').
    split; [exact I2|]. split; [congruence|]. split; [congruence|].
    assert (Hspec : is_special av1 = is_special av) by (unfold is_special; now rewrite Hset).
    destruct Hcase as [(Hne & Hnone & -> & (id & Hid) & Hsel)|(Hno & -> & Hsame)].
    + assert (Hnews1 : forall u, In u news -> u <> at_content t).
      { intros u K ->. apply Hnews in K as (_ & _ & K). rewrite Hid, str_eqb_refl in K. discriminate. }
      split.
      { intros u i K. apply Hkeep. rewrite Hid. destruct (str_eqb u (at_content t)) eqn:E; [|exact K].
        apply str_eqb_eq in E as ->. congruence. }
      split.
      * exists (at_content t :: news). split; [split|].
        -- constructor; [|exact Nd]. intros K. now apply Hnews1 in K.
        -- intros u. cbn [map In]. split.
           ++ intros [<-|K]; [auto|]. pose proof (Hnews1 u K) as Hne'. apply Hnews in K as (K1 & K2 & K3).
              rewrite Hid in K3.
              destruct (str_eqb u (at_content t)) eqn:E; [discriminate|]. auto.
           ++ intros ([<-|K1] & K2 & K3); [now left|].
              destruct (str_eqb u (at_content t)) eqn:E; [apply str_eqb_eq in E as ->; now left|].
              right. apply Hnews. split; [exact K1|]. split; [exact K2|]. rewrite Hid, E. exact K3.
        -- split; [rewrite Hn; unfold zlen; cbn [length]; lia|]. split.
           ++ intros u. rewrite Hdom, Hid. cbn [In].
              destruct (str_eqb u (at_content t)) eqn:E.
              ** apply str_eqb_eq in E as ->. split; [auto|]. intros _. left. discriminate.
              ** split; [intros [?|?]; auto|]. intros [?|[K|?]]; auto.
                 subst u. rewrite str_eqb_refl in E. discriminate.
           ++ intros u [<-|K].
              ** destruct Hsel as [Hsel|Hsel]; [now left|]. right. exists t. split; [now apply Hadd2|]. split; [now left|reflexivity].
              ** destruct (Hsp u K) as [Hsp'|(t' & K1 & K2 & K3)]; [rewrite Hspec in Hsp'; now left|].
                 right. exists t'. split; [exact K1|]. split; [now right|exact K3].
      * split; [auto|]. intros u K. destruct (Hadd2' u K) as [K'|K']; [|right; now right].
        destruct (Hadd' u K') as [K''| ->]; [now left|right; now left].
    + split; [intros u i K; apply Hkeep; now rewrite Hsame|].
      split.
      * exists news. split; [split; [exact Nd|]|].
        -- intros u. rewrite Hnews. rewrite Hsame. cbn [map In]. split.
           ++ intros (K1 & K2 & K3). auto.
           ++ intros ([<-|K1] & K2 & K3); [|auto]. exfalso. apply Hno. auto.
        -- split; [rewrite Hn; unfold zlen; cbn [length]; lia|]. split.
           ++ intros u. rewrite Hdom, Hsame. reflexivity.
           ++ intros u K. destruct (Hsp u K) as [Hsp'|(t' & K1 & K2 & K3)]; [rewrite Hspec in Hsp'; now left|].
              right. exists t'. split; [exact K1|]. split; [now right|exact K3].
      * split; [auto|]. intros u K. destruct (Hadd2' u K) as [K'|K']; [|right; now right].
        destruct (Hadd' u K') as [K''| ->]; [now left|right; now left].
Qed.

(** The whole state invariant also says that the special tokens are known. *)
Definition known (m : base_model) (av : added_vocab) (t : added_token) : Prop :=
  exists i, t2i m av (at_content t) = Some i.

Definition pats (m : base_model) (pattern : added_token -> option str) (av : added_vocab) : Prop :=
  forall t, In t (av_special av ++ av_added av) ->
    exists p i, pattern t = Some p /\ t2i m av (at_content t) = Some i /\
      In (p, i) (if at_norm t then av_norm av else av_nnorm av).

Section Calls.
  Variable m : base_model.
  Variable pattern : added_token -> option str.
  Variable compiles : str -> bool.
  Hypothesis B : base_ok m.

  Lemma inv_ext av av' : inv m av -> av_map av' = av_map av -> av_map_r av' = av_map_r av ->
    av_added av' = av_added av -> inv m av'.
  Proof.
    intros I E1 E2 E3.
    assert (Et : forall u, t2i m av' u = t2i m av u) by (intros u; unfold av_token_to_id; now rewrite E1).
    constructor; try rewrite E1; try rewrite E2; try rewrite E3; try apply I.
    - intros i t. rewrite Et. apply I.
    - intros t K. rewrite Et. now apply I.
  Qed.

  Lemma refresh_map av av' : refresh m pattern compiles av = Ok av' ->
    av_map av' = av_map av /\ av_map_r av' = av_map_r av /\ av_added av' = av_added av /\
    av_special av' = av_special av /\ av_set av' = av_set av /\ pats m pattern av'.
  Proof.
    unfold refresh. intros E. apply bind_Ok_inv in E as (l & El & E).
    destruct (forallb _ _); [|discriminate]. injection E as <-. cbn. repeat (split; [reflexivity|]).
    intros t K. cbn in K. apply mapR_Ok_Forall2 in El.
    assert (H : exists x, In x l /\ exists p i, x = (at_norm t, (p, i)) /\ pattern t = Some p /\ t2i m av (at_content t) = Some i).
    { clear -El K. induction El as [|t0 x ts l H F IH]; [destruct K|]. destruct K as [->|K].
      - exists x. split; [now left|]. destruct (av_token_to_id m av (at_content t)); [|discriminate].
        destruct (pattern t); [|discriminate]. injection H as <-. eauto.
      - destruct (IH K) as (x' & I & R). exists x'. split; [now right|exact R]. }
    destruct H as (x & Ix & p & i & -> & Hp & Hi). exists p, i. split; [exact Hp|]. split; [exact Hi|].
    destruct (at_norm t) eqn:En; cbn [av_norm av_nnorm]; change (p, i) with (snd (at_norm t, (p, i)));
      rewrite En; apply in_map; apply filter_In; auto.
  Qed.

  Lemma refresh_ok av : (forall t, In t (av_special av ++ av_added av) -> known m av t) ->
    (forall t, In t (av_special av ++ av_added av) -> patterns_ok pattern compiles t) ->
    exists av', refresh m pattern compiles av = Ok av'.
  Proof.
    intros Hk Hp. unfold refresh.
    destruct (mapR_exists_Ok (fun t => match av_token_to_id m av (at_content t) with
               | None => Fatal
               | Some id => match pattern t with None => Fatal | Some p => Ok (at_norm t, (p, id)) end end)
               (av_special av ++ av_added av)) as (l & El).
    { intros t K. destruct (Hk t K) as (i & Hi). rewrite Hi.
      destruct (Hp t K) as (p & -> & _). eauto. }
    rewrite El. cbn [bind].
    assert (Hall : forall x, In x l -> compiles (fst (snd x)) = true).
    { apply mapR_Ok_Forall2 in El. clear -El Hp Hk.
      induction El as [|t x ts l H F IH]; [intros ? []|]. intros y [<-|K].
      - destruct (Hp t (or_introl eq_refl)) as (p & Ep & Ec). rewrite Ep in H.
        destruct (av_token_to_id m av (at_content t)); [|discriminate]. injection H as <-. exact Ec.
      - apply IH; auto; intros; [apply Hk|apply Hp]; now right. }
    replace (forallb _ _) with true; [eauto|]. symmetry. apply forallb_forall. intros [p i] K.
    apply in_app_iff in K as [K|K]; apply in_map_iff in K as (x & Ex & K); apply filter_In in K as [K _];
      specialize (Hall x K); rewrite Ex in Hall; exact Hall.
  Qed.

  (** Between calls. *)
  Definition good (av : added_vocab) : Prop :=
    inv m av /\ (forall t, In t (av_special av) -> known m av t) /\
    (forall u, is_special av u = true -> exists t, In t (av_special av) /\ at_content t = u).

  Lemma good_nil : good new_added_vocab.
  Proof. split; [apply inv_nil|]. split; [intros t []|]. cbn. discriminate. Qed.

  (** What note_special does. *)
  Lemma note_special_spec ts : forall av,
    let av' := fold_left note_special ts av in
    av_map av' = av_map av /\ av_map_r av' = av_map_r av /\ av_added av' = av_added av /\
    av_norm av' = av_norm av /\ av_nnorm av' = av_nnorm av /\
    (forall t, In t (av_special av) -> In t (av_special av')) /\
    (forall t, In t (av_special av') -> In t (av_special av) \/ In t ts /\ at_content t <> []) /\
    (forall u, is_special av' u = true <-> is_special av u = true \/ (u <> [] /\ In u (map at_content ts))) /\
    ((forall u, is_special av u = true -> exists t, In t (av_special av) /\ at_content t = u) ->
     (forall u, is_special av' u = true -> exists t, In t (av_special av') /\ at_content t = u)).
  Proof.
    induction ts as [|t ts IH]; intros av; cbn [fold_left].
    - cbn. repeat (split; [reflexivity|]). repeat split; auto. tauto.
    - specialize (IH (note_special av t)). destruct IH as (E1 & E2 & E3 & E4 & E5 & H1 & H2 & H3 & H4).
      assert (S : (note_special av t = av /\ (at_content t = [] \/ is_special av (at_content t) = true)) \/
        (at_content t <> [] /\ note_special av t =
          AV (av_map av) (av_map_r av) (av_added av) (av_special av ++ [t])
             (at_content t :: av_set av) (av_norm av) (av_nnorm av))).
      { unfold note_special. destruct (length (at_content t) =? 0) eqn:El.
        - left. split; [reflexivity|]. left. now apply length_zero_iff_nil, Nat.eqb_eq.
        - assert (at_content t <> []) by (intros K; rewrite K in El; discriminate El).
          destruct (is_special av (at_content t)); cbn; auto. }
      destruct S as [[E D]|[Hne E]].
      + rewrite E in *. repeat (split; [assumption|]). split; [|split; [|exact H4]].
        * intros u K. destruct (H2 u K) as [?|[? ?]]; [now left|right; split; [now right|assumption]].
        * intros u. rewrite H3. cbn [map In]. split.
          -- intros [?|[? ?]]; auto.
          -- intros [?|[Hu [<-|?]]]; auto. destruct D as [D|D]; [congruence|auto].
      + assert (Es : forall u, is_special (note_special av t) u = str_eqb u (at_content t) || is_special av u)
          by (intros u; rewrite E; reflexivity).
        rewrite E in E1, E2, E3, E4, E5, H1, H2. cbn [av_map av_map_r av_added av_special av_norm av_nnorm] in *.
        rewrite E. repeat (split; [assumption|]).
        split; [intros u K; apply H1, in_or_app; now left|].
        split.
        { intros u K. destruct (H2 u K) as [K'|[? ?]]; [|right; split; [now right|assumption]].
          apply in_app_iff in K' as [K'|[<-|[]]]; [now left|]. right. split; [now left|exact Hne]. }
        split.
        { intros u. rewrite <- E. rewrite H3, Es, orb_true_iff, str_eqb_eq. cbn [map In]. split.
          - intros [[->|?]|[? ?]]; auto.
          - intros [?|[? [<-|?]]]; auto. }
        { intros HH. rewrite E in H4. apply H4. intros u K. rewrite <- E, Es, orb_true_iff, str_eqb_eq in K.
          cbn [av_special]. destruct K as [->|K].
          - exists t. split; [apply in_or_app; right; now left|reflexivity].
          - destruct (HH u K) as (t' & I & ?). exists t'. split; [apply in_or_app; now left|assumption]. }
  Qed.

  (** State on entering AddTokens: special tokens are known or among the tokens of
      the call. *)
  Definition pre (av : added_vocab) (ts : list added_token) : Prop :=
    inv m av /\
    (forall t, In t (av_special av) -> known m av t \/ In t ts /\ at_content t <> []) /\
    (forall u, is_special av u = true -> exists t, In t (av_special av) /\ at_content t = u).

  Definition step_spec (av : added_vocab) (c : list added_token) (av' : added_vocab) (n : Z) : Prop :=
    (forall u i, t2i m av u = Some i -> t2i m av' u = Some i) /\
    exists news, new_contents m av c news /\ n = zlen news /\
      (forall u, t2i m av' u <> None <-> t2i m av u <> None \/ In u news) /\
      (forall u, In u news -> exists t, In t (av_special av' ++ av_added av') /\ at_content t = u).

  Lemma add_tokens_known av ts : pre av ts ->
    let av1 := fst (fold_left (add_one m) ts (av, 0%Z)) in
    forall t, In t (av_special av1 ++ av_added av1) -> known m av1 t.
  Proof.
    intros (I & Hs & _) av1 t. subst av1. pose proof (add_fold_spec m ts B av 0 I) as S.
    destruct (fold_left (add_one m) ts (av, 0%Z)) as [av1 ign]. cbn [fst].
    destruct S as (I1 & Es & _ & Hkeep & (news & [_ Hnews] & _ & Hdom & _) & _).
    rewrite in_app_iff. intros [K|K]; [|now apply (inv_added _ _ I1)].
    rewrite Es in K. destruct (Hs t K) as [(i & Hi)|[Ht Hne]].
    - exists i. now apply Hkeep.
    - unfold known. destruct (t2i m av1 (at_content t)) as [i|] eqn:E; [eauto|]. exfalso.
      apply (proj2 (Hdom (at_content t))); [|exact E].
      destruct (t2i m av (at_content t)) eqn:E0; [left; congruence|]. right. apply Hnews.
      split; [now apply in_map|auto].
  Qed.

  Lemma add_tokens_good av ts av' n : pre av ts -> add_tokens m pattern compiles ts av = Ok (av', n) ->
    good av' /\ pats m pattern av' /\ step_spec av ts av' n /\ av_special av' = av_special av /\
    av_set av' = av_set av.
  Proof.
    intros P E. pose proof P as (I & Hs & Hset). unfold add_tokens in E.
    pose proof (add_fold_spec m ts B av 0 I) as S. pose proof (add_tokens_known av ts P) as Hkn.
    destruct (fold_left (add_one m) ts (av, 0%Z)) as [av1 ign]. cbn [fst] in Hkn.
    destruct S as (I1 & Es & Eset & Hkeep & (news & Hnew & Hn & Hdom & Hsp) & Hadd & _).
    apply bind_Ok_inv in E as (av2 & E2 & E). injection E as <- <-.
    destruct (refresh_map av1 av2 E2) as (R1 & R2 & R3 & R4 & R5 & R6).
    assert (Et : forall u, t2i m av2 u = t2i m av1 u) by (intros u; unfold av_token_to_id; now rewrite R1).
    split; [|split; [exact R6|split; [|split; congruence]]].
    - split; [now apply (inv_ext av1)|]. split.
      + intros t K. unfold known. rewrite Et. apply Hkn. rewrite R4 in K. apply in_or_app. now left.
      + intros u K. rewrite R4, Es. apply Hset. unfold is_special in *. now rewrite R5, Eset in K.
    - split; [intros u i K; rewrite Et; now apply Hkeep|].
      exists news. split; [exact Hnew|]. split; [lia|]. split; [intros u; now rewrite Et|].
      intros u K. destruct (Hsp u K) as [Hsp'|(t & K1 & _ & K3)].
      + destruct (Hset u Hsp') as (t & It & Ec). exists t. split; [|exact Ec]. rewrite R4, Es. apply in_or_app. now left.
      + exists t. split; [|exact K3]. rewrite R3. apply in_or_app. now right.
  Qed.

  Lemma pre_tok av ts : good av -> pre av ts.
  Proof. intros (I & H1 & H2). split; [exact I|]. split; [intros t K; left; auto|exact H2]. Qed.

  Lemma pre_special av ts : good av -> pre (fold_left note_special ts av) ts.
  Proof.
    intros (I & H1 & H2). destruct (note_special_spec ts av) as (E1 & E2 & E3 & _ & _ & N1 & N2 & _ & N4).
    split; [now apply (inv_ext av)|]. split; [|now apply N4].
    intros t K. destruct (N2 t K) as [K'|K']; [|now right]. left. destruct (H1 t K') as (i & Hi).
    exists i. unfold av_token_to_id in *. now rewrite E1.
  Qed.

  Lemma add_step_good av c av' n : good av -> add_step m pattern compiles av c = Ok (av', n) ->
    good av' /\ pats m pattern av' /\ step_spec av (call_tokens c) av' n.
  Proof.
    intros G. destruct c as [ts|ts]; cbn [add_step call_tokens].
    - intros E. destruct (add_tokens_good av ts av' n (pre_tok av ts G) E) as (? & ? & ? & _). auto.
    - unfold add_special_tokens. intros E.
      destruct (add_tokens_good _ ts av' n (pre_special av ts G) E) as (H1 & H2 & H3 & _). split; [exact H1|].
      split; [exact H2|]. destruct (note_special_spec ts av) as (E1 & _).
      assert (Et : forall u, t2i m (fold_left note_special ts av) u = t2i m av u)
        by (intros u; unfold av_token_to_id; now rewrite E1).
      destruct H3 as (K1 & news & [Nd K2] & K3 & K4 & K5). split; [intros u i; rewrite <- Et; apply K1|].
      exists news. split; [split; [exact Nd|]|].
      + intros u. rewrite K2. now rewrite Et.
      + split; [exact K3|]. split; [intros u; now rewrite K4, Et|exact K5].
  Qed.

  Lemma history_good cs : forall av av' ns, good av -> add_history m pattern compiles av cs = Ok (av', ns) ->
    good av' /\ (forall u i, t2i m av u = Some i -> t2i m av' u = Some i).
  Proof.
    induction cs as [|c cs IH]; intros av av' ns G E; cbn in E.
    - injection E as <- <-. auto.
    - apply bind_Ok_inv in E as ([av1 n] & E1 & E). apply bind_Ok_inv in E as ([av2 ns2] & E2 & E).
      injection E as <- <-. cbn in *.
      destruct (add_step_good av c av1 n G E1) as (G1 & _ & (K & _)).
      destruct (IH av1 av2 ns2 G1 E2) as [G2 K2]. split; [exact G2|]. auto.
  Qed.

  Lemma history_new_good cs av ns : add_history m pattern compiles new_added_vocab cs = Ok (av, ns) -> good av.
  Proof. intros E. now destruct (history_good cs _ av ns good_nil E). Qed.

  Lemma inverse av : inv m av -> forall t i, av_token_to_id m av t = Some i <-> av_id_to_token m av i = Some t.
  Proof.
    intros I t i. unfold av_id_to_token. split.
    - intros H. destruct (aget Z.eqb i (av_map_r av)) as [u|] eqn:E.
      + apply (inv_r _ _ I) in E. f_equal. exact (t2i_inj m av u t i B I E H).
      + apply t2i_cases in H as [H|[_ H]].
        * apply (inv_fwd _ _ I) in H. congruence.
        * now apply (proj2 B).
    - destruct (aget Z.eqb i (av_map_r av)) as [u|] eqn:E.
      + intros [= ->]. now apply (inv_r _ _ I).
      + intros H. apply (proj2 B) in H. unfold av_token_to_id.
        destruct (aget str_eqb t (av_map av)) as [j|] eqn:Ej; [|exact H].
        apply (ag_in str_eqb str_eqb_eq) in Ej. apply (inv_new _ _ I) in Ej. congruence.
  Qed.

  Lemma history_total cs : (forall c t, In c cs -> In t (call_tokens c) -> patterns_ok pattern compiles t) ->
    forall av, good av -> (forall t, In t (av_special av ++ av_added av) -> patterns_ok pattern compiles t) ->
    exists av' ns, add_history m pattern compiles av cs = Ok (av', ns).
  Proof.
    induction cs as [|c cs IH]; intros Hp av G Hav; cbn [add_history]; [eauto|].
    assert (H : exists av1 n, add_step m pattern compiles av c = Ok (av1, n) /\
              forall t, In t (av_special av1 ++ av_added av1) -> patterns_ok pattern compiles t).
    { assert (Hgen : forall av0, pre av0 (call_tokens c) ->
                (forall t, In t (av_special av0 ++ av_added av0) -> patterns_ok pattern compiles t) ->
                exists av1 n, add_tokens m pattern compiles (call_tokens c) av0 = Ok (av1, n) /\
                  forall t, In t (av_special av1 ++ av_added av1) -> patterns_ok pattern compiles t).
      { intros av0 P Hp0. unfold add_tokens. pose proof (add_tokens_known av0 _ P) as Hk.
        pose proof (add_fold_spec m (call_tokens c) B av0 0 (proj1 P)) as S.
        destruct (fold_left (add_one m) (call_tokens c) (av0, 0%Z)) as [av1 ign]. cbn [fst] in Hk.
        destruct S as (_ & Es & _ & _ & _ & _ & Hsub).
        assert (Hp1 : forall t, In t (av_special av1 ++ av_added av1) -> patterns_ok pattern compiles t).
        { intros t. rewrite Es, in_app_iff. intros [K|K]; [apply Hp0, in_or_app; now left|].
          destruct (Hsub t K) as [K'|K']; [apply Hp0, in_or_app; now right|].
          exact (Hp c t (or_introl eq_refl) K'). }
        destruct (refresh_ok av1 Hk Hp1) as (av2 & E2). rewrite E2. cbn [bind].
        eexists _, _. split; [reflexivity|]. destruct (refresh_map av1 av2 E2) as (_ & _ & R3 & R4 & _).
        now rewrite R3, R4. }
      destruct c as [ts|ts]; cbn [add_step call_tokens] in *.
      - now apply Hgen; [apply pre_tok|].
      - unfold add_special_tokens. apply Hgen; [now apply pre_special|].
        destruct (note_special_spec ts av) as (_ & _ & E3 & _ & _ & _ & N2 & _).
        intros t. rewrite E3, in_app_iff. intros [K|K]; [|apply Hav, in_or_app; now right].
        destruct (N2 t K) as [K'|[K' _]]; [apply Hav, in_or_app; now left|].
        exact (Hp (AddSpecial ts) t (or_introl eq_refl) K'). }
    destruct H as (av1 & n & E1 & Hp1). rewrite E1. cbn [bind fst].
    destruct (add_step_good av c av1 n G E1) as (G1 & _).
    destruct (IH (fun c' t Ic => Hp c' t (or_intror Ic)) av1 G1 Hp1) as (av2 & ns & ->).
    cbn. eauto.
  Qed.
End Calls.

Lemma added_stable m pattern compiles cs cs' av ns av' ns' t i :
  base_ok m ->
  add_history m pattern compiles new_added_vocab cs = Ok (av, ns) ->
  add_history m pattern compiles av cs' = Ok (av', ns') ->
  av_token_to_id m av t = Some i -> av_token_to_id m av' t = Some i.
Proof.
  intros B E E' H. pose proof (history_new_good m pattern compiles B cs av ns E) as G.
  destruct (history_good m pattern compiles B cs' av av' ns' G E') as [_ K]. now apply K.
Qed.

Lemma model_ids_kept m pattern compiles cs av ns t i :
  base_ok m -> add_history m pattern compiles new_added_vocab cs = Ok (av, ns) ->
  bm_t2i m t = Some i -> av_token_to_id m av t = Some i.
Proof.
  intros B E H. destruct (history_good m pattern compiles B cs _ av ns (good_nil m) E) as [_ K]. now apply K.
Qed.

Lemma added_inverse m pattern compiles cs av ns :
  base_ok m -> add_history m pattern compiles new_added_vocab cs = Ok (av, ns) ->
  forall t i, av_token_to_id m av t = Some i <-> av_id_to_token m av i = Some t.
Proof.
  intros B E. apply inverse; [exact B|]. now apply (history_new_good m pattern compiles B cs av ns E).
Qed.

Lemma added_fresh m pattern compiles cs av ns t i :
  base_ok m -> add_history m pattern compiles new_added_vocab cs = Ok (av, ns) ->
  av_token_to_id m av t = Some i -> bm_t2i m t = None ->
  (bm_size m <= i < bm_size m + zlen (av_map av))%Z /\ bm_i2t m i = None.
Proof.
  intros B E H Hn. pose proof (history_new_good m pattern compiles B cs av ns E) as (I & _).
  apply t2i_cases in H as [H|[_ H]]; [|congruence]. pose proof (map_id_ge m av t i I H). split; [assumption|].
  destruct (bm_i2t m i) as [u|] eqn:Eu; [|reflexivity]. apply (proj2 B) in Eu. apply (proj1 B) in Eu. lia.
Qed.

Lemma added_step m pattern compiles cs c av ns av' n :
  base_ok m -> add_history m pattern compiles new_added_vocab cs = Ok (av, ns) ->
  add_step m pattern compiles av c = Ok (av', n) ->
  exists news, new_contents m av (call_tokens c) news /\ n = zlen news /\
    (forall u, av_token_to_id m av' u <> None <-> av_token_to_id m av u <> None \/ In u news).
Proof.
  intros B E E1. pose proof (history_new_good m pattern compiles B cs av ns E) as G.
  destruct (add_step_good m pattern compiles B av c av' n G E1) as (_ & _ & _ & news & H1 & H2 & H3 & _). eauto.
Qed.

Lemma added_patterns m pattern compiles cs c av ns av' n u :
  base_ok m -> add_history m pattern compiles new_added_vocab cs = Ok (av, ns) ->
  add_step m pattern compiles av c = Ok (av', n) ->
  In u (map at_content (call_tokens c)) -> u <> [] -> av_token_to_id m av u = None ->
  exists t p i, at_content t = u /\ pattern t = Some p /\ av_token_to_id m av' u = Some i /\
    In (p, i) (if at_norm t then av_norm av' else av_nnorm av').
Proof.
  intros B E E1 Hu Hne Hn. pose proof (history_new_good m pattern compiles B cs av ns E) as G.
  destruct (add_step_good m pattern compiles B av c av' n G E1) as (_ & Hp & _ & news & [_ H1] & _ & _ & H4).
  destruct (H4 u) as (t & It & <-); [apply H1; auto|].
  destruct (Hp t It) as (p & i & K1 & K2 & K3). exists t, p, i. auto.
Qed.

Lemma added_total m pattern compiles cs :
  base_ok m ->
  (forall c t, In c cs -> In t (call_tokens c) -> patterns_ok pattern compiles t) ->
  exists av ns, add_history m pattern compiles new_added_vocab cs = Ok (av, ns).
Proof.
  intros B H. apply history_total; auto; [apply good_nil|]. intros t [].
Qed.

Lemma bad_pattern_aborts m pattern compiles t p :
  base_ok m -> at_content t <> [] -> bm_t2i m (at_content t) = None ->
  pattern t = Some p -> compiles p = false ->
  add_step m pattern compiles new_added_vocab (AddTok [t]) = Fatal.
Proof.
  intros B Hne Hn Hp Hc. cbn [add_step]. unfold add_tokens. cbn [fold_left].
  unfold add_one. replace (length (at_content t) =? 0) with false
    by (destruct (at_content t); [congruence|reflexivity]).
  cbn [av_token_to_id av_map aget new_added_vocab]. unfold av_token_to_id. cbn [av_map aget]. rewrite Hn.
  cbn [is_special av_set existsb av_added app aset av_map_r].
  unfold refresh. cbn [av_special av_added app mapR].
  unfold av_token_to_id. cbn [av_map aget].
  change (av_special new_added_vocab ++ _) with [t]. cbn [mapR]. rewrite str_eqb_refl, Hp. cbn [bind].
  destruct (at_norm t) eqn:En; cbn; rewrite Hc; reflexivity.
Qed.

(** GetVocab *)

Lemma get_vocab_false s : snd (get_vocab false s) = s /\ fst (get_vocab false s) = vs_vocab s.
Proof. destruct s. split; reflexivity. Qed.

Lemma fold_aset_get l : forall (v : vocab) t, NoDup (map fst l) ->
  vget t (fold_left (fun v p => aset str_eqb (fst p) (snd p) v) l v) =
    match aget str_eqb t l with Some i => Some i | None => vget t v end.
Proof.
  induction l as [|[k i] l IH]; intros v t N; [reflexivity|]. cbn [fold_left fst snd aget].
  inversion N as [|? ? N1 N2]; subst. rewrite IH by exact N2. unfold vget. rewrite (ag_aset _ str_eqb_eq).
  destruct (str_eqb t k) eqn:E; [|reflexivity]. apply str_eqb_eq in E as ->.
  destruct (aget str_eqb k l) as [j|] eqn:Ej; [|reflexivity].
  apply (ag_in str_eqb str_eqb_eq) in Ej. exfalso. apply N1. change k with (fst (k, j)). now apply in_map.
Qed.

Lemma fold_aset_fresh_len l : forall (v : vocab), NoDup (map fst l) ->
  (forall k, In k (map fst l) -> vget k v = None) ->
  zlen (fold_left (fun v p => aset str_eqb (fst p) (snd p) v) l v) = (zlen v + zlen l)%Z.
Proof.
  induction l as [|[k i] l IH]; intros v N H; cbn [fold_left fst snd]; [unfold zlen; cbn; lia|].
  inversion N as [|? ? N1 N2]; subst. rewrite IH; [|exact N2|].
  - rewrite zlen_aset_fresh; [unfold zlen; cbn [length]; lia|].
    apply (ag_none str_eqb str_eqb_eq). apply H. now left.
  - intros u K. unfold vget. rewrite (ag_aset _ str_eqb_eq).
    destruct (str_eqb u k) eqn:E; [apply str_eqb_eq in E as ->; contradiction|]. apply H. now right.
Qed.

Lemma get_vocab_token_to_id s b t : NoDup (map fst (av_map (vs_added s))) ->
  vs_token_to_id (snd (get_vocab b s)) t = vs_token_to_id s t.
Proof.
  intros N. destruct b; [|now rewrite (proj1 (get_vocab_false s))].
  unfold vs_token_to_id, av_token_to_id. cbn. rewrite fold_aset_get by exact N.
  destruct (aget str_eqb t (av_map (vs_added s))); reflexivity.
Qed.

Lemma get_vocab_id_to_token s b i : vs_id_to_token (snd (get_vocab b s)) i = vs_id_to_token s i.
Proof. destruct b; reflexivity. Qed.

Lemma get_vocab_contents s : NoDup (map fst (av_map (vs_added s))) -> forall t,
  vget t (fst (get_vocab true s)) = vs_token_to_id s t.
Proof. intros N t. cbn. now rewrite fold_aset_get. Qed.

Lemma get_vocab_grows v vr pattern compiles cs av ns :
  base_ok (vocab_model v vr) ->
  add_history (vocab_model v vr) pattern compiles new_added_vocab cs = Ok (av, ns) ->
  let s := VS v vr av in let s' := snd (get_vocab true s) in
  get_vocab_size false s' = (get_vocab_size false s + zlen (av_map av))%Z /\
  get_vocab_size true s' = (get_vocab_size true s + zlen (av_map av))%Z.
Proof.
  intros B E s s'. pose proof (history_new_good _ pattern compiles B cs av ns E) as (I & _).
  unfold s', get_vocab_size, get_vocab. cbn.
  rewrite fold_aset_fresh_len; [lia|apply I|].
  intros k K. apply in_map_iff in K as ([k' i] & <- & K). exact (inv_new _ _ I k' i K).
Qed.

Lemma get_vocab_shifts_ids v vr pattern compiles cs av ns t :
  base_ok (vocab_model v vr) ->
  add_history (vocab_model v vr) pattern compiles new_added_vocab cs = Ok (av, ns) ->
  at_content t <> [] -> av_token_to_id (vocab_model v vr) av (at_content t) = None ->
  forall s1 n1 s2 n2,
  vs_add_tokens pattern compiles [t] (VS v vr av) = Ok (s1, n1) ->
  vs_add_tokens pattern compiles [t] (snd (get_vocab true (VS v vr av))) = Ok (s2, n2) ->
  vs_token_to_id s1 (at_content t) = Some (zlen v + zlen (av_map av))%Z /\
  vs_token_to_id s2 (at_content t) = Some (zlen v + zlen (av_map av) + zlen (av_map av))%Z.
Proof.
  intros B E Hne Hn s1 n1 s2 n2. pose proof (history_new_good _ pattern compiles B cs av ns E) as (I & _).
  assert (G : forall w s n, t2i (vocab_model w vr) av (at_content t) = None ->
     vs_add_tokens pattern compiles [t] (VS w vr av) = Ok (s, n) ->
     vs_token_to_id s (at_content t) = Some (zlen w + zlen (av_map av))%Z).
  { intros w s n Hw Es. unfold vs_add_tokens in Es. apply bind_Ok_inv in Es as ([av1 n1'] & E1 & Es).
    cbn [fst snd vs_vocab vs_vocab_r vs_added] in *. injection Es as <- <-. unfold add_tokens in E1. cbn [fold_left] in E1.
    unfold add_one in E1. replace (length (at_content t) =? 0) with false in E1
      by (destruct (at_content t); [congruence|reflexivity]).
    rewrite Hw in E1. apply bind_Ok_inv in E1 as (av2 & E2 & E1). injection E1 as <- <-.
    apply refresh_map in E2 as (R1 & _). unfold vs_token_to_id, av_token_to_id. cbn [vs_added vs_vocab vs_vocab_r].
    rewrite R1. cbn [av_map]. rewrite (ag_aset _ str_eqb_eq), str_eqb_refl. reflexivity. }
  intros E1 E2. split; [now apply (G v s1 n1)|].
  cbn [get_vocab snd vs_vocab vs_vocab_r vs_added] in E2.
  rewrite (G _ s2 n2) with (2 := E2).
  - rewrite fold_aset_fresh_len; [reflexivity|apply I|].
    intros k K. apply in_map_iff in K as ([k' i] & <- & K). exact (inv_new _ _ I k' i K).
  - unfold av_token_to_id, vocab_model. cbn [bm_t2i]. rewrite fold_aset_get by apply I.
    unfold av_token_to_id in Hn. cbn in Hn. destruct (aget str_eqb (at_content t) (av_map av)); [discriminate|exact Hn].
Qed.
