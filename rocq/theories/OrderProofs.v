(** Special tokens written in a text in any order, each of them once (C73, C76). *)
From Verif Require Import Base BaseProofs Utf8Model NormalizedModel NormalizedSpec NormalizedProofs NormalizedExactProofs AddedVocabModel AddedVocabSpec AddedFindProofs AddedPatternModel AddedPatternSpec AddedPatternProofs LoadedAddedProofs
  EncodingModel PreTokenizedModel PipelineModel TokensSpec ItemsSpec OrderSpec MaskedProofs ConfigModel LoadedSpec WrittenProofs.
Open Scope Z_scope.
Open Scope list_scope.

Definition places_ordered' := places_ordered 0%N 1%N ltac:(discriminate).
Definition fill_written' := fill_written 0%N 1%N ltac:(discriminate).
Definition ordered_unique' := ordered_unique 0%N 1%N ltac:(discriminate).
Definition ordered_apart' := ordered_apart 0%N 1%N ltac:(discriminate).

Lemma written_same l p ps p' ps' : found_as l p ps p' ps' -> written p' ps' = written p ps.
Proof.
  induction 1 as [p|p t id q ps q' ps' H IH N|p t id q ps q' ps' x H IH I B]; [reflexivity| |]; rewrite !written_cons; cbn [fst snd].
  - now rewrite IH.
  - rewrite <- IH. unfold written. now rewrite <- !app_assoc.
Qed.
Lemma places_app ps a b start : places start (a ++ b) ps = places (start + zlen a) b ps.
Proof. destruct ps as [|x ps]; [reflexivity|]. cbn [places]. rewrite zlen_app, Z.add_assoc. reflexivity. Qed.
Lemma places_at ps : forall start p x, In x ps -> exists m, In m (places start p ps) /\ fst m = fst x.
Proof.
  intros start p x H. apply (in_map fst) in H. rewrite <- (places_tokens ps start p) in H. apply in_map_iff in H as (m & E & H). now exists m.
Qed.
Lemma places_kept l p ps p' ps' : found_as l p ps p' ps' -> Forall (fun x => 0 < zlen (fst (fst x))) ps -> forall start m,
  In m (places start p' ps') <-> In m (places start p ps) /\ forall k, In k (places start p ps) -> snd (snd m) <= fst (snd k) -> ~ listed_before l (fst (fst k)) (fst (fst m)).
Proof.
  induction 1 as [p|p t id q ps q' ps' H IH N|p t id q ps q' ps' x H IH I B]; intros F start m; [cbn; tauto| |]; apply Forall_cons_iff in F as [Ft F]; cbn [fst] in Ft; pose proof (places_ordered' ps F q (start + zlen p + zlen t)) as O; pose proof (Zle_0_nat (length p)) as Lp;
    cbn [places fst snd]; specialize (IH F (start + zlen p + zlen t)).
  - set (m0 := (t, id, (start + zlen p, start + zlen p + zlen t))). cbn [In]. rewrite IH. split.
    + intros [<-|(Hm & Hk)].
      * split; [now left|]. intros k [<-|Hk] L; [cbn [m0 fst snd] in L; lia|]. intros X. apply (in_map fst) in Hk. rewrite places_tokens in Hk. apply in_map_iff in Hk as (y & Ey & Hy). apply (N y Hy). now rewrite Ey.
      * split; [now right|]. intros k [<-|Hk'] L; [|now apply Hk]. exfalso. pose proof (ordered_in _ _ _ O _ (in_map snd _ _ Hm)). cbn [m0 fst snd] in L. lia.
    + intros ([<-|Hm] & Hk); [now left|]. right. split; [exact Hm|]. intros k Hk' L. apply Hk; [now right|exact L].
  - rewrite app_assoc, places_app, zlen_app, Z.add_assoc, IH. set (m0 := (t, id, (start + zlen p, start + zlen p + zlen t))). cbn [In]. split.
    + intros (Hm & Hk). split; [now right|]. intros k [<-|Hk'] L; [|now apply Hk]. exfalso. pose proof (ordered_in _ _ _ O _ (in_map snd _ _ Hm)). cbn [m0 fst snd] in L. lia.
    + intros ([<-|Hm] & Hk).
      * exfalso. destruct (places_at ps (start + zlen p + zlen t) q x I) as (k & Hk' & Ek). apply (Hk k (or_intror Hk')); [|rewrite Ek; exact B]. pose proof (ordered_in _ _ _ O _ (in_map snd _ _ Hk')). cbn [m0 fst snd]. lia.
      * split; [exact Hm|]. intros k Hk' L. apply Hk; [now right|exact L].
Qed.
Lemma found_tokens l p ps p' ps' : found_as l p ps p' ps' -> forall x, In x (map fst ps') -> In x (map fst ps).
Proof. induction 1 as [p|p t id q ps q' ps' H IH N|p t id q ps q' ps' x H IH I B]; intros y Hy; [exact Hy| |]; cbn [map fst] in *; [destruct Hy as [<-|Hy]; [now left|right; now apply IH]|right; now apply IH]. Qed.

Lemma greedy_two total : forall l, StronglySorted (fun a b => id_key a <= id_key b) l -> (forall p, In p l -> fst (snd p) < snd (snd p) <= total) -> forall lo, lo <= total ->
  ordered_from lo total (map snd (AddedFindProofs.greedy l lo)) /\ StronglySorted (fun a b => id_key a <= id_key b) (AddedFindProofs.greedy l lo).
Proof.
  induction l as [|[i [a b]] l IH]; intros S V lo Hlo; cbn [AddedFindProofs.greedy]; [split; [exact Hlo|constructor]|]. apply StronglySorted_inv in S as [S F].
  assert (V' : forall p, In p l -> fst (snd p) < snd (snd p) <= total) by (intros p Hp; apply V; now right). cbn [fst snd]. destruct (Z.ltb_spec a lo) as [Ha|Ha]; [now apply IH|].
  pose proof (V (i, (a, b)) (or_introl eq_refl)) as Vi. cbn [fst snd] in Vi. destruct (IH S V' b ltac:(lia)) as [O S']. cbn [map snd ordered_from]. split; [split; [lia|exact O]|]. constructor; [exact S'|].
  apply Forall_forall. intros p Hp. apply greedy_incl in Hp. rewrite Forall_forall in F. now apply F.
Qed.
Lemma two_sorted total : forall l lo, ordered_from lo total (map snd l) -> StronglySorted (fun a b => id_key a <= id_key b) l -> forall q c, In q l -> In c l -> id_key q < id_key c -> snd (snd q) <= fst (snd c).
Proof.
  induction l as [|[i [a b]] l IH]; intros lo O S q c Hq Hc L; [destruct Hq|]. cbn [map snd ordered_from] in O. destruct O as [A O]. apply StronglySorted_inv in S as [S F]. rewrite Forall_forall in F. destruct Hq as [<-|Hq], Hc as [<-|Hc].
  - lia.
  - pose proof (ordered_in _ _ _ O _ (in_map snd _ _ Hc)). cbn [fst snd] in *. lia.
  - specialize (F q Hq). lia.
  - exact (IH b O S q c Hq Hc L).
Qed.

Section Enclosed.
  Variables op cl : N.
  Hypothesis Noc : op <> cl.
  Variable ss si : list io_pair -> list io_pair.
  Hypothesis HS : sorts start_key ss.
  Hypothesis HI : sorts id_key si.
  Lemma cut_any (l : list (str * Z)) p ps p' ps' : Forall (fun x => enclosed op cl (fst x)) l -> NoDup (map fst l) -> Forall (fun q => In (fst q) l) ps -> NoDup (map fst ps) -> Forall (free_of (map fst l)) (p :: map snd ps) -> written p ps <> [] ->
    found_as l p ps p' ps' ->
    cut_added ss si (re_matching (map (fun x => (TRe false false (fst x) false false, snd x)) l)) (written p ps) = written_items p' ps'.
  Proof.
    intros B Nd Il Np F Ne Fa.
    assert (Bs : Forall (fun q => enclosed op cl (fst (fst q))) ps) by (eapply Forall_impl; [|exact Il]; intros q Hq; rewrite Forall_forall in B; now apply (B (fst q))).
    assert (Pos : forall qs : list (str * Z * str), Forall (fun q => enclosed op cl (fst (fst q))) qs -> Forall (fun q : str * Z * str => 0 < zlen (fst (fst q))) qs) by (intros qs H; eapply Forall_impl; [|exact H]; intros [[t id] q] (b & Eb & _); cbn [fst] in *; rewrite Eb; unfold zlen; cbn; lia).
    pose proof (Pos ps Bs) as Ls.
    assert (Bs' : Forall (fun q => enclosed op cl (fst (fst q))) ps').
    { apply Forall_forall. intros q Hq. apply (in_map fst) in Hq. apply (found_tokens l p ps p' ps' Fa) in Hq. apply in_map_iff in Hq as (y & Ey & Hy). rewrite <- Ey. rewrite Forall_forall in Bs. now apply Bs. }
    pose proof (Pos ps' Bs') as Ls'.
    set (L := places 0 p ps). set (s := written p ps) in *. unfold cut_added, re_matching. cbn [mt_ids mt_find]. rewrite !map_map. cbn [fst snd].
    assert (Ef : map (fun x : str * Z => find_re (TRe false false (fst x) false false) None s 0 0) l = map (fun x => map snd (filter (same_token (fst x)) L)) l).
    { apply map_ext_in. intros x Hx. rewrite Forall_forall in B. apply (written_found op cl Noc); [now apply B|exact Bs|]. eapply Forall_impl; [|exact F]. intros q Hq a z. apply Hq. now apply in_map. }
    rewrite Ef. assert (Z0 : zlen s <> 0) by (destruct s; [congruence|unfold zlen; cbn; lia]). rewrite (find_matches_eq ss si HI) by exact Z0.
    set (found := map (fun x => map snd (filter (same_token (fst x)) L)) l). set (total := zlen s).
    pose proof (places_ordered' ps Ls p 0) as O. fold L in O. cbn [Z.add] in O. fold s in O. fold total in O.
    pose proof (places_ordered' ps' Ls' p' 0) as O'. cbn [Z.add] in O'. rewrite (written_same l p ps p' ps' Fa) in O'. fold s in O'. fold total in O'.
    (* what occurs *)
    assert (Oc : forall i r, occurs found i r <-> exists x m, nth_error l i = Some x /\ In m L /\ fst m = x /\ snd m = r).
    { intros i r. unfold occurs, found. split.
      - intros (k & E & H). rewrite nth_error_map in E. destruct (nth_error l i) as [x|] eqn:Ex; [|discriminate]. injection E as <-. apply in_map_iff in H as (m & Em & Hm). apply filter_In in Hm as [Hm St]. unfold same_token in St. apply str_eqb_eq in St. exists x, m. split; [reflexivity|]. split; [exact Hm|]. split; [|exact Em].
        assert (Hl : In (fst m) l) by (apply (in_map fst) in Hm; unfold L in Hm; rewrite places_tokens in Hm; apply in_map_iff in Hm as (y & Ey & Hy); rewrite <- Ey; rewrite Forall_forall in Il; now apply Il).
        apply In_nth_error in Hl as (j & Ej). assert (i = j). { apply (proj1 (NoDup_nth_error (map fst l)) Nd); [rewrite map_length; apply nth_error_Some; congruence|]. rewrite !nth_error_map, Ex, Ej. cbn. now rewrite St. } subst j. congruence.
      - intros (x & m & Ex & Hm & E1 & E2). exists (map snd (filter (same_token (fst x)) L)). rewrite nth_error_map, Ex. split; [reflexivity|]. apply in_map_iff. exists m. split; [exact E2|]. apply filter_In. split; [exact Hm|]. unfold same_token. rewrite E1. apply str_eqb_refl. }
    assert (Lu : forall m k, In m L -> In k L -> fst m = fst k -> m = k).
    { intros m k Hm Hk E. assert (N : NoDup (map fst L)) by (unfold L; now rewrite places_tokens). apply In_nth_error in Hm as (a & Ea). apply In_nth_error in Hk as (b & Eb).
      assert (a = b) by (apply (proj1 (NoDup_nth_error _) N); [rewrite map_length; apply nth_error_Some; congruence|rewrite !nth_error_map, Ea, Eb; cbn; now rewrite E]). subst. congruence. }
    assert (Lr : forall m k, In m L -> In k L -> snd m = snd k -> m = k).
    { clear - O. revert O. generalize 0 at 1 as lo. induction L as [|m0 L IH]; intros lo O m k Hm Hk E; [destruct Hm|]. cbn [map ordered_from] in O. destruct (snd m0) as [a b] eqn:E0. destruct O as [A O].
      assert (Nx : forall y, In y L -> snd y <> (a, b)) by (intros y Hy X; pose proof (ordered_in _ _ _ O _ (in_map snd _ _ Hy)) as R; rewrite X in R; cbn [fst snd] in R; lia).
      destruct Hm as [<-|Hm], Hk as [<-|Hk]; [reflexivity|exfalso; apply (Nx k Hk); congruence|exfalso; apply (Nx m Hm); congruence|exact (IH b O m k Hm Hk E)]. }
    assert (Rg : forall i r, occurs found i r -> 0 <= fst r < snd r /\ snd r <= total) by (intros i r H; apply Oc in H as (x & m & _ & Hm & _ & <-); exact (ordered_in _ _ _ O _ (in_map snd _ _ Hm))).
    set (R := AddedFindProofs.greedy (candidates ss si found) 0).
    assert (Cs : StronglySorted (fun a b => id_key a <= id_key b) (candidates ss si found)) by (apply HI).
    destruct (greedy_two total (candidates ss si found) Cs) with (lo := 0) as [RO RS]; [intros q Hq; apply (candidates_in ss si HS HI) in Hq; apply Rg in Hq; lia|unfold total, zlen; lia|]. fold R in RO, RS.
    assert (Ri : forall q, In q R -> occurs found (fst q) (snd q)) by (intros q Hq; apply greedy_incl in Hq; now apply (candidates_in ss si HS HI) in Hq).
    assert (Rc : forall i r, occurs found i r -> In (i, r) R \/ exists q, In q R /\ (fst q <= i)%nat /\ fst r < snd (snd q)).
    { intros i r H. assert (K : In (i, r) (candidates ss si found)) by (now apply (candidates_in ss si HS HI)). destruct (greedy_complete (candidates ss si found) Cs 0 (i, r) K) as [G|[G|(q & H1 & H2 & H3)]]; [now left|apply Rg in H; cbn [fst snd] in G; lia|]. right. exists q. split; [exact H1|]. unfold id_key in H2. cbn [fst snd] in *. split; [lia|exact H3]. }
    assert (Ap : forall m k, In m L -> In k L -> fst (snd m) < snd (snd k) -> m <> k -> snd (snd m) <= fst (snd k)).
    { clear - O Lr. intros m k Hm Hk Lt N. destruct (Z.le_gt_cases (snd (snd m)) (fst (snd k))) as [X|X]; [exact X|exfalso]. apply N. apply Lr; [exact Hm|exact Hk|].
      destruct (Z.le_gt_cases (fst (snd m)) (fst (snd k))) as [Y|Y]; [apply (ordered_apart' _ _ _ O); [now apply in_map|now apply in_map|lia]|symmetry; apply (ordered_apart' _ _ _ O); [now apply in_map|now apply in_map|lia]]. }
    (* which are kept *)
    assert (Rk : forall i r, In (i, r) R <-> occurs found i r /\ forall j r', occurs found j r' -> (j < i)%nat -> snd r <= fst r' -> False).
    { intros i r. split.
      - intros H. pose proof (Ri _ H) as H0. cbn [fst snd] in H0. split; [exact H0|]. intros j r' Hj Lt X. pose proof (Rg _ _ H0). pose proof (Rg _ _ Hj). destruct (Rc j r' Hj) as [K|(q & Hq & Lq & Sq)].
        + pose proof (two_sorted total R 0 RO RS _ _ K H ltac:(unfold id_key; cbn [fst]; lia)) as T. cbn [fst snd] in T. lia.
        + pose proof (two_sorted total R 0 RO RS _ _ Hq H ltac:(unfold id_key; cbn [fst]; lia)) as T. cbn [fst snd] in T. lia.
      - intros [H0 Hn]. destruct (Rc i r H0) as [K|(q & Hq & Lq & Sq)]; [exact K|]. pose proof (Ri q Hq) as Oq. destruct (Nat.eq_dec (fst q) i) as [Eq|Nq].
        + apply Oc in H0 as (x & m & Ex & Hm & E1 & E2). pose proof Oq as Oq'. apply Oc in Oq' as (x' & m' & Ex' & Hm' & E1' & E2'). rewrite Eq in Ex'. assert (Em : m = m') by (apply Lu; [exact Hm|exact Hm'|congruence]). subst m'. destruct q as [qi qr]. cbn [fst snd] in *. subst. exact Hq.
        + exfalso. apply (Hn (fst q) (snd q) Oq ltac:(lia)). apply Oc in H0 as (x & m & Ex & Hm & E1 & E2). apply Oc in Oq as (x' & m' & Ex' & Hm' & E1' & E2'). rewrite <- E2, <- E2'. apply Ap; [exact Hm|exact Hm'|rewrite E2, E2'; exact Sq|].
          intros ->. apply Nq. apply (proj1 (NoDup_nth_error (map fst l)) Nd); [rewrite map_length; apply nth_error_Some; congruence|]. rewrite !nth_error_map, Ex, Ex'. cbn. congruence. }
    (* the places of the found tokens *)
    pose proof (places_kept l p ps p' ps' Fa Ls 0) as Pk. fold L in Pk. set (P := places 0 p' ps') in *.
    assert (RP : forall i r, In (i, r) R -> exists x m, nth_error l i = Some x /\ In m P /\ fst m = x /\ snd m = r).
    { intros i r H. apply Rk in H as [H Hn]. apply Oc in H as (x & m & Ex & Hm & E1 & E2). exists x, m. split; [exact Ex|]. split; [|split; assumption]. apply Pk. split; [exact Hm|]. intros k Hk Lk (a & b & Lab & Ea & Eb).
      assert (Eib : i = b). { apply (proj1 (NoDup_nth_error (map fst l)) Nd); [rewrite map_length; apply nth_error_Some; congruence|]. rewrite Eb, nth_error_map, Ex. cbn. congruence. } subst b.
      apply (Hn a (snd k)); [|lia|rewrite <- E2; exact Lk]. apply Oc. rewrite nth_error_map in Ea. destruct (nth_error l a) as [y|] eqn:Ey; [|discriminate]. exists y, k. split; [reflexivity|]. split; [exact Hk|]. split; [|reflexivity].
      assert (Hl : In (fst k) l) by (apply (in_map fst) in Hk; unfold L in Hk; rewrite places_tokens in Hk; apply in_map_iff in Hk as (z & Ez & Hz); rewrite <- Ez; rewrite Forall_forall in Il; now apply Il).
      apply In_nth_error in Hl as (j & Ej). assert (a = j). { apply (proj1 (NoDup_nth_error (map fst l)) Nd); [rewrite map_length; apply nth_error_Some; congruence|]. rewrite !nth_error_map, Ey, Ej. cbn in *. congruence. } subst j. congruence. }
    assert (PR : forall m, In m P -> exists i, In (i, snd m) R).
    { intros m Hm. apply Pk in Hm as [Hm Hn]. assert (Hl : In (fst m) l) by (apply (in_map fst) in Hm; unfold L in Hm; rewrite places_tokens in Hm; apply in_map_iff in Hm as (z & Ez & Hz); rewrite <- Ez; rewrite Forall_forall in Il; now apply Il).
      apply In_nth_error in Hl as (i & Ei). exists i. apply Rk. split; [apply Oc; now exists (fst m), m|]. intros j r' Hj Lt X. apply Oc in Hj as (y & k & Ey & Hk & E1 & E2). apply (Hn k Hk); [now rewrite E2|]. exists j, i. split; [exact Lt|]. rewrite !nth_error_map, Ey, Ei. cbn. now rewrite E1. }
    assert (Es : map snd R = map snd P).
    { apply (ordered_unique' (map snd R) (map snd P) 0 0 total total RO O'). intros r. split; intros H.
      - apply in_map_iff in H as ([i r0] & Er & H). cbn [snd] in Er. subst r0. destruct (RP i r H) as (x & m & _ & Hm & _ & E). rewrite <- E. now apply in_map.
      - apply in_map_iff in H as (m & <- & Hm). destruct (PR m Hm) as (i & Hi). apply in_map_iff. now exists (i, snd m). }
    assert (Er : R = combine (map fst R) (map snd P)). { rewrite <- Es. clear. induction R as [|[i r] R IH]; [reflexivity|]. cbn. now rewrite <- IH. }
    assert (Fn : Forall2 (fun i m => nth i (map snd l) 0 = snd (fst m)) (map fst R) P).
    { assert (Pu : forall m k, In m P -> In k P -> snd m = snd k -> m = k) by (intros m k Hm Hk; apply Pk in Hm as [Hm _]; apply Pk in Hk as [Hk _]; now apply Lr).
      assert (G : forall Q P0, (forall q, In q Q -> In q R) -> (forall m, In m P0 -> In m P) -> map snd Q = map snd P0 -> Forall2 (fun i m => nth i (map snd l) 0 = snd (fst m)) (map fst Q) P0).
      { induction Q as [|[i r] Q IH]; intros [|m P0] HQ HP E; try discriminate; [constructor|]. cbn [map snd] in E. injection E as E1 E2. cbn [map fst]. constructor; [|apply IH; [intros q Hq; apply HQ; now right|intros k Hk; apply HP; now right|exact E2]].
        destruct (RP i r (HQ _ (or_introl eq_refl))) as (x & k & Ex & Hk & F1 & F2). assert (k = m) by (apply Pu; [exact Hk|apply HP; now left|congruence]). subst k. rewrite F1.
        apply nth_error_nth. now rewrite nth_error_map, Ex. }
      apply G; [tauto|tauto|exact Es]. }
    rewrite Er. pose proof (fill_written' (map snd l) ps' (map fst R) p' 0 [] eq_refl Ls' Fn) as FW. cbn [app Z.add] in FW. rewrite (written_same l p ps p' ps' Fa) in FW. exact FW.
  Qed.
End Enclosed.

Lemma parts_found ss si op cl t (ad : list token_config) l0 qs rs : sorts start_key ss -> sorts id_key si -> op <> cl ->
  tk_raw t = re_matching (map (fun x => (TRe false false (fst x) false false, snd x)) l0) -> map fst l0 = map tc_content ad -> NoDup (map tc_content ad) -> Forall (fun k => enclosed op cl (tc_content k)) ad ->
  Forall2 (found_in l0) qs rs ->
  flat_map (raw_parts ss si t) (map (fun q => written (fst q) (snd q)) qs) = filter (fun s => match s with [] => false | _ => true end) (flat_map between rs).
Proof.
  intros HS HI Noc L1 Em Nd Enc O.
  assert (El : Forall (fun y => enclosed op cl (fst y)) l0) by (apply Forall_forall; intros y Hy; apply (in_map fst) in Hy; rewrite Em in Hy; apply in_map_iff in Hy as (k & <- & Ht); rewrite Forall_forall in Enc; now apply Enc).
  induction O as [|[p ps] [p' ps'] qs rs (Il & Np & Fr & Fa) O IH]; [reflexivity|]. cbn [map flat_map fst snd]. rewrite filter_app, IH. f_equal. unfold between in *. cbn [fst snd] in *.
  rewrite <- unadded_written. unfold raw_parts. destruct (written p ps) as [|b z] eqn:Ew.
  - pose proof (written_same l0 p ps p' ps' Fa) as Ws. rewrite Ew in Ws. destruct p'; [|discriminate Ws]. destruct ps' as [|[[k i] q] ps']; [reflexivity|]. exfalso. rewrite written_cons in Ws. cbn [fst snd app] in Ws. apply app_eq_nil in Ws as [Ws _].
    assert (Ht : In (k, i) (map fst ps)) by (apply (found_tokens l0 p ps _ _ Fa); now left). apply in_map_iff in Ht as (y & Ey & Hy). rewrite Forall_forall in Il, El. specialize (Il y Hy). rewrite Ey in Il. destruct (El _ Il) as (b & Eb & _). cbn [fst] in Eb. congruence.
  - rewrite <- Ew, L1. rewrite (cut_any op cl Noc ss si HS HI l0 p ps p' ps' El); [reflexivity|now rewrite Em|exact Il|exact Np|exact Fr|congruence|exact Fa].
Qed.

(** ** Texts cut at tokens *)
Definition cut_at (ss si : list io_pair -> list io_pair) (l0 : list (str * Z)) (q : str * list (str * Z * str)) : Prop :=
  (written (fst q) (snd q) = [] -> snd q = []) /\
  (written (fst q) (snd q) <> [] -> cut_added ss si (re_matching (map (fun x => (TRe false false (fst x) false false, snd x)) l0)) (written (fst q) (snd q)) = written_items (fst q) (snd q)).

Lemma written_empty p (ps : list (str * Z * str)) : Forall (fun q => fst (fst q) <> []) ps -> written p ps = [] -> ps = [].
Proof.
  intros F E. destruct ps as [|x ps]; [reflexivity|]. exfalso. apply Forall_cons_iff in F as [F _]. rewrite written_cons in E. apply app_eq_nil in E as [_ E]. apply app_eq_nil in E as [E _]. contradiction.
Qed.
Lemma parts_cut ss si t l0 qs : tk_raw t = re_matching (map (fun x => (TRe false false (fst x) false false, snd x)) l0) -> Forall (cut_at ss si l0) qs ->
  flat_map (raw_parts ss si t) (map (fun q => written (fst q) (snd q)) qs) = filter (fun s => match s with [] => false | _ => true end) (flat_map between qs).
Proof.
  intros L1 F. induction F as [|[p ps] qs [H1 H2] F IH]; [reflexivity|]. cbn [map flat_map fst snd] in *. rewrite filter_app, IH. f_equal. unfold between. cbn [fst snd].
  rewrite <- unadded_written. unfold raw_parts. destruct (written p ps) as [|b z] eqn:Ew.
  - rewrite (H1 eq_refl) in *. destruct p; [reflexivity|discriminate Ew].
  - rewrite L1, H2 by discriminate. reflexivity.
Qed.

Section Cut.
  Variables op cl : N.
  Hypothesis Noc : op <> cl.
  Variable ss si : list io_pair -> list io_pair.
  Hypothesis HS : sorts start_key ss.
  Hypothesis HI : sorts id_key si.
  Variables (f : str -> option Z) (n : Z) (ad : list token_config) (l0 : list (str * Z)).
  Hypothesis Nd : NoDup (map tc_content ad).
  Hypothesis Enc : Forall (fun k => enclosed op cl (tc_content k)) ad.
  Hypothesis W : with_ids f n ad l0.
  Lemma with_tokens : map fst l0 = map tc_content ad.
  Proof.
    assert (G : forall (P : token_config -> str * Z -> Prop) a l, Forall2 (fun t x => fst x = tc_content t /\ P t x) a l -> map fst l = map tc_content a) by (intros P a l H; induction H as [|t y a l [H _] H' IH]; [reflexivity|cbn [map]; now rewrite H, IH]).
    exact (G (fun t x => file_id f n ad (tc_content t) = Some (snd x)) ad l0 W).
  Qed.
  Lemma with_enclosed : Forall (fun y => enclosed op cl (fst y)) l0.
  Proof. apply Forall_forall; intros y Hy; apply (in_map fst) in Hy; rewrite with_tokens in Hy; apply in_map_iff in Hy as (k & <- & Ht). rewrite Forall_forall in Enc; now apply Enc. Qed.
  Lemma with_nonempty ps : Forall (fun q : str * Z * str => In (fst q) l0) ps -> Forall (fun q : str * Z * str => fst (fst q) <> []) ps.
  Proof. intros H. eapply Forall_impl; [|exact H]. intros q Hq. pose proof with_enclosed as E. rewrite Forall_forall in E. destruct (E _ Hq) as (b & -> & _). discriminate. Qed.
  Lemma cut_ordered qs : Forall (fun q => in_order l0 (snd q)) qs -> Forall (free_of (map tc_content ad)) (flat_map between qs) -> Forall (cut_at ss si l0) qs.
  Proof.
    intros O F. induction O as [|[p ps] qs O1 O IH]; [constructor|]. cbn [flat_map] in F. apply Forall_app in F as [F1 F]. constructor; [|exact (IH F)]. cbn [fst snd] in *. split; cbn [fst snd].
    - apply written_empty. apply with_nonempty. destruct O1 as (ns & Ln & Eo). apply Forall_forall. intros q Hq. apply (in_map fst) in Hq. rewrite Eo in Hq. apply in_flat_map in Hq as ([y k] & Hy & Hq). apply repeat_spec in Hq. cbn [fst snd] in Hq. rewrite Hq. now apply in_combine_l in Hy.
    - apply (cut_enclosed op cl Noc ss si HS HI l0 p ps with_enclosed); [now rewrite with_tokens|exact O1|]. now rewrite with_tokens.
  Qed.
  Lemma cut_found qs rs : Forall2 (found_in l0) qs rs -> map (fun q => written (fst q) (snd q)) qs = map (fun q => written (fst q) (snd q)) rs /\ Forall (cut_at ss si l0) rs.
  Proof.
    intros F. induction F as [|[p ps] [p' ps'] qs rs (Il & Np & Fr & Fa) F [IH1 IH2]]; [split; [reflexivity|constructor]|]. cbn [map fst snd] in *. pose proof (written_same l0 p ps p' ps' Fa) as Ws. split; [now rewrite IH1, Ws|]. constructor; [|exact IH2]. split; cbn [fst snd].
    - apply written_empty. apply with_nonempty. apply Forall_forall. intros q Hq. apply (in_map fst) in Hq. apply (found_tokens l0 p ps _ _ Fa) in Hq. apply in_map_iff in Hq as (y & <- & Hy). rewrite Forall_forall in Il. now apply Il.
    - rewrite Ws. intros Ne. apply (cut_any op cl Noc ss si HS HI l0 p ps p' ps' with_enclosed); [now rewrite with_tokens|exact Il|exact Np|exact Fr|exact Ne|exact Fa].
  Qed.
End Cut.
