(** Where bracketed tokens are found (C84). *)
From Verif Require Import Base BaseProofs Utf8Model NormalizedModel NormalizedSpec NormalizedProofs NormalizedExactProofs AddedVocabModel AddedVocabSpec AddedFindProofs AddedPatternModel AddedPatternSpec AddedPatternProofs LoadedAddedProofs
  EncodingModel PreTokenizedModel PipelineModel TokensSpec ItemsSpec.
Open Scope Z_scope.

(** ** Tokens in brackets *)
Section Enclosed.
Variables op cl : N.
Hypothesis Noc : op <> cl.
Lemma bracket_open t i : enclosed op cl t -> nth_error t i = Some op -> i = 0%nat.
Proof.
  intros (b & -> & H & _) E. destruct i as [|i]; [reflexivity|]. exfalso. cbn [nth_error] in E. apply nth_error_In in E. apply in_app_or in E as [E|[E|[]]]; [now apply H|congruence].
Qed.
Lemma bracket_first t : enclosed op cl t -> nth_error t 0 = Some op.
Proof. now intros (b & -> & _). Qed.
Lemma bracket_prefix : forall t w y, enclosed op cl t -> enclosed op cl w -> t = w ++ y -> t = w.
Proof.
  intros t w y (b & -> & _ & Hb) (c & -> & _ & Hc) E. cbn [app] in *. injection E as E. rewrite <- app_assoc in E. f_equal. revert c Hc E. induction b as [|x b IH]; intros [|z c] Hc E; cbn [app] in *.
  - reflexivity.
  - injection E as <- E. elim Hc. now left.
  - injection E as -> E. elim Hb. now left.
  - injection E as -> E. f_equal. apply IH; [intros X; apply Hb; now right|intros X; apply Hc; now right|exact E].
Qed.
Lemma bracket_same t w a b : enclosed op cl t -> enclosed op cl w -> t ++ a = w ++ b -> t = w /\ a = b.
Proof.
  intros Ht Hw E. assert (X : t = w).
  { destruct (Nat.le_gt_cases (length w) (length t)) as [L|L].
    - apply (bracket_prefix t w (firstn (length t - length w) b) Ht Hw). apply (f_equal (firstn (length t))) in E. rewrite firstn_app, firstn_all, Nat.sub_diag in E. cbn [firstn] in E. rewrite app_nil_r in E.
      rewrite E at 1. rewrite firstn_app, firstn_all2 by lia. reflexivity.
    - symmetry. apply (bracket_prefix w t (firstn (length w - length t) a) Hw Ht). symmetry in E. apply (f_equal (firstn (length w))) in E. rewrite firstn_app, firstn_all, Nat.sub_diag in E. cbn [firstn] in E. rewrite app_nil_r in E.
      rewrite E at 1. rewrite firstn_app, firstn_all2 by lia. reflexivity. }
  split; [exact X|]. subst w. now apply app_inv_head in E.
Qed.

Lemma written_cons p x ps : written p (x :: ps) = p ++ fst (fst x) ++ written (snd x) ps.
Proof. unfold written. cbn [flat_map]. now rewrite <- app_assoc. Qed.

(** The tokens and their ranges. *)
Fixpoint places (start : Z) (p : str) (ps : list (str * Z * str)) : list (str * Z * (Z * Z)) :=
  match ps with
  | [] => []
  | x :: ps' => (fst x, (start + zlen p, start + zlen p + zlen (fst (fst x)))) :: places (start + zlen p + zlen (fst (fst x))) (snd x) ps'
  end.
Lemma places_tokens ps : forall start p, map fst (places start p ps) = map fst ps.
Proof. induction ps as [|x ps IH]; intros start p; [reflexivity|]. cbn [places map fst]. now rewrite IH. Qed.
Lemma places_ordered ps : Forall (fun x => 0 < zlen (fst (fst x))) ps -> forall p start, ordered_from start (start + zlen (written p ps)) (map snd (places start p ps)).
Proof.
  induction 1 as [|x ps Hx F IH]; intros p start; cbn [places map snd ordered_from].
  - pose proof (Zle_0_nat (length (written p []))). unfold zlen. lia.
  - destruct x as [[t id] q]. cbn [fst snd] in *. rewrite written_cons, !zlen_app. pose proof (Zle_0_nat (length p)). cbn [fst snd]. split; [unfold zlen in *; lia|]. specialize (IH q (start + zlen p + zlen t)).
    replace (start + (zlen p + (zlen t + zlen (written q ps)))) with (start + zlen p + zlen t + zlen (written q ps)) by lia. exact IH.
Qed.
Lemma places_standing ps : forall p start y, zlen y = start -> Forall (fun m => at_range (fst (fst m)) (y ++ written p ps) (fst (snd m)) (snd (snd m))) (places start p ps).
Proof.
  induction ps as [|[[t id] q] ps IH]; intros p start y Ey; cbn [places]; [constructor|]. rewrite written_cons. cbn [fst snd]. pose proof (Zle_0_nat (length p)). pose proof (Zle_0_nat (length y)). pose proof (Zle_0_nat (length t)). constructor.
  - cbn [fst snd]. unfold at_range. split; [unfold zlen in *; lia|]. split; [reflexivity|]. pose proof (Zle_0_nat (length (written q ps))). rewrite !zlen_app. split; [unfold zlen in *; lia|].
    rewrite app_assoc. apply part_mid; [rewrite zlen_app; lia|]. cbn [fst snd]. ring_simplify. lia.
  - specialize (IH q (start + zlen p + zlen t) (y ++ p ++ t)). rewrite <- !app_assoc in IH. apply IH. rewrite !zlen_app. lia.
Qed.

Lemma app_cases {A} (a b x y : list A) : a ++ b = x ++ y -> (exists z, x = a ++ z /\ b = z ++ y) \/ (exists z, a = x ++ z /\ z <> [] /\ y = z ++ b).
Proof.
  revert x. induction a as [|c a IH]; intros x E; cbn in E.
  - left. exists x. auto.
  - destruct x as [|d x]; cbn in E; [right; exists (c :: a); split; [reflexivity|]; split; [discriminate|now symmetry]|].
    injection E as <- E. destruct (IH x E) as [(z & -> & ->)|(z & -> & N & ->)]; [left|right]; exists z; auto.
Qed.

(** A token in brackets that is in no other part stands where it was put. *)
Lemma occurrences w : enclosed op cl w -> forall ps p x y start, Forall (fun q => enclosed op cl (fst (fst q))) ps -> Forall (fun q => forall a z, q <> a ++ w ++ z) (p :: map snd ps) -> written p ps = x ++ w ++ y ->
  exists id, In ((w, id), (start + zlen x, start + zlen x + zlen w)) (places start p ps).
Proof.
  intros Bw. induction ps as [|[[t id] p'] ps IH]; intros p x y start Bs F E; cbn [map snd] in F; apply Forall_cons_iff in F as [Fp F].
  { unfold written in E. cbn [flat_map] in E. rewrite app_nil_r in E. now apply Fp in E. }
  apply Forall_cons_iff in Bs as [Bt Bs]. cbn [fst snd] in Bt.
  rewrite written_cons in E. cbn [fst snd] in E. cbn [places fst snd]. pose proof (bracket_first t Bt) as T0. pose proof (bracket_first w Bw) as W0.
  assert (Hd : forall (z z' r q : str), z' <> [] -> z' ++ r = q -> nth_error q 0 = Some op -> nth_error (z ++ z') (length z) = Some op).
  { intros z z' r q Nz <- Q. rewrite nth_error_app2, Nat.sub_diag by lia. destruct z' as [|c z']; [congruence|exact Q]. }
  apply app_cases in E as [(z & -> & E)|(z & Ez & Nz & E)].
  - destruct z as [|c z].
    { cbn [app] in E. destruct (bracket_same t w _ _ Bt Bw E) as [X _]. rewrite app_nil_r. exists id. left. now subst. }
    apply app_cases in E as [(z' & Ez & E)|(z' & Ez & Nz & E)].
    + destruct (IH p' z' y (start + zlen p + zlen t) Bs F E) as [i I]. exists i. right. rewrite Ez, !zlen_app, !Z.add_assoc. exact I.
    + exfalso. assert (X : nth_error t (length (c :: z)) = Some op).
      { rewrite Ez at 1. apply (Hd _ z' (written p' ps) (w ++ y) Nz (eq_sym E)). destruct w; [discriminate W0|exact W0]. }
      apply bracket_open in X; [discriminate X|exact Bt].
  - exfalso. apply app_cases in E as [(z' & Ew & E)|(z' & Ew & Nz' & E)].
    + apply (Fp x z'). now rewrite Ez, Ew.
    + assert (X : nth_error w (length z) = Some op).
      { rewrite Ew at 1. apply (Hd _ z' y (t ++ written p' ps) Nz' (eq_sym E)). destruct t; [discriminate T0|exact T0]. }
      apply bracket_open in X; [|exact Bw]. destruct z; [now apply Nz|discriminate X].
Qed.

(** ** The matches *)
Lemma ordered_unique : forall l1 l2 lo1 lo2 n1 n2, ordered_from lo1 n1 l1 -> ordered_from lo2 n2 l2 -> (forall m, In m l1 <-> In m l2) -> l1 = l2.
Proof.
  assert (Hd : forall l lo n, ordered_from lo n l -> forall m, In m l -> lo <= fst m < snd m).
  { intros l lo n O m H. pose proof (ordered_in lo n l O m H). lia. }
  induction l1 as [|[a b] l1 IH]; intros [|[c d] l2] lo1 lo2 n1 n2 O1 O2 H; [reflexivity|exfalso; exact (proj2 (H (c, d)) (or_introl eq_refl))|exfalso; exact (proj1 (H (a, b)) (or_introl eq_refl))|].
  cbn [ordered_from] in O1, O2. destruct O1 as [A O1], O2 as [C O2].
  assert (E : (a, b) = (c, d)).
  { destruct (proj1 (H (a, b)) (or_introl eq_refl)) as [E|I1]; [now symmetry|]. destruct (proj2 (H (c, d)) (or_introl eq_refl)) as [E|I2]; [exact E|].
    pose proof (Hd _ _ _ O2 _ I1). pose proof (Hd _ _ _ O1 _ I2). cbn [fst snd] in *. lia. }
  injection E as <- <-. f_equal. apply (IH l2 b b n1 n2 O1 O2). intros m. split; intros I.
  - destruct (proj1 (H m) (or_intror I)) as [<-|I']; [|exact I']. pose proof (Hd _ _ _ O1 _ I). cbn [fst snd] in *. lia.
  - destruct (proj2 (H m) (or_intror I)) as [<-|I']; [|exact I']. pose proof (Hd _ _ _ O2 _ I). cbn [fst snd] in *. lia.
Qed.
Lemma ordered_apart : forall l lo n, ordered_from lo n l -> forall m k, In m l -> In k l -> fst m <= fst k < snd m -> m = k.
Proof.
  induction l as [|[a b] l IH]; intros lo n O m k Hm Hk H; [destruct Hm|]. cbn [ordered_from] in O. destruct O as [A O]. destruct Hm as [<-|Hm], Hk as [<-|Hk]; [reflexivity| | |].
  - pose proof (ordered_in _ _ _ O _ Hk). cbn [fst snd] in *. lia.
  - pose proof (ordered_in _ _ _ O _ Hm). cbn [fst snd] in *. lia.
  - exact (IH b n O m k Hm Hk H).
Qed.
Definition same_token (t : str) (m : str * Z * (Z * Z)) : bool := str_eqb (fst (fst m)) t.
Lemma ordered_filter (f : str * Z * (Z * Z) -> bool) : forall l lo n, ordered_from lo n (map snd l) -> ordered_from lo n (map snd (filter f l)).
Proof.
  assert (W : forall l lo lo' n, lo <= lo' -> ordered_from lo' n l -> ordered_from lo n l) by (intros [|[a b] l] lo lo' n H O; cbn in *; [lia|]; destruct O; split; [lia|assumption]).
  induction l as [|[t [a b]] l IH]; intros lo n O; [exact O|]. cbn [map snd ordered_from] in O. destruct O as [A O]. cbn [filter]. destruct (f _); cbn [map snd ordered_from]; [split; [exact A|now apply IH]|].
  apply (W _ lo b n); [lia|]. now apply IH.
Qed.
Lemma written_found w p ps : enclosed op cl w -> Forall (fun q => enclosed op cl (fst (fst q))) ps -> Forall (fun q => forall a z, q <> a ++ w ++ z) (p :: map snd ps) ->
  find_re (TRe false false w false false) None (written p ps) 0 0 = map snd (filter (same_token w) (places 0 p ps)).
Proof.
  intros Bw Bs F. assert (Ne : w <> []) by (destruct Bw as (b & -> & _); discriminate). destruct (plain_found w (written p ps) Ne) as (O & R & C).
  assert (Ls : Forall (fun x => 0 < zlen (fst (fst x))) ps) by (eapply Forall_impl; [|exact Bs]; intros [[t id] q] (b & Eb & _); cbn [fst] in *; rewrite Eb; unfold zlen; cbn; lia). pose proof (places_ordered ps Ls p 0) as Op.
  pose proof (ordered_filter (same_token w) _ _ _ Op) as Of.
  assert (In1 : forall m, In m (find_re (TRe false false w false false) None (written p ps) 0 0) -> In m (map snd (filter (same_token w) (places 0 p ps)))).
  { intros m Hm. rewrite Forall_forall in R. destruct (R m Hm) as (H1 & H2 & H3 & H4). destruct (infix_split (written p ps) (fst m) (snd m)) as (x & y & E & Ex & _); [lia|unfold zlen in *; lia|exact H3|].
    rewrite H4 in E. destruct (occurrences w Bw ps p x y 0 Bs F E) as (id & I). cbn [Z.add] in I. rewrite Ex, <- H2 in I. apply in_map_iff. exists ((w, id), (fst m, snd m)). split; [now destruct m|].
    apply filter_In. split; [exact I|]. unfold same_token. cbn [fst]. apply str_eqb_refl. }
  apply (ordered_unique _ _ 0 0 (zlen (written p ps)) (0 + zlen (written p ps)) O Of). intros m. split; [apply In1|]. intros Hm.
  pose proof Hm as Hm'. apply in_map_iff in Hm' as ([[t id] m'] & Em & Hf). cbn [snd] in Em. subst m'. apply filter_In in Hf as [Hf Ht]. unfold same_token in Ht. cbn [fst] in Ht. apply str_eqb_eq in Ht. subst t.
  pose proof (places_standing ps p 0 [] eq_refl) as S0. rewrite Forall_forall in S0. cbn [app] in S0. pose proof (S0 _ Hf) as Sm. cbn [fst snd] in Sm. destruct (C (fst m) (snd m) Sm) as (k & Hk & B); [apply Sm|].
  assert (k = m) by (apply (ordered_apart _ _ _ Of); [now apply In1|exact Hm|exact B]). now subst.
Qed.

(** ** Candidates *)
Lemma filter_none {A} (f : A -> bool) l : Forall (fun x => f x = false) l -> filter f l = [].
Proof. induction 1 as [|x l H F IH]; [reflexivity|]. cbn [filter]. now rewrite H. Qed.
Lemma filter_all {A} (f : A -> bool) l : Forall (fun x => f x = true) l -> filter f l = l.
Proof. induction 1 as [|x l H F IH]; [reflexivity|]. cbn [filter]. now rewrite H, IH. Qed.
(** The tokens that come in the order of the list, with their places in it. *)
Lemma candidates_listed (ids0 : list Z) : forall (l : list (str * Z)) ns L k, NoDup (map fst l) -> length ns = length l -> map fst L = flat_map (fun x => repeat (fst x) (snd x)) (combine l ns) ->
  length ids0 = k ->
  exists is, concat (map (fun p => map (pair (fst p)) (snd p)) (combine (seq k (length l)) (map (fun x => map snd (filter (same_token (fst x)) L)) l))) = combine is (map snd L) /\
    length is = length L /\ StronglySorted le is /\ Forall (fun i => (k <= i)%nat) is /\ Forall2 (fun i x => nth i (ids0 ++ map snd l) 0 = snd (fst x)) is L.
Proof.
  intros l. revert ids0. induction l as [|[t id] l IH]; intros ids0 ns L k Nd Ln E Lk.
  { destruct L; [|discriminate E]. exists []. repeat split; constructor. }
  destruct ns as [|n ns]; [discriminate Ln|]. cbn [combine flat_map fst snd] in E. cbn [map fst] in Nd. apply NoDup_cons_iff in Nd as [Nt Nd].
  assert (S0 : exists L1 L2, L = L1 ++ L2 /\ map fst L1 = repeat (t, id) n /\ map fst L2 = flat_map (fun x => repeat (fst x) (snd x)) (combine l ns)).
  { exists (firstn n L), (skipn n L). split; [symmetry; apply firstn_skipn|]. rewrite <- firstn_map, <- skipn_map, E. split.
    - rewrite firstn_app, repeat_length, Nat.sub_diag. cbn [firstn]. rewrite app_nil_r. apply firstn_all2. rewrite repeat_length. lia.
    - rewrite skipn_app, repeat_length, Nat.sub_diag. rewrite skipn_all2 by (rewrite repeat_length; lia). reflexivity. }
  destruct S0 as (L1 & L2 & -> & E1 & E2). clear E.
  assert (F1 : Forall (fun m => fst m = (t, id)) L1).
  { apply Forall_forall. intros m Hm. apply (in_map fst) in Hm. rewrite E1 in Hm. now apply repeat_spec in Hm. }
  assert (F2 : Forall (fun m => fst (fst m) <> t) L2).
  { apply Forall_forall. intros m Hm X. apply (in_map fst) in Hm. rewrite E2 in Hm. apply in_flat_map in Hm as ([y q] & Hy & Hm). apply repeat_spec in Hm. cbn [fst snd] in *. apply in_combine_l in Hy. apply Nt. apply in_map_iff. exists y. split; [congruence|exact Hy]. }
  assert (X1 : filter (same_token t) (L1 ++ L2) = L1).
  { rewrite filter_app, (filter_all _ L1), (filter_none _ L2), app_nil_r; [reflexivity| |].
    - eapply Forall_impl; [|exact F2]. intros m Hm. unfold same_token. now apply str_eqb_neq.
    - eapply Forall_impl; [|exact F1]. intros m Hm. unfold same_token. rewrite Hm. apply str_eqb_refl. }
  assert (X2 : map (fun x => map snd (filter (same_token (fst x)) (L1 ++ L2))) l = map (fun x => map snd (filter (same_token (fst x)) L2)) l).
  { apply map_ext_in. intros x Hx. rewrite filter_app, (filter_none _ L1); [reflexivity|]. eapply Forall_impl; [|exact F1]. intros m Hm. unfold same_token. rewrite Hm. cbn [fst]. apply str_eqb_neq. intros X. apply Nt. rewrite X. now apply in_map. }
  destruct (IH (ids0 ++ [id]) ns L2 (S k) Nd) as (is & C & Li & Si & Gi & Ni); [now injection Ln|exact E2|rewrite app_length; cbn; lia|].
  cbn [length seq map combine concat fst snd]. rewrite X1, X2, C. exists (repeat k (length L1) ++ is).
  assert (Cr : map (pair k) (map snd L1) = combine (repeat k (length L1)) (map snd L1)) by (clear; induction L1 as [|m L1 IH]; [reflexivity|]; cbn; now rewrite IH).
  split.
  { rewrite Cr, map_app. generalize (map snd L2) as b. clear. intros b. induction L1 as [|m L1 IH]; [reflexivity|]. cbn. now rewrite IH. }
  split; [rewrite !app_length, repeat_length; lia|]. split; [|split].
  - clear -Si Gi. induction (length L1) as [|q IHq]; [exact Si|]. cbn [repeat app]. constructor; [exact IHq|]. apply Forall_app. split; [apply Forall_forall; intros y Hy; apply repeat_spec in Hy; lia|]. eapply Forall_impl; [|exact Gi]. cbn. lia.
  - apply Forall_app. split; [apply Forall_forall; intros y Hy; apply repeat_spec in Hy; lia|]. eapply Forall_impl; [|exact Gi]. cbn. lia.
  - apply Forall2_app.
    + clear -F1 Lk. induction F1 as [|m L1 Hm F1 IH]; [constructor|]. cbn [length repeat]. constructor; [|exact IH]. rewrite app_nth2, Lk, Nat.sub_diag by lia. rewrite Hm. reflexivity.
    + cbn [map snd]. change (id :: map snd l) with ([id] ++ map snd l). rewrite app_assoc. exact Ni.
Qed.

(** ** The cut *)
Lemma greedy_ordered : forall is rs lo n, length is = length rs -> ordered_from lo n rs -> AddedFindProofs.greedy (combine is rs) lo = combine is rs.
Proof.
  induction is as [|i is IH]; intros [|[a b] rs] lo n L O; try discriminate; [reflexivity|]. cbn [ordered_from] in O. destruct O as [A O]. cbn [combine AddedFindProofs.greedy fst snd].
  replace (a <? lo) with false by lia. f_equal. apply (IH rs b n); [now injection L|exact O].
Qed.
Lemma fill_written ids0 : forall ps is p start x, zlen x = start -> Forall (fun q => 0 < zlen (fst (fst q))) ps -> Forall2 (fun i m => nth i ids0 0 = snd (fst m)) is (places start p ps) ->
  map (fun y => (fst y, part (fst (snd y)) (snd (snd y)) (x ++ written p ps))) (fill ids0 start (start + zlen (written p ps)) (combine is (map snd (places start p ps)))) = written_items p ps.
Proof.
  assert (Pl : forall p start total, 0 <= start -> map (fun y : option Z * (Z * Z) => (fst y, p)) (if start <? start + zlen p then [(None, (start, total))] else []) = plain_item p).
  { intros [|c p] start total H; cbn [plain_item]; [replace (start <? start + zlen []) with false by (unfold zlen; cbn; lia); reflexivity|]. replace (start <? start + zlen (c :: p)) with true by (unfold zlen; cbn; lia). reflexivity. }
  induction ps as [|[[t id] q] ps IH]; intros is p start x Ex F H; cbn [places map snd fst] in *.
  - inversion H; subst. cbn [combine fill]. unfold written_items, written. cbn [flat_map]. rewrite !app_nil_r. pose proof (Zle_0_nat (length x)). unfold plain_item. destruct p as [|c p].
    + replace (zlen x =? zlen x + zlen []) with true by (unfold zlen; cbn; lia). reflexivity.
    + replace (zlen x =? zlen x + zlen (c :: p)) with false by (unfold zlen; cbn; lia). cbn [map fst snd]. do 2 f_equal. rewrite <- (app_nil_r (c :: p)) at 2. apply part_mid; [reflexivity|lia].
  - apply Forall_cons_iff in F as [Ft F]. cbn [fst] in Ft. inversion H as [|i ? is' ? Hi H']; subst. cbn [fst snd] in Hi. cbn [combine fill]. rewrite map_app. unfold written_items. cbn [flat_map fst snd]. refine (f_equal2 (@app _) _ _).
    + rewrite written_cons. cbn [fst snd]. rewrite <- (Pl p (zlen x) (zlen x + zlen p)) by (unfold zlen; lia). destruct (zlen x <? zlen x + zlen p); [|reflexivity]. cbn [map fst snd]. do 2 f_equal. apply part_mid; [reflexivity|lia].
    + cbn [map fst snd]. rewrite Hi. cbn [app]. f_equal.
      * f_equal. rewrite written_cons. cbn [fst snd]. rewrite app_assoc. apply part_mid; [rewrite zlen_app; lia|lia].
      * specialize (IH is' q (zlen x + zlen p + zlen t) (x ++ p ++ t)). rewrite written_cons. cbn [fst snd]. rewrite <- !app_assoc in IH. rewrite !zlen_app in *.
        replace (zlen x + (zlen p + (zlen t + zlen (written q ps)))) with (zlen x + zlen p + zlen t + zlen (written q ps)) by lia. apply IH; [lia|exact F|exact H'].
Qed.
Lemma start_sorted : forall is rs lo n, length is = length rs -> ordered_from lo n rs -> StronglySorted (fun a b => start_key a <= start_key b) (combine is rs).
Proof.
  induction is as [|i is IH]; intros [|[a b] rs] lo n L O; try discriminate; [constructor|]. cbn [ordered_from] in O. destruct O as [A O]. cbn [combine]. constructor; [apply (IH rs b n); [now injection L|exact O]|].
  apply Forall_forall. intros [j r] Hj. apply in_combine_r in Hj. pose proof (ordered_in _ _ _ O _ Hj). unfold start_key. cbn [fst snd]. lia.
Qed.
Lemma id_sorted : forall is (rs : list (Z * Z)), length is = length rs -> StronglySorted le is -> StronglySorted (fun a b => id_key a <= id_key b) (combine is rs).
Proof.
  induction is as [|i is IH]; intros [|r rs] L O; try discriminate; [constructor|]. cbn [combine]. apply StronglySorted_inv in O as [O F]. constructor; [apply IH; [now injection L|exact O]|].
  apply Forall_forall. intros [j r'] Hj. apply in_combine_l in Hj. rewrite Forall_forall in F. specialize (F j Hj). unfold id_key. cbn [fst]. lia.
Qed.

Section Sorted.
  Variable ss si : list io_pair -> list io_pair.
  Hypothesis HS : sorts start_key ss.
  Hypothesis HI : sorts id_key si.
  Lemma cut_enclosed (l : list (str * Z)) p ps : Forall (fun x => enclosed op cl (fst x)) l -> NoDup (map fst l) -> in_order l ps -> Forall (free_of (map fst l)) (p :: map snd ps) -> written p ps <> [] ->
    cut_added ss si (re_matching (map (fun x => (TRe false false (fst x) false false, snd x)) l)) (written p ps) = written_items p ps.
  Proof.
    intros B Nd (ns & Ln & Eo) F Ne.
    assert (Bs : Forall (fun q => enclosed op cl (fst (fst q))) ps).
    { apply Forall_forall. intros q Hq. apply (in_map fst) in Hq. rewrite Eo in Hq. apply in_flat_map in Hq as ([y n] & Hy & Hq). apply repeat_spec in Hq. cbn [fst snd] in Hq. rewrite Hq. apply in_combine_l in Hy. rewrite Forall_forall in B. now apply B. }
    assert (Ls : Forall (fun q : str * Z * str => 0 < zlen (fst (fst q))) ps) by (eapply Forall_impl; [|exact Bs]; intros [[t id] q] (b & Eb & _); cbn [fst] in *; rewrite Eb; unfold zlen; cbn; lia).
    set (L := places 0 p ps). set (s := written p ps) in *. unfold cut_added, re_matching. cbn [mt_ids mt_find]. rewrite !map_map. cbn [fst snd].
    assert (Ef : map (fun x : str * Z => find_re (TRe false false (fst x) false false) None s 0 0) l = map (fun x => map snd (filter (same_token (fst x)) L)) l).
    { apply map_ext_in. intros x Hx. rewrite Forall_forall in B. apply written_found; [now apply B|exact Bs|]. eapply Forall_impl; [|exact F]. intros q Hq a z. apply Hq. now apply in_map. }
    rewrite Ef. assert (Z0 : zlen s <> 0) by (destruct s; [congruence|unfold zlen; cbn; lia]). rewrite (find_matches_eq ss si HI) by exact Z0.
    destruct (candidates_listed [] l ns L 0 Nd Ln) as (is & C & Li & Si & _ & Ni); [unfold L; now rewrite places_tokens|reflexivity|]. cbn [app] in Ni.
    pose proof (places_ordered ps Ls p 0) as Op. fold L in Op. assert (Lm : length is = length (map snd L)) by (now rewrite map_length).
    assert (Ec : candidates ss si (map (fun x => map snd (filter (same_token (fst x)) L)) l) = combine is (map snd L)).
    { unfold candidates, io_pairs. rewrite map_length, C. destruct (HS (combine is (map snd L))) as (_ & _ & ->); [|now apply (start_sorted is _ 0 (0 + zlen (written p ps)))]. apply HI. now apply id_sorted. }
    rewrite Ec, (greedy_ordered is _ 0 (0 + zlen (written p ps)) Lm Op). exact (fill_written (map snd l) ps is p 0 [] eq_refl Ls Ni).
  Qed.
End Sorted.
End Enclosed.

Lemma cut_written ss si : sorts start_key ss -> sorts id_key si -> forall (l : list (str * Z)) p ps, Forall (fun x => bracketed (fst x)) l -> NoDup (map fst l) -> in_order l ps -> Forall (free_of (map fst l)) (p :: map snd ps) -> written p ps <> [] ->
  cut_added ss si (re_matching (map (fun x => (TRe false false (fst x) false false, snd x)) l)) (written p ps) = written_items p ps.
Proof. intros HS HI. exact (cut_enclosed 91 93 ltac:(discriminate) ss si HS HI). Qed.
