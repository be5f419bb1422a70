(** Proofs about the BERT and default normalizers. *)
From Coq Require Import ZifyBool ZifyN.
From Verif Require Import Base BaseProofs Utf8Model Utf8Proofs NormalizedModel NormalizedSpec NormalizedProofs NormalizedInvProofs
  NormalizedOpProofs NormalizedExactProofs ExpandedProofs MetaspaceProofs PlacedNormProofs PreTokenizerModel BertNormModel BertNormSpec.
Open Scope Z_scope.

Lemma if_false (a b : bool) : (if a then false else b) = negb a && b.
Proof. now destruct a. Qed.
Lemma if_true (a b : bool) : (if a then true else b) = a || b.
Proof. now destruct a. Qed.
Lemma if_both (a b c : bool) : (if a then b else c) = (a && b) || (negb a && c).
Proof. now destruct a, b, c. Qed.

Lemma is_chinese_eq c : is_chinese c = chinese c && negb (extension_a c).
Proof.
  unfold is_chinese, in_table, cjk16, cjk32, chinese, extension_a. cbn [in_ranges length hd last fst snd Nat.eqb negb andb].
  rewrite !if_false, !if_true, !if_both. lia.
Qed.
Lemma dropped_eq cc c : ((c =? 0) || (c =? 0xfffd))%N || is_control cc c = dropped cc c.
Proof. unfold is_control, dropped. destruct (cc c); rewrite if_both; lia. Qed.

Lemma clean_inv cc rs : let '(items, removed) := clean_items cc rs in
  items_text items = encode (cleaned cc rs) /\ valid_items items /\ 0 <= removed /\
  (0 <? removed) = next_is (dropped cc) rs.
Proof.
  unfold clean_items. induction rs as [|c rs IH]; [repeat split; [constructor|lia]|]. cbn [fold_right].
  destruct (fold_right (clean_step cc) ([], 0) rs) as [items removed]. destruct IH as (T & V & P & Nx).
  cbn [clean_step cleaned next_is]. rewrite dropped_eq. destruct (dropped cc c) eqn:D.
  - repeat split; auto; lia.
  - rewrite Nx. destruct (next_is (dropped cc) rs) eqn:Ex.
    + rewrite Bool.andb_true_r. change (is_white c) with (white c).
      repeat split; [|constructor; [apply valid_encode_rune|exact V]|lia].
      unfold items_text in *. cbn [map concat fst]. rewrite T. cbn [encode map concat]. reflexivity.
    + rewrite Bool.andb_false_r. repeat split; [|constructor; [apply valid_encode_rune|exact V]|lia|lia].
      unfold items_text in *. cbn [map concat fst]. rewrite T. reflexivity.
Qed.

Lemma clean_fresh cc s n' : valid_utf8 s -> clean_text cc (new_ns s) = Ok n' ->
  ns_norm n' = encode (cleaned cc (runes s)) /\ ns_orig n' = s.
Proof.
  intros V E. unfold clean_text in E. cbn [new_ns ns_norm] in E. fold (new_ns s) in E.
  pose proof (clean_inv cc (runes s)) as C. destruct (clean_items cc (runes s)) as [items removed].
  destruct C as (T & Vi & _). apply transform_fresh_text in E; auto. now rewrite <- T.
Qed.

Lemma clean_items_single cc rs : Forall single_byte rs -> clean_items cc rs = edit_items (clean_edits cc rs).
Proof.
  intros F. unfold clean_items. induction F as [|c rs H F IH]; [reflexivity|]. cbn [fold_right clean_edits edit_items].
  pose proof (clean_inv cc rs) as C. unfold clean_items in C. rewrite IH in *.
  destruct (edit_items (clean_edits cc rs)) as [items removed]. destruct C as (_ & _ & P & Nx).
  cbn [clean_step]. rewrite dropped_eq. destruct (dropped cc c); [reflexivity|]. rewrite Nx.
  assert (E1 : encode_rune c = [c]) by (unfold encode_rune; unfold single_byte in H; destruct (N.ltb_spec c 128); [reflexivity|lia]).
  destruct (next_is (dropped cc) rs).
  - rewrite Bool.andb_true_r. change (is_white c) with (white c). destruct (white c); [reflexivity|now rewrite E1].
  - rewrite Bool.andb_false_r, E1. now replace removed with 0 by lia.
Qed.
Lemma clean_edits_fst cc rs : map fst (clean_edits cc rs) = rs.
Proof. induction rs as [|c rs IH]; [reflexivity|]. cbn. now rewrite IH. Qed.
Lemma clean_edits_text cc rs : edit_text (clean_edits cc rs) = cleaned cc rs.
Proof.
  unfold edit_text. induction rs as [|c rs IH]; [reflexivity|]. cbn [clean_edits map concat snd cleaned].
  destruct (dropped cc c); rewrite IH; reflexivity.
Qed.
Lemma clean_single cc rs : Forall single_byte rs ->
  exists n', clean_text cc (new_ns rs) = Ok n' /\ ns_orig n' = rs /\ ns_norm n' = cleaned cc rs /\
    ns_al n' = edit_al (clean_edits cc rs) 0 /\ ns_ao_values n' = edit_ao (clean_edits cc rs) 0.
Proof.
  intros F. unfold clean_text. cbn [new_ns ns_norm]. fold (new_ns rs).
  assert (R : runes rs = rs). { rewrite <- (single_bytes rs F) at 1. apply runes_encode. now apply single_scalar. }
  rewrite R, clean_items_single by exact F. destruct (edit_items (clean_edits cc rs)) as [items initial] eqn:E.
  destruct (edit_exact (clean_edits cc rs) items initial) as (n' & X).
  - now rewrite clean_edits_fst.
  - clear E R. induction F as [|c rs H F IH]; [constructor|]. cbn [clean_edits]. constructor; [|exact IH].
    cbn [snd]. intros s. destruct (dropped cc c); [discriminate|]. intros [= <-].
    destruct (white c && _).
    + exists [32%N]. split; [repeat constructor; unfold scalar; lia|reflexivity].
    + exists [c]. split; [repeat constructor; unfold scalar, single_byte in *; lia|].
      unfold encode. cbn. unfold encode_rune, single_byte in *. destruct (N.ltb_spec c 128); [reflexivity|lia].
  - exact E.
  - rewrite clean_edits_fst, clean_edits_text in X. eauto.
Qed.

(** ** Whole-text changes of an expanded text *)
Lemma last_indep {A} (l : list A) a b : l <> [] -> last l a = last l b.
Proof. induction l as [|x l IH]; [congruence|]. intros _. destruct l; [reflexivity|]. apply IH. discriminate. Qed.
Lemma expand_app_repeat v w l : (0 < w)%nat -> l <> [] ->
  expand (repeat v w ++ l) = Some (fst v, match expand l with Some (_, b) => b | None => 0 end).
Proof.
  intros Hw Hl. destruct w as [|w]; [lia|]. cbn [repeat app expand]. f_equal. f_equal.
  destruct l as [|x l]; [congruence|]. cbn [expand].
  change (v :: repeat v w ++ x :: l) with (repeat v (S w) ++ x :: l).
  rewrite last_app_ne by discriminate. f_equal. apply last_indep. discriminate.
Qed.
Lemma exp_ao_expand xs : xs <> [] -> forall d, expand (exp_ao xs d) = Some (d, d + zlen (exp_text xs)).
Proof.
  induction xs as [|x xs IH]; intros H d; [congruence|]. cbn [exp_ao].
  assert (Hw : (0 < length (encode_rune (fst x)))%nat) by (pose proof (zlen_rune (fst x)); unfold zlen in *; lia).
  destruct xs as [|y xs].
  - cbn [exp_ao]. rewrite app_nil_r. unfold exp_text. cbn [map concat]. rewrite app_nil_r.
    destruct (length (encode_rune (fst x))) as [|w]; [lia|]. cbn [repeat expand fst].
    change ((d, d + zlen (exp_out x)) :: repeat (d, d + zlen (exp_out x)) w) with (repeat (d, d + zlen (exp_out x)) (S w)).
    now rewrite last_repeat.
  - rewrite expand_app_repeat; [|exact Hw|].
    + rewrite IH by discriminate. cbn [fst]. rewrite (exp_text_cons x), zlen_app. f_equal. f_equal. lia.
    + pose proof (zlen_exp_ao (y :: xs) (d + zlen (exp_out x))) as L. intros E. rewrite E in L. cbn [map] in L. rewrite bytes_cons in L.
      pose proof (zlen_rune (fst y)). pose proof (bytes_nonneg (map fst xs)). unfold zlen in L at 1. cbn [length] in L. lia.
Qed.

(** Transform replaces everything from [d] on if the characters of the original are
    aligned with that part. *)
Lemma whole_text n d items initial n' : wf n -> valid_items items -> ns_orig n <> [] ->
  expand (ns_ao_values n) = Some (d, zlen (ns_norm n)) ->
  transform n items initial = Ok n' ->
  0 <= d <= zlen (ns_norm n) /\ ns_norm n' = firstn (Z.to_nat d) (ns_norm n) ++ items_text items /\ ns_orig n' = ns_orig n.
Proof.
  intros W Vi Ho X E. unfold transform in E.
  assert (L : zlen (ns_ao_values n) = zlen (ns_orig n)).
  { unfold ns_ao_values, zlen. rewrite map_length. f_equal. apply W. }
  apply transform_range_original_text in E; auto. destruct E as (nr & C & B & T & O & _).
  pose proof (target_full n L Ho) as Tf. unfold target in Tf. cbn [r_on] in Tf. rewrite C, X in Tf.
  injection Tf as ->. cbn [r_start r_end] in *. rewrite Z.min_id in *. split; [exact B|]. split; [|exact O].
  rewrite T. unfold zlen. rewrite Nat2Z.id, skipn_all, app_nil_r. reflexivity.
Qed.
Lemma whole_ok n items : wf n -> ordered (ns_al n) -> ns_orig n <> [] ->
  expand (ns_ao_values n) = Some (0, zlen (ns_norm n)) ->
  valid_utf8 (ns_norm n) -> Forall (fun c => c <> 0%N) (runes (ns_norm n)) -> consumed items <= zlen (runes (ns_norm n)) ->
  exists n', transform n items 0 = Ok n'.
Proof.
  intros W Or Ho X V NZ K.
  assert (L : zlen (ns_ao_values n) = zlen (ns_orig n)).
  { unfold ns_ao_values, zlen. rewrite map_length. f_equal. apply W. }
  pose proof (target_full n L Ho) as Tf. rewrite X in Tf.
  pose proof (zlen_nonneg (ns_norm n)).
  apply (transform_range_ok n _ items _ W Or Tf); cbn [r_start r_end]; rewrite Z.min_id, ?part_all; auto; lia.
Qed.

(** ** Chinese characters *)

(** An optional space in front of an expansion of the whole text. *)
Lemma lead_exact (lead : bool) xs n :
  Forall (fun x => scalar (fst x)) xs -> Forall exp_ok xs -> xs <> [] -> fresh_as (map fst xs) n ->
  exists n', transform n ((if lead then [([32%N], 1)] else []) ++ flat_map exp_items xs) 0 = Ok n' /\
    ns_orig n' = encode (map fst xs) /\
    ns_norm n' = (if lead then [32%N] else []) ++ exp_text xs /\
    ns_al n' = (if lead then [(0, 0)] else []) ++ exp_al xs 0 /\
    ns_ao_values n' = exp_ao xs (if lead then 1 else 0).
Proof.
  intros Sx Hok Hne (Fo & Fn & Fal & Fv & Fa). set (rs := map fst xs) in *.
  assert (Sc : Forall scalar rs) by now apply Forall_map.
  assert (Hb : 0 < bytes rs).
  { subst rs. destruct xs as [|x xs]; [congruence|]. cbn [map]. rewrite bytes_cons. pose proof (zlen_rune (fst x)). pose proof (bytes_nonneg (map fst xs)). lia. }
  assert (Ho : ns_orig n <> []) by (rewrite Fo; intros X; unfold bytes in Hb; rewrite X in Hb; cbn in Hb; lia).
  assert (La : zlen (ns_al n) = bytes rs) by (rewrite Fal; apply zlen_aligns).
  unfold transform, transform_range. fold (target n (Rng 0 (zlen (ns_orig n)) OnOriginal)).
  rewrite (target_full n); [|rewrite Fv, Fo, zlen_aligns; reflexivity|exact Ho].
  assert (Ex : expand (ns_ao_values n) = Some (0, bytes rs)).
  { rewrite Fv, <- exp_ao_same, exp_ao_expand.
    - rewrite exp_text_same. reflexivity.
    - intros X. apply (f_equal (map fst)) in X. rewrite map_fst_same in X. cbn in X. rewrite X in Hb. cbn in Hb. unfold bytes in Hb. cbn in Hb. lia. }
  rewrite Ex. cbn [bind r_start r_end]. cbn zeta. rewrite La, Z.ltb_irrefl, Fn.
  assert (Le : zlen (encode rs) = bytes rs) by reflexivity.
  rewrite zslice_eq by lia. cbn [bind]. rewrite <- Le, part_all, runes_encode by exact Sc.
  replace (zlen rs <? 0) with false by (pose proof (zlen_nonneg rs); lia).
  cbn [Z.to_nat firstn clear_chars bind fold_right]. rewrite foldR_app_list.
  set (st0 := TS (ns_ao n) (ns_cells n) rs (0 + 0) (- 0) [] []).
  match goal with |- context [foldR _ ?li st0] => set (front := li) end.
  assert (St : exists st1, foldR (t_item (ns_al n)) front st0 = Ok st1 /\
     t_ao st1 = ns_ao n /\ t_cells st1 = ns_cells n /\ t_runes st1 = rs /\ t_off st1 = 0 /\
     t_shift st1 = (if lead then 1 else 0) /\ t_al st1 = (if lead then [(0, 0)] else []) /\ t_text st1 = (if lead then [32%N] else [])).
  { subst st0 front. destruct lead.
    - cbn [foldR]. unfold t_item. cbn [t_off]. change (0 <? 1) with true. change (0 + 0 <? 1) with true. cbn iota. cbn [bind].
      change (1 <=? 0) with false. cbn iota. cbn [t_runes Z.to_nat Z.opp take_removed].
      change ((0 <? 0) && _) with false. cbn iota. cbn [bind fst snd t_ao t_cells].
      rewrite (zslice_eq (ns_ao n)) by (pose proof (zlen_nonneg (ns_ao n)); lia). cbn [bind].
      replace (part 0 0 (ns_ao n)) with (@nil nat) by reflexivity. cbn [map expand]. change (0 <? 0) with false. cbn iota. cbn [bind].
      eexists. split; [reflexivity|]. cbn. repeat split; reflexivity.
    - eexists. split; [reflexivity|]. repeat split; reflexivity. }
  destruct St as (st1 & E1 & Sao & Sc1 & Sr & So & Ss & Sal & Stx). rewrite E1. cbn [bind].
  destruct (exp_loop_from (if lead then 1 else 0) (ns_al n) [] xs ltac:(destruct lead; lia) [] st1)
    as (st & E & V1 & A1 & T1 & S1 & F1); auto.
  - cbn [app]. rewrite app_nil_r. exact Fal.
  - rewrite Ss. cbn. destruct lead; reflexivity.
  - rewrite Sao, Sc1. exact Fa.
  - cbn [exp_ao app map]. unfold vals. rewrite Sao, Sc1, app_nil_r. exact Fv.
  - rewrite E. cbn [bind]. pose proof (end_shift_full (ns_al n) (t_shift st) (t_ao st) (t_cells st)) as X.
    rewrite La in X. rewrite Le, X. cbn [bind app]. eexists. split; [reflexivity|]. cbn [ns_orig ns_norm ns_al firstn Z.to_nat app].
    split; [exact Fo|]. cbn [app aligns_from map] in *. change (bytes []) with 0 in *.
    assert (Ln : Z.to_nat (bytes rs) = length (encode rs)) by (unfold bytes, zlen; now rewrite Nat2Z.id).
    assert (Lal : length (ns_al n) = length (encode rs)) by (unfold zlen, bytes in *; unfold zlen in *; lia).
    split; [rewrite T1, Stx, Ln, skipn_all, app_nil_r; reflexivity|].
    split; [rewrite A1, Sal, Ln, <- Lal, skipn_all, app_nil_r; reflexivity|].
    unfold ns_ao_values. cbn [ns_ao ns_cells]. fold (vals st). rewrite V1, app_nil_r. reflexivity.
Qed.

Definition spaced_by (f : N -> bool) (rs : list N) : list N := flat_map (fun c => if f c then [32%N; c; 32%N] else [c]) rs.
Definition space_if (b : bool) : list str := if b then [[32%N]] else [].
(** Each character with the space behind it and the space in front of the next one. *)
Fixpoint sp_xs (rs : list N) : list expansion :=
  match rs with
  | [] => []
  | c :: rs' => (c, (encode_rune c, space_if (is_chinese c) ++ space_if (next_is is_chinese rs'))) :: sp_xs rs'
  end.
Lemma sp_xs_fst rs : map fst (sp_xs rs) = rs.
Proof. induction rs as [|c rs IH]; [reflexivity|]. cbn [sp_xs map fst]. now rewrite IH. Qed.
Lemma chinese_items_xs rs : chinese_items rs =
  (if next_is is_chinese rs then [([32%N], 1)] else []) ++ flat_map exp_items (sp_xs rs).
Proof.
  unfold chinese_items. induction rs as [|c rs IH]; [reflexivity|].
  cbn [flat_map sp_xs next_is]. rewrite IH. unfold exp_items at 2. cbn [fst snd].
  destruct (is_chinese c), (next_is is_chinese rs); reflexivity.
Qed.
Lemma sp_xs_text rs : (if next_is is_chinese rs then [32%N] else []) ++ exp_text (sp_xs rs) = encode (spaced_by is_chinese rs).
Proof.
  induction rs as [|c rs IH]; [reflexivity|]. cbn [sp_xs next_is spaced_by flat_map]. fold (spaced_by is_chinese rs).
  rewrite exp_text_cons, encode_app, <- IH. unfold exp_out. cbn [fst snd].
  destruct (is_chinese c), (next_is is_chinese rs); cbn [space_if app concat]; rewrite ?encode_cons; cbn [encode map concat app];
    rewrite <- ?app_assoc; reflexivity.
Qed.
Lemma sp_xs_ok rs : Forall (fun c => c <> 0%N) rs -> Forall exp_ok (sp_xs rs).
Proof.
  induction 1 as [|c rs H F IH]; [constructor|]. cbn [sp_xs]. constructor; [|exact IH]. unfold exp_ok. cbn [fst snd].
  split; [exact H|]. split; [apply valid_encode_rune|]. assert (V : valid_utf8 [32%N]) by apply (valid_encode_rune 32).
  destruct (is_chinese c), (next_is is_chinese rs); cbn; repeat constructor; exact V.
Qed.

Lemma chinese_fresh rs n : rs <> [] -> Forall scalar rs -> Forall (fun c => c <> 0%N) rs -> fresh_as rs n ->
  let lead := next_is is_chinese rs in
  exists n', handle_chinese n = Ok n' /\ ns_orig n' = encode rs /\ ns_norm n' = encode (spaced_by is_chinese rs) /\
    ns_al n' = (if lead then [(0, 0)] else []) ++ exp_al (sp_xs rs) 0 /\
    ns_ao_values n' = exp_ao (sp_xs rs) (if lead then 1 else 0).
Proof.
  intros Hne Sc NZ Fr lead. unfold handle_chinese. assert (Rn : runes (ns_norm n) = rs).
  { destruct Fr as (_ & -> & _). now apply runes_encode. }
  rewrite Rn, chinese_items_xs. fold lead.
  destruct (lead_exact lead (sp_xs rs) n) as (n' & E & O & T & A & V).
  - pose proof (Forall_map fst scalar (sp_xs rs)) as X. rewrite sp_xs_fst in X. now apply X.
  - now apply sp_xs_ok.
  - destruct rs; [congruence|discriminate].
  - now rewrite sp_xs_fst.
  - exists n'. rewrite sp_xs_fst in O. rewrite <- sp_xs_text. fold lead. auto.
Qed.
Lemma spaced_by_eq rs : Forall (fun c => extension_a c = false) rs -> spaced_by is_chinese rs = spaced rs.
Proof.
  intros F. unfold spaced_by, spaced. induction F as [|c rs H F IH]; [reflexivity|]. cbn [flat_map].
  rewrite is_chinese_eq, H, IH, Bool.andb_true_r. reflexivity.
Qed.
Lemma spaced_by_none f rs : Forall (fun c => f c = false) rs -> spaced_by f rs = rs.
Proof. intros F. unfold spaced_by. induction F as [|c rs H F IH]; [reflexivity|]. cbn [flat_map]. now rewrite H, IH. Qed.

Lemma chinese_new rs : Forall scalar rs -> Forall (fun c => c <> 0%N) rs ->
  exists n', handle_chinese (new_ns (encode rs)) = Ok n' /\ ns_orig n' = encode rs /\
    ns_norm n' = encode (spaced_by is_chinese rs).
Proof.
  intros Sc NZ. destruct rs as [|c rs]; [eexists; split; [reflexivity|split; reflexivity]|].
  destruct (chinese_fresh (c :: rs) (new_ns (encode (c :: rs)))) as (n' & E & O & T & _); auto; [discriminate|now apply new_fresh|].
  eauto.
Qed.

(** ** Cleaning a text with nothing to drop *)
Lemma clean_none cc rs : Forall (fun c => dropped cc c = false) rs -> clean_items cc rs = (flat_map exp_items (same rs), 0).
Proof.
  intros F. unfold clean_items. induction F as [|c rs H F IH]; [reflexivity|]. cbn [fold_right same map flat_map]. fold (same rs). rewrite IH.
  cbn [clean_step]. rewrite dropped_eq, H. reflexivity.
Qed.
Lemma dropped_nonzero cc rs : Forall (fun c => dropped cc c = false) rs -> Forall (fun c => c <> 0%N) rs.
Proof. apply Forall_impl. intros c H ->. discriminate H. Qed.
Lemma same_ok rs : Forall (fun c => c <> 0%N) rs -> Forall exp_ok (same rs).
Proof.
  intros F. apply Forall_map. eapply Forall_impl; [|exact F]. intros c H. cbv beta. unfold exp_ok. cbn [fst snd].
  split; [exact H|]. split; [apply valid_encode_rune|constructor].
Qed.
Lemma valid_exp_items xs : Forall exp_ok xs -> valid_items (flat_map exp_items xs).
Proof.
  induction 1 as [|x xs (_ & H1 & H2) F IH]; [constructor|]. cbn [flat_map]. apply Forall_app. split; [|exact IH].
  unfold exp_items. constructor; [exact H1|]. now apply Forall_map.
Qed.
Lemma clean_keeps cc rs : Forall scalar rs -> Forall (fun c => dropped cc c = false) rs ->
  exists n', clean_text cc (new_ns (encode rs)) = Ok n' /\ fresh_as rs n'.
Proof.
  intros Sc D. pose proof (dropped_nonzero cc rs D) as NZ. pose proof (same_ok rs NZ) as Hok.
  assert (V : valid_utf8 (encode rs)) by (exists rs; auto).
  unfold clean_text. cbn [new_ns ns_norm]. fold (new_ns (encode rs)). rewrite runes_encode, clean_none by assumption.
  destruct (expansion_exact (same rs)) as (n' & E & O & T & A & Va); [now apply Forall_map| exact Hok|].
  rewrite map_fst_same in *. exists n'. split; [exact E|]. rewrite exp_text_same in T. rewrite exp_al_same in A. rewrite exp_ao_same in Va.
  split; [exact O|]. split; [exact T|]. split; [exact A|]. split; [exact Va|].
  eapply transform_range_wf in E; [apply E|now apply new_ns_wf|now apply valid_exp_items].
Qed.

(** ** All steps *)
Lemma fresh_wf rs n : Forall scalar rs -> fresh_as rs n -> wf n /\ ordered (ns_al n).
Proof.
  intros Sc (O & T & A & Va & F). split; [|rewrite A; apply aligns_from_ordered].
  pose proof (new_ns_wf (encode rs) (ex_intro _ rs (conj Sc eq_refl))) as (W1 & W2 & W3 & _).
  cbn [new_ns ns_al ns_norm ns_orig ns_ao] in W1, W2, W3. unfold create_aligns in *. rewrite runes_encode in * by assumption.
  unfold wf. rewrite O, T, A. repeat split; auto.
  apply (f_equal (@length _)) in Va. unfold ns_ao_values in Va. rewrite map_length in Va. rewrite Va, W1. reflexivity.
Qed.

Lemma first_kept f rs : next_is f rs = true -> snd (filter_items f rs) = 0.
Proof.
  destruct rs as [|c rs]; [discriminate|]. cbn [next_is]. intros H. unfold filter_items. cbn [fold_right].
  destruct (fold_right (filter_step f) ([], 0) rs). cbn [filter_step]. now rewrite H.
Qed.

(** The state before accents are removed. *)
Lemma bert_before cc mn lower b rs : rs <> [] -> Forall scalar rs -> Forall (fun c => dropped cc c = false) rs ->
  exists n2, bert_normalize cc mn lower b (new_ns (encode rs)) =
      (let n3 := if bn_lower b then case_map lower n2 else n2 in if bn_accents b then remove_accents mn n3 else Ok n3) /\
    wf n2 /\ ordered (ns_al n2) /\ ns_orig n2 = encode rs /\
    ns_norm n2 = encode (if bn_chinese b then spaced_by is_chinese rs else rs) /\
    expand (ns_ao_values n2) = Some (if bn_chinese b && next_is is_chinese rs then 1 else 0, zlen (ns_norm n2)).
Proof.
  intros Hne Sc D. pose proof (dropped_nonzero cc rs D) as NZ.
  assert (S1 : exists n1, (if bn_clean b then clean_text cc (new_ns (encode rs)) else Ok (new_ns (encode rs))) = Ok n1 /\ fresh_as rs n1).
  { destruct (bn_clean b); [now apply clean_keeps|]. eexists. split; [reflexivity|now apply new_fresh]. }
  destruct S1 as (n1 & E1 & F1). unfold bert_normalize. rewrite E1. cbn [bind].
  destruct (fresh_wf rs n1 Sc F1) as (W1 & O1). destruct (bn_chinese b).
  - destruct (chinese_fresh rs n1 Hne Sc NZ F1) as (n2 & E2 & Or & T & A & Va). rewrite E2. cbn [bind]. exists n2.
    split; [reflexivity|]. split.
    { eapply transform_range_wf in E2; [exact E2|exact W1|]. rewrite chinese_items_xs. apply Forall_app. split.
      - destruct (next_is is_chinese (runes (ns_norm n1))); repeat constructor. apply (valid_encode_rune 32).
      - apply valid_exp_items, sp_xs_ok. destruct F1 as (_ & -> & _). now rewrite runes_encode. }
    split. { rewrite A. apply ordered_app; [destruct (next_is is_chinese rs); [apply (ordered_repeat (0, 0) 1)|apply ordered_nil]|apply exp_al_ordered|].
      intros v w Hv Hw. destruct (next_is is_chinese rs); [|destruct Hv]. destruct Hv as [<-|[]].
      pose proof (exp_al_bounds (sp_xs rs) 0) as B. rewrite Forall_forall in B. specialize (B w Hw). unfold ple. cbn [fst snd]. lia. }
    split; [exact Or|]. split; [exact T|]. rewrite Va, exp_ao_expand by (destruct rs; [congruence|discriminate]).
    rewrite T, <- sp_xs_text, zlen_app. cbn [andb]. destruct (next_is is_chinese rs); reflexivity.
  - exists n1. split; [reflexivity|]. split; [exact W1|]. split; [exact O1|]. destruct F1 as (Or & T & A & Va & _).
    split; [exact Or|]. split; [exact T|]. rewrite Va, <- exp_ao_same, exp_ao_expand by (destruct rs; [congruence|discriminate]).
    rewrite exp_text_same, T. reflexivity.
Qed.

Lemma bert_all cc mn lower b rs :
  rs <> [] -> Forall scalar rs -> Forall (fun c => dropped cc c = false) rs -> Forall (fun c => extension_a c = false) rs ->
  (bn_chinese b = true -> next_is chinese rs = false) ->
  let t := encode (if bn_chinese b then spaced rs else rs) in
  let t2 := if bn_lower b then lower t else t in
  length t2 = length t -> PipelineSpec.clean t2 ->
  (bn_accents b = true -> next_is mn (runes t2) = false) ->
  exists n', bert_normalize cc mn lower b (new_ns (encode rs)) = Ok n' /\ ns_orig n' = encode rs /\
    ns_norm n' = bert_text (bn_chinese b) (bn_lower b) (bn_accents b) mn lower rs.
Proof.
  intros Hne Sc D Xa Hc t t2 Hl C Hm.
  destruct (bert_before cc mn lower b rs Hne Sc D) as (n2 & E & W & Or & Og & T & Ex). rewrite E. clear E.
  assert (Ch : bn_chinese b && next_is is_chinese rs = false).
  { destruct (bn_chinese b); [|reflexivity]. specialize (Hc eq_refl). destruct rs as [|c rs']; [reflexivity|]. cbn [next_is andb] in *.
    rewrite is_chinese_eq, Hc. reflexivity. }
  rewrite Ch in Ex. rewrite spaced_by_eq in T by exact Xa. fold t in T. cbn zeta.
  set (n3 := if bn_lower b then case_map lower n2 else n2).
  assert (T3 : ns_norm n3 = t2) by (subst n3 t2; destruct (bn_lower b); cbn [case_map ns_norm]; congruence).
  assert (N3 : ns_orig n3 = encode rs /\ wf n3 /\ ordered (ns_al n3) /\ expand (ns_ao_values n3) = Some (0, zlen (ns_norm n3))).
  { rewrite T3. rewrite T in Ex. unfold zlen in *. rewrite Hl. subst n3. destruct (bn_lower b) eqn:El.
    - split; [exact Og|]. split; [|split; [exact Or|exact Ex]]. apply case_map_wf; [exact W|]. rewrite T. subst t2. exact Hl.
    - auto. }
  destruct N3 as (Og3 & W3 & Or3 & Ex3).
  unfold bert_text. fold t. fold t2. destruct (bn_accents b) eqn:Ea; [|exists n3; auto].
  specialize (Hm eq_refl). unfold remove_accents, ns_filter. set (f := fun r => negb (mn r)).
  destruct (PlacedProofs.clean_valid_runes _ C) as (rs2 & Sc2 & NZ2 & Et & Er).
  rewrite T3, Er. assert (Hne2 : ns_orig n3 <> []).
  { rewrite Og3. destruct rs as [|c rs']; [congruence|]. rewrite encode_cons. intros X. apply app_eq_nil in X. destruct X as [X _].
    pose proof (zlen_rune c) as Z1. rewrite X in Z1. cbn in Z1. lia. }
  pose proof (filter_items_text f rs2) as Ft. pose proof (valid_filter_items f rs2) as Fv. pose proof (filter_consumed f rs2) as Fc.
  assert (Fk : snd (filter_items f rs2) = 0).
  { destruct rs2 as [|c rs2']; [reflexivity|]. apply first_kept. rewrite Er in Hm. cbn [next_is] in *. subst f. cbn beta. now rewrite Hm. }
  destruct (filter_items f rs2) as [items removed]. cbn [fst snd] in *. subst removed.
  destruct (whole_ok n3 items W3 Or3 Hne2 Ex3) as (n' & E').
  - rewrite T3, Et. exists rs2. auto.
  - now rewrite T3, Er.
  - rewrite T3, Er. lia.
  - exists n'. split; [exact E'|]. destruct (whole_text n3 0 items 0 n' W3 Fv Hne2 Ex3 E') as (_ & X & Y).
    rewrite Y, Og3. split; [reflexivity|]. rewrite X, Ft. reflexivity.
Qed.

Lemma bert_lead_doubled cc mn clean rs n' :
  Forall scalar rs -> Forall (fun c => dropped cc c = false) rs -> Forall (fun c => extension_a c = false) rs ->
  next_is chinese rs = true ->
  bert_normalize cc mn (fun s => s) (BN clean true true false) (new_ns (encode rs)) = Ok n' ->
  ns_norm n' = encode (32%N :: filter (fun c => negb (mn c)) (spaced rs)).
Proof.
  intros Sc D Xa Hc E. assert (Hne : rs <> []) by (destruct rs; [discriminate Hc|discriminate]).
  destruct (bert_before cc mn (fun s => s) (BN clean true true false) rs Hne Sc D) as (n2 & E2 & W & Or & Og & T & Ex).
  rewrite E2 in E. clear E2. cbn [bn_chinese bn_lower bn_accents andb] in *. cbn zeta in E. rewrite spaced_by_eq in T by exact Xa.
  assert (Ch : next_is is_chinese rs = true).
  { destruct rs as [|c rs']; [discriminate|]. cbn [next_is] in *. rewrite is_chinese_eq, Hc. inversion Xa as [|x l X1 X2]. now rewrite X1. }
  rewrite Ch in Ex. unfold remove_accents, ns_filter in E. set (f := fun r => negb (mn r)) in *.
  assert (Rs : runes (ns_norm n2) = spaced rs).
  { rewrite T. apply runes_encode. unfold spaced. clear -Sc. induction Sc as [|c rs H F IH]; [constructor|]. cbn [flat_map].
    apply Forall_app. split; [|exact IH]. assert (S32 : scalar 32) by (unfold scalar; lia).
    destruct (chinese c); [apply Forall_cons; [exact S32|apply Forall_cons; [exact H|apply Forall_cons; [exact S32|apply Forall_nil]]]|apply Forall_cons; [exact H|apply Forall_nil]]. }
  rewrite Rs in E. pose proof (filter_items_text f (spaced rs)) as Ft. pose proof (valid_filter_items f (spaced rs)) as Fv.
  destruct (filter_items f (spaced rs)) as [items removed]. cbn [fst] in *.
  assert (Hne2 : ns_orig n2 <> []).
  { rewrite Og. destruct rs as [|c rs']; [congruence|]. rewrite encode_cons. intros X. apply app_eq_nil in X. destruct X as [X _].
    pose proof (zlen_rune c) as Z1. rewrite X in Z1. cbn in Z1. lia. }
  destruct (whole_text n2 1 items removed n' W Fv Hne2 Ex E) as (_ & X & _). rewrite X, Ft, encode_cons. f_equal.
  rewrite T. destruct rs as [|c rs']; [discriminate|]. cbn [spaced flat_map]. cbn [next_is] in Hc. rewrite Hc. cbn [app]. rewrite encode_cons. reflexivity.
Qed.

(** Accents that are part of a character stay. *)
Lemma accents_stay mn rs : Forall scalar rs -> Forall (fun c => c <> 0%N) rs -> Forall (fun c => mn c = false) rs ->
  exists n', remove_accents mn (new_ns (encode rs)) = Ok n' /\ ns_norm n' = encode rs.
Proof.
  intros Sc NZ M.
  destruct rs as [|c0 rs0] eqn:Ers; [eexists; split; [reflexivity|reflexivity]|]. rewrite <- Ers in *.
  assert (Fi : filter_items (fun r => negb (mn r)) rs = (flat_map exp_items (same rs), 0)).
  { clear -M. unfold filter_items. induction M as [|c rs H F IH]; [reflexivity|]. cbn [fold_right same map flat_map]. fold (same rs). rewrite IH.
    cbn [filter_step]. rewrite H. reflexivity. }
  unfold remove_accents, ns_filter. cbn [new_ns ns_norm]. fold (new_ns (encode rs)). rewrite runes_encode, Fi by assumption.
  destruct (expansion_exact (same rs)) as (n' & E & O & T & _); [now apply Forall_map|now apply same_ok|].
  rewrite map_fst_same, exp_text_same in *. eauto.
Qed.

(** ** The default normalizer *)
Lemma default_text sp (lower : str -> str) (lc st : bool) s n' : valid_utf8 s -> s <> [] ->
  let t := if lc then lower s else s in
  valid_utf8 t -> length t = length s ->
  default_normalize sp lower lc st (new_ns s) = Ok n' ->
  ns_norm n' = (if st then encode (stripped sp true true (runes t)) else t).
Proof.
  intros V Hne t Vt Hl E. unfold default_normalize in E.
  set (n1 := if lc then case_map lower (new_ns s) else new_ns s) in *.
  assert (T1 : ns_norm n1 = t) by (subst n1 t; destruct lc; reflexivity).
  destruct st; [|injection E as <-; exact T1].
  assert (W : wf n1). { subst n1. destruct lc; [|now apply new_ns_wf]. apply case_map_wf; [now apply new_ns_wf|exact Hl]. }
  assert (Og : ns_orig n1 = s) by (subst n1; destruct lc; reflexivity).
  assert (Ex : expand (ns_ao_values n1) = Some (0, zlen (ns_norm n1))).
  { rewrite T1. assert (Ea : ns_ao_values n1 = ns_ao_values (new_ns s)) by (subst n1; destruct lc; reflexivity).
    rewrite Ea, new_ns_values. unfold create_aligns. rewrite <- exp_ao_same, exp_ao_expand.
    - rewrite exp_text_same, valid_utf8_runes by exact V. unfold zlen. now rewrite Hl.
    - intros X. apply (f_equal (map fst)) in X. rewrite map_fst_same in X. apply Hne. rewrite <- (valid_utf8_runes s V). rewrite X. reflexivity. }
  unfold lrstrip in E. rewrite T1 in E. rewrite <- stripped_spec. cbn zeta. cbn iota in *.
  set (lead := count_while sp (runes t)) in *. set (trail := count_while sp (rev (runes t))) in *.
  destruct ((0 <? lead) || (0 <? trail))%nat eqn:E0.
  - apply (whole_text n1 0) in E; auto; [|apply valid_strip_items|now rewrite Og].
    destruct E as (_ & -> & _). cbn [Z.to_nat firstn app]. apply strip_items_text.
  - injection E as <-. rewrite T1. replace lead with 0%nat by lia. replace trail with 0%nat by lia.
    cbn [skipn]. rewrite !Nat.sub_0_r, firstn_all. symmetry. now apply valid_utf8_runes.
Qed.
