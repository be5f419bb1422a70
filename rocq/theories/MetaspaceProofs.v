(** Proofs about the metaspace pre-tokenizer and decoder. *)
From Verif Require Import Base BaseProofs Utf8Model Utf8Proofs SliceModel SliceProofs PatternModel PatternSpec PatternProofs NormalizedModel NormalizedSpec
  NormalizedProofs NormalizedInvProofs NormalizedExactProofs NormalizedOpProofs BpeModel BpeSaveModel PreTokenizedModel PreTokenizedSpec PreTokenizedProofs
  DecoderModel DecoderSpec DecoderProofs PreTokenizerModel PreTokenizerSpec ChunkProofs PreTokenizerProofs ExpandedProofs MetaspaceSpec.
Open Scope Z_scope.
Notation t_off := NormalizedModel.t_off.

(** ** One character of one byte replaced *)
Lemma exp_ao_bounds xs : forall p, Forall (fun v => p <= fst v /\ fst v <= snd v /\ snd v <= p + zlen (exp_text xs)) (exp_ao xs p).
Proof.
  induction xs as [|x xs IH]; intros p; [constructor|]. cbn [exp_ao]. rewrite exp_text_cons, zlen_app.
  pose proof (zlen_nonneg (exp_out x)). pose proof (zlen_nonneg (exp_text xs)). apply Forall_app. split.
  - apply Forall_forall. intros v Hv. apply repeat_spec in Hv. subst v. cbn [fst snd]. lia.
  - eapply Forall_impl; [|apply IH]. cbn beta. intros v. lia.
Qed.

Lemma nth_mid {A} (l1 : list A) x l2 j : nth_error (l1 ++ x :: l2) j = Some x -> (forall y, In y l1 -> y <> x) -> (forall y, In y l2 -> y <> x) -> j = length l1.
Proof.
  intros E H1 H2. destruct (Nat.lt_trichotomy j (length l1)) as [H|[H|H]]; [|exact H|].
  - rewrite nth_error_app1 in E by assumption. apply nth_error_In in E. now apply H1 in E.
  - rewrite nth_error_app2 in E by lia. destruct (j - length l1)%nat as [|k] eqn:Ek; [lia|]. cbn in E. apply nth_error_In in E. now apply H2 in E.
Qed.

Lemma app_inj_len {A} (a b c d : list A) : a ++ b = c ++ d -> length a = length c -> a = c /\ b = d.
Proof.
  revert c. induction a as [|x a IH]; intros [|y c] E L; try discriminate L; [auto|]. cbn in E. injection E as -> E. destruct (IH c E) as [-> ->]; [cbn in L; lia|auto].
Qed.
(** The address of a value that occurs only once. *)
Lemma lone_address cells (ao : list nat) (l1 : list (Z * Z)) v l2 : map (cell cells) ao = l1 ++ v :: l2 ->
  (forall y, In y l1 -> y <> v) -> (forall y, In y l2 -> y <> v) ->
  exists o1 a o2, ao = o1 ++ a :: o2 /\ length o1 = length l1 /\ map (cell cells) o1 = l1 /\ cell cells a = v /\ map (cell cells) o2 = l2 /\
    ~ In a o1 /\ ~ In a o2.
Proof.
  intros E H1 H2. exists (firstn (length l1) ao). 
  assert (Lo : (length l1 < length ao)%nat) by (apply (f_equal (@length _)) in E; rewrite map_length, app_length in E; cbn in E; lia).
  destruct (skipn (length l1) ao) as [|a o2] eqn:Es.
  { apply (f_equal (@length _)) in Es. rewrite skipn_length in Es. cbn in Es. lia. }
  exists a, o2. assert (Ea : ao = firstn (length l1) ao ++ a :: o2) by (rewrite <- Es; now rewrite firstn_skipn).
  split; [exact Ea|]. assert (L1 : length (firstn (length l1) ao) = length l1) by (rewrite firstn_length; lia). split; [exact L1|].
  pose proof E as E'. rewrite Ea, map_app in E'. cbn [map] in E'. apply app_inj_len in E'; [|rewrite map_length; exact L1]. destruct E' as [A B]. injection B as B1 B2.
  split; [exact A|]. split; [exact B1|]. split; [exact B2|]. split.
  - intros X. apply (in_map (cell cells)) in X. rewrite A, B1 in X. now apply H1 in X.
  - intros X. apply (in_map (cell cells)) in X. rewrite B1, B2 in X. now apply H2 in X.
Qed.

(** Characters inserted behind it: all are charged to it. *)
Lemma insert_items al B cs : forall st l1 x y l2,
  1 <= t_off st -> zindex al (t_off st - 1) = Ok (B, B + 1) -> vals st = l1 ++ (x, y) :: l2 -> zlen l1 = B ->
  Forall (fun a => (a < length (t_cells st))%nat) (t_ao st) ->
  exists st', foldR (t_item al) (map (fun c => (encode_rune c, 1)) cs) st = Ok st' /\
    t_shift st' = t_shift st + bytes cs /\ vals st' = l1 ++ (x, y + bytes cs) :: l2 /\
    Forall (fun a => (a < length (t_cells st'))%nat) (t_ao st') /\
    t_al st' = t_al st ++ repeat (B, B + 1) (length (encode cs)).
Proof.
  induction cs as [|c cs IH]; intros st l1 x y l2 Off Ez Ev EB F.
  - exists st. cbn [map foldR]. change (bytes []) with 0. rewrite !Z.add_0_r. cbn. rewrite app_nil_r. auto.
  - cbn [map foldR]. set (w := zlen (encode_rune c)).
    assert (L : zlen (t_ao st) = B + 1 + zlen l2).
    { transitivity (zlen (vals st)); [unfold vals, zlen; now rewrite map_length|]. rewrite Ev, zlen_app, EB. unfold zlen. cbn [length]. lia. }
    assert (B0 : 0 <= B) by (subst B; apply zlen_nonneg). pose proof (zlen_nonneg l2) as L2.
    assert (V1 : map (cell (t_cells st)) (part B (B + 1) (t_ao st)) = [(x, y)]).
    { rewrite map_part. fold (vals st). rewrite Ev. change ((x, y) :: l2) with ([(x, y)] ++ l2). apply part_mid; [now symmetry|]. unfold zlen. cbn. lia. }
    assert (E1 : exists st1, t_item al st (encode_rune c, 1) = Ok st1 /\ t_off st1 = t_off st /\ t_shift st1 = t_shift st + w /\
      vals st1 = l1 ++ (x, y + w) :: l2 /\ Forall (fun a => (a < length (t_cells st1))%nat) (t_ao st1) /\ t_al st1 = t_al st ++ repeat (B, B + 1) (length (encode_rune c))).
    { unfold t_item. change (0 <? 1) with true. cbn iota. replace (t_off st <? 1) with false by lia. rewrite Ez. cbn [bind].
      change (1 <=? 0) with false. cbn iota beta. change (Z.to_nat (- (1))) with 0%nat. cbn [take_removed N.eqb]. change (0 <? 0) with false. cbn [andb bind fst snd].
      rewrite zslice_eq by lia. cbn [bind]. rewrite V1. cbn [expand last fst snd].
      destruct (realloc (t_ao st) (t_cells st) B (B + 1) _) as [ao1 cells1] eqn:Er. pose proof (realloc_values _ _ _ _ _ _ _ Er F) as Rv.
      cbn [map] in Rv. unfold new_pair in Rv. change (0 <? 1) with true in Rv. cbn [fst snd] in Rv. cbn [bind].
      eexists. split; [reflexivity|]. cbn [t_off t_shift t_al]. split; [lia|]. split; [unfold w; lia|]. split; [|split; [|reflexivity]].
      - unfold vals. cbn [t_cells t_ao]. rewrite Rv. fold (vals st). rewrite Ev. rewrite firstn_app_z by exact EB. cbn [app].
        do 2 f_equal. change ((x, y) :: l2) with ([(x, y)] ++ l2). apply skipn_app_z. unfold zlen at 2. cbn [length]. lia.
      - cbn [t_cells t_ao]. unfold realloc in Er. injection Er as <- <-. rewrite app_length. cbn [length map]. apply Forall_app. split; [|constructor].
        + apply Forall_firstn. eapply Forall_impl; [|exact F]. cbn. intros; lia.
        + lia.
        + apply Forall_skipn. eapply Forall_impl; [|exact F]. cbn. intros; lia. }
    destruct E1 as (st1 & E1 & O1 & S1 & V2 & F1 & A1). rewrite E1. cbn [bind].
    destruct (IH st1 l1 x (y + w) l2) as (st' & E' & S' & V' & F' & A').
    { lia. }
    { now rewrite O1. }
    { exact V2. }
    { exact EB. }
    { exact F1. }
    exists st'. split; [exact E'|]. rewrite bytes_cons. fold w. split; [lia|]. split; [rewrite V'; do 3 f_equal; lia|]. split; [exact F'|].
    rewrite A', A1, encode_cons, app_length, repeat_app, app_assoc. reflexivity.
Qed.

Lemma part_one {A} (l1 : list A) x l2 p : zlen l1 = p -> part p (p + 1) (l1 ++ x :: l2) = [x].
Proof. intros H. change (x :: l2) with ([x] ++ l2). apply part_mid; [exact H|]. unfold zlen. cbn. lia. Qed.

Lemma exp_ao_shift_by xs p d : 0 <= p + d -> 0 <= p ->
  map (fun v => (apply_sign (fst v) d, apply_sign (snd v) d)) (exp_ao xs p) = exp_ao xs (p + d).
Proof.
  intros H H0. replace (p + d) with (p - (- d)) by lia. rewrite <- exp_ao_shift. apply map_ext_in. intros v Hv.
  pose proof (exp_ao_bounds xs p) as Bd. rewrite Forall_forall in Bd. specialize (Bd v Hv). unfold apply_sign.
  replace (fst v + d <? 0) with false by lia. replace (snd v + d <? 0) with false by lia. f_equal; lia.
Qed.

Lemma replace_one pre c post n content : wf n -> expanded (pre ++ (c, (encode_rune c, [])) :: post) n -> Forall written post ->
  zlen (encode_rune c) = 1 -> Forall scalar content -> scalar c ->
  exists n', transform_range n (Rng (zlen (exp_text pre)) (zlen (exp_text pre) + 1) OnNormalized) (map (fun c => (encode_rune c, 1)) content) 1 = Ok n' /\
    expanded (pre ++ (c, (encode content, [])) :: post) n'.
Proof.
  intros W (Eo & En & Ea & Ev) Wp L1 Sct Sc.
  set (s := zlen (exp_text pre)). set (B := bytes (map fst pre)).
  assert (Hs : 0 <= s) by apply zlen_nonneg. assert (HB : 0 <= B) by apply bytes_nonneg.
  assert (Out : exp_out (c, (encode_rune c, [])) = encode_rune c) by (unfold exp_out; cbn; apply app_nil_r).
  assert (Lc : length (encode_rune c) = 1%nat) by (unfold zlen in L1; lia).
  assert (Ev' : ns_ao_values n = exp_ao pre 0 ++ (s, s + 1) :: exp_ao post (s + 1)).
  { rewrite Ev, exp_ao_app. cbn [exp_ao fst]. rewrite Out, L1, Lc. cbn [repeat app]. rewrite Z.add_0_l. reflexivity. }
  assert (Ea' : ns_al n = exp_al pre 0 ++ (B, B + 1) :: exp_al post (B + 1)).
  { rewrite Ea, exp_al_app. cbn [exp_al fst]. rewrite Out, L1, Lc. cbn [repeat app]. rewrite Z.add_0_l. reflexivity. }
  assert (En' : ns_norm n = exp_text pre ++ encode_rune c ++ exp_text post).
  { rewrite En, exp_text_app, exp_text_cons, Out. reflexivity. }
  assert (Lal : zlen (ns_al n) = zlen (ns_norm n)) by (unfold zlen; f_equal; apply W).
  assert (Lno : zlen (ns_norm n) = s + 1 + zlen (exp_text post)) by (rewrite En', !zlen_app, L1; fold s; lia).
  assert (Lao : zlen (ns_ao n) = B + 1 + bytes (map fst post)).
  { transitivity (zlen (ns_ao_values n)); [unfold ns_ao_values, zlen; now rewrite map_length|]. rewrite Ev', zlen_app, zlen_exp_ao. unfold zlen at 1. cbn [length].
    pose proof (zlen_exp_ao post (s + 1)) as X. unfold zlen in X. fold B. lia. }
  pose proof (zlen_nonneg (exp_text post)) as Hp. pose proof (bytes_nonneg (map fst post)) as HbP.
  assert (Fr : Forall (fun a => (a < length (ns_cells n))%nat) (ns_ao n)) by apply W.
  destruct (lone_address (ns_cells n) (ns_ao n) (exp_ao pre 0) (s, s + 1) (exp_ao post (s + 1))) as (o1 & a & o2 & Eao & Lo1 & M1 & Ma & M2 & N1 & N2).
  { exact Ev'. }
  { intros y Hy ->. pose proof (exp_ao_bounds pre 0) as Bd. rewrite Forall_forall in Bd. specialize (Bd _ Hy). cbn [fst snd] in Bd. fold s in Bd. lia. }
  { intros y Hy ->. pose proof (exp_ao_bounds post (s + 1)) as Bd. rewrite Forall_forall in Bd. specialize (Bd _ Hy). cbn [fst snd] in Bd. lia. }
  assert (Zo1 : zlen o1 = B) by (unfold zlen; rewrite Lo1; pose proof (zlen_exp_ao pre 0) as X; unfold zlen in X; unfold B; lia).
  unfold transform_range. cbn [r_on r_start r_end]. unfold into_full_range. cbn [r_start r_end].
  replace (s =? -1) with false by lia. replace (zlen (ns_norm n) <? s + 1) with false by lia. cbn [bind r_start r_end].
  rewrite Lal. replace (zlen (ns_norm n) <? s + 1) with false by lia. rewrite zslice_eq by lia. cbn [bind].
  assert (Sel : part s (s + 1) (ns_norm n) = encode_rune c) by (rewrite En'; apply part_mid; [reflexivity|rewrite L1; lia]). rewrite Sel.
  assert (Rc : runes (encode_rune c) = [c]).
  { replace (encode_rune c) with (encode [c]) by (rewrite encode_cons; apply app_nil_r). apply runes_encode. constructor; [exact Sc|constructor]. }
  rewrite Rc. change (zlen [c] <? 1) with false. cbn iota. change (Z.to_nat 1) with 1%nat. cbn [firstn fold_right clear_chars]. rewrite L1, Z.add_0_r.
  rewrite zslice_eq by lia. cbn [bind].
  rewrite Ea', part_one by (rewrite zlen_exp_al; reflexivity). cbn [expand last fst snd]. rewrite zslice_eq by lia. cbn [bind].
  rewrite Eao, part_one by exact Zo1. cbn [fold_left]. unfold clear_cell. rewrite Ma. rewrite Z.add_0_l.
  replace (s + 1 <? s + 1) with false by lia.
  assert (As : apply_sign (s + 1) (- (1)) = s) by (unfold apply_sign; replace (s + 1 + - (1) <? 0) with false by lia; lia). rewrite As.
  replace (s <? s) with false by lia.
  set (cells0 := upd (ns_cells n) a (s, s)).
  assert (Ba : (a < length (ns_cells n))%nat) by (rewrite Forall_forall in Fr; apply Fr; rewrite Eao; apply in_elt).
  assert (U1 : forall l, ~ In a l -> map (cell cells0) l = map (cell (ns_cells n)) l).
  { intros l Hl. apply map_ext_in. intros b Hb. unfold cells0. rewrite cell_upd by exact Ba. destruct (Nat.eqb_spec a b) as [<-|_]; [contradiction|reflexivity]. }
  cbn [bind].
  match goal with |- context [foldR (t_item ?al) ?its ?st0] => destruct (insert_items al B content st0 (exp_ao pre 0) s s (exp_ao post (s + 1))) as (st & Est & Sst & Vst & Fst & Ast) end.
  { cbn [NormalizedModel.t_off]. lia. }
  { cbn [NormalizedModel.t_off]. replace (1 + s - 1) with s by lia. unfold zindex. replace (0 <=? s) with true by lia.
    rewrite nth_error_app2 by (pose proof (zlen_exp_al pre 0); unfold zlen in *; lia).
    replace (Z.to_nat s - length (exp_al pre 0))%nat with 0%nat by (pose proof (zlen_exp_al pre 0); unfold zlen in *; lia). reflexivity. }
  { unfold vals. cbn [t_cells t_ao]. rewrite map_app. cbn [map]. rewrite !U1, M1, M2 by assumption. do 2 f_equal.
    unfold cells0. rewrite cell_upd, Nat.eqb_refl by exact Ba. reflexivity. }
  { rewrite zlen_exp_ao. reflexivity. }
  { cbn [t_cells t_ao]. unfold cells0. rewrite upd_length, <- Eao. exact Fr. }
  rewrite Est. cbn [bind]. cbn [t_shift] in Sst.
  assert (Efin : exists ao' cells', end_shift (exp_al pre 0 ++ (B, B + 1) :: exp_al post (B + 1)) (s + 1) (t_shift st) (t_ao st) (t_cells st) = Ok (ao', cells') /\
     map (cell cells') ao' = exp_ao pre 0 ++ (s, s + bytes content) :: exp_ao post (s + bytes content)).
  { pose proof (bytes_nonneg content) as Bc. unfold end_shift. destruct (Z.eqb_spec (t_shift st) 0) as [E0|E0].
    - exists (t_ao st), (t_cells st). split; [reflexivity|]. fold (vals st). rewrite Vst. do 3 f_equal. lia.
    - assert (Zal : zlen (exp_al pre 0 ++ (B, B + 1) :: exp_al post (B + 1)) = s + 1 + zlen (exp_text post)) by (rewrite <- Ea'; lia).
      rewrite zslice_eq by lia. cbn [bind].
      assert (Pt : part (s + 1) (zlen (exp_al pre 0 ++ (B, B + 1) :: exp_al post (B + 1))) (exp_al pre 0 ++ (B, B + 1) :: exp_al post (B + 1)) = exp_al post (B + 1)).
      { rewrite Zal. change ((B, B + 1) :: exp_al post (B + 1)) with ([(B, B + 1)] ++ exp_al post (B + 1)). rewrite app_assoc. rewrite <- (app_nil_r (exp_al post (B + 1))) at 1.
        apply part_mid; [rewrite zlen_app, zlen_exp_al; reflexivity|]. rewrite zlen_exp_al. lia. }
      rewrite Pt. destruct post as [|x post].
      + cbn [exp_al expand]. exists (t_ao st), (t_cells st). split; [reflexivity|]. fold (vals st). rewrite Vst. reflexivity.
      + rewrite expand_al by (discriminate || assumption).
        assert (Lst : zlen (t_ao st) = B + 1 + bytes (map fst (x :: post))).
        { transitivity (zlen (vals st)); [unfold vals, zlen; now rewrite map_length|]. rewrite Vst, zlen_app, zlen_exp_ao. unfold zlen at 1. cbn [length].
          pose proof (zlen_exp_ao (x :: post) (s + 1)) as X. unfold zlen in X. fold B. lia. }
        rewrite zslice_eq by lia. cbn [bind].
        destruct (realloc (t_ao st) (t_cells st) _ _ _) as [ao' cells'] eqn:Er. exists ao', cells'. split; [reflexivity|].
        pose proof (realloc_values _ _ _ _ _ _ _ Er Fst) as Rv. rewrite Rv. fold (vals st). rewrite Vst.
        change ((s, s + bytes content) :: exp_ao (x :: post) (s + 1)) with ([(s, s + bytes content)] ++ exp_ao (x :: post) (s + 1)).
        rewrite (app_assoc (exp_ao pre 0) [(s, s + bytes content)] (exp_ao (x :: post) (s + 1))).
        rewrite firstn_app_z by (rewrite zlen_app, zlen_exp_ao; reflexivity).
        rewrite skipn_all2 by (rewrite app_length; pose proof (zlen_exp_ao (x :: post) (s + 1)) as X; pose proof (zlen_exp_ao pre 0) as Y; unfold zlen in X, Y; rewrite app_length; cbn [length]; unfold B; lia).
        rewrite app_nil_r, <- app_assoc. cbn [app]. do 2 f_equal.
        rewrite <- (map_map (cell (t_cells st)) (fun v => (apply_sign (fst v) (t_shift st), apply_sign (snd v) (t_shift st)))).
        rewrite map_part. fold (vals st). rewrite Vst.
        change ((s, s + bytes content) :: exp_ao (x :: post) (s + 1)) with ([(s, s + bytes content)] ++ exp_ao (x :: post) (s + 1)).
        rewrite (app_assoc (exp_ao pre 0) [(s, s + bytes content)] (exp_ao (x :: post) (s + 1))).
        replace (part (B + 1) _ _) with (exp_ao (x :: post) (s + 1)).
        2:{ symmetry. rewrite <- (app_nil_r (exp_ao (x :: post) (s + 1))) at 1. apply part_mid; [rewrite zlen_app, zlen_exp_ao; reflexivity|rewrite zlen_exp_ao; lia]. }
        rewrite exp_ao_shift_by by lia. f_equal. lia. }
  destruct Efin as (ao' & cells' & Ef & Vf). rewrite Ef. cbn [bind]. eexists. split; [reflexivity|].
  assert (Out' : exp_out (c, (encode content, [])) = encode content) by (unfold exp_out; cbn; apply app_nil_r).
  assert (Txt : t_text st = encode content).
  { apply t_loop_spec in Est. destruct Est as (_ & Tx & _). revert Tx. cbn [t_text app]. intros ->.
    clear. induction content as [|r l IH]; [reflexivity|]. cbn [map concat fst]. rewrite IH, encode_cons. f_equal. apply runes_valid_id. apply valid_encode_rune. }
  split; [|split; [|split]].
  - cbn [ns_orig]. rewrite Eo, !map_app. reflexivity.
  - cbn [ns_norm]. rewrite Txt, exp_text_app, exp_text_cons, Out', En'. rewrite firstn_app_z by reflexivity. do 2 f_equal. apply skipn_app_z. rewrite L1. reflexivity.
  - cbn [ns_al]. rewrite Ast. cbn [t_al app]. rewrite firstn_app_z by (rewrite zlen_exp_al; reflexivity). rewrite exp_al_app. cbn [exp_al fst]. rewrite Out', L1, Z.add_0_l. fold B. do 2 f_equal.
    change ((B, B + 1) :: exp_al post (B + 1)) with ([(B, B + 1)] ++ exp_al post (B + 1)). apply skipn_app_z. rewrite zlen_exp_al. reflexivity.
  - unfold ns_ao_values. cbn [ns_ao ns_cells]. rewrite Vf, exp_ao_app. cbn [exp_ao fst]. rewrite Out', Lc, Z.add_0_l. cbn [repeat app]. reflexivity.
Qed.

Lemma exp_al_bounds xs : forall p, Forall (fun v => p <= fst v /\ p <= snd v) (exp_al xs p).
Proof.
  induction xs as [|x xs IH]; intros p; [constructor|]. cbn [exp_al]. pose proof (zlen_nonneg (encode_rune (fst x))). apply Forall_app. split.
  - apply Forall_forall. intros v Hv. apply repeat_spec in Hv. subst v. cbn [fst snd]. lia.
  - eapply Forall_impl; [|apply IH]. cbn beta. intros v. lia.
Qed.
Lemma exp_al_ordered xs : forall p, ordered (exp_al xs p).
Proof.
  induction xs as [|x xs IH]; intros p; [apply ordered_nil|]. cbn [exp_al]. apply ordered_app; [apply ordered_repeat|apply IH|].
  intros v w Hv Hw. apply repeat_spec in Hv. subst v. pose proof (exp_al_bounds xs (p + zlen (encode_rune (fst x)))) as Bd. rewrite Forall_forall in Bd. specialize (Bd w Hw).
  unfold ple. cbn [fst snd]. pose proof (zlen_nonneg (encode_rune (fst x))). lia.
Qed.
Lemma expanded_ordered xs n : expanded xs n -> ordered (ns_al n).
Proof. intros (_ & _ & -> & _). apply exp_al_ordered. Qed.

(** ** All characters of a class of one-byte characters replaced *)
Definition swap (f : N -> bool) (content : list N) (c : N) : expansion := (c, (if f c then encode content else encode_rune c, [])).
Lemma swap_none f content rs : Forall (fun c => f c = false) rs -> map (swap f content) rs = same rs.
Proof. induction 1 as [|c rs Hc F IH]; [reflexivity|]. cbn [map same]. unfold swap at 1. rewrite Hc, IH. reflexivity. Qed.

Definition ascii_class (f : N -> bool) : Prop := forall c, f c = true -> (c < 128)%N.
Lemma ascii_one c : (c < 128)%N -> zlen (encode_rune c) = 1.
Proof. intros H. unfold encode_rune. replace (c <? 128)%N with true by lia. reflexivity. Qed.
Lemma space_ascii : ascii_class re_space.
Proof. intros c H. unfold re_space in H. lia. Qed.

Lemma same_app a b : same (a ++ b) = same a ++ same b.
Proof. apply map_app. Qed.

Lemma replace_chunks f content : ascii_class f -> Forall scalar content -> forall L pre n off,
  Forall (fun x : list N * bool => if snd x then exists c, fst x = [c] /\ f c = true else Forall (fun c => f c = false) (fst x)) L ->
  Forall scalar (chars_of L) -> wf n -> expanded (pre ++ same (chars_of L)) n -> off = zlen (exp_text pre) - bytes (map fst pre) ->
  exists n' off', foldR (replace_step (encode content)) (ranges_of (bytes (map fst pre)) L) (n, off) = Ok (n', off') /\
    expanded (pre ++ map (swap f content) (chars_of L)) n' /\ wf n'.
Proof.
  intros Af Sct. induction L as [|[cs k] L IH]; intros pre n off F Sc W X Eo.
  - exists n, off. split; [reflexivity|]. split; [|exact W]. cbn in *. exact X.
  - inversion F as [|? ? Fx F']; subst. cbn [snd fst] in Fx. change (chars_of ((cs, k) :: L)) with (cs ++ chars_of L) in *. apply Forall_app in Sc. destruct Sc as [Sc1 Sc2].
    cbn [ranges_of foldR replace_step snd fst]. pose proof (bytes_nonneg (map fst pre)) as HB. pose proof (zlen_nonneg (exp_text pre)) as Hs. destruct k.
    + destruct Fx as (c & -> & Hc). pose proof (ascii_one c (Af c Hc)) as L1. inversion Sc1 as [|? ? Sc _]; subst.
      assert (Bc : bytes [c] = 1) by (rewrite bytes_cons, L1; reflexivity). rewrite Bc.
      unfold apply_sign. replace (bytes (map fst pre) + (zlen (exp_text pre) - bytes (map fst pre))) with (zlen (exp_text pre)) by lia.
      replace (bytes (map fst pre) + 1 + (zlen (exp_text pre) - bytes (map fst pre))) with (zlen (exp_text pre) + 1) by lia.
      replace (zlen (exp_text pre) <? 0) with false by lia. replace (zlen (exp_text pre) + 1 <? 0) with false by lia.
      change ([c] ++ chars_of L) with (c :: chars_of L) in *. change (same (c :: chars_of L)) with ((c, (encode_rune c, [])) :: same (chars_of L)) in X.
      assert (En : ns_norm n = exp_text pre ++ encode_rune c ++ encode (chars_of L)).
      { destruct X as (_ & X & _). rewrite X, exp_text_app, exp_text_cons, exp_text_same. unfold exp_out. cbn [fst snd concat]. now rewrite app_nil_r. }
      rewrite zslice_eq by (rewrite ?En, ?zlen_app, ?L1; pose proof (zlen_nonneg (encode (chars_of L))); lia). cbn [bind].
      assert (Sel : part (zlen (exp_text pre)) (zlen (exp_text pre) + 1) (ns_norm n) = encode_rune c) by (rewrite En; apply part_mid; [reflexivity|rewrite L1; lia]). rewrite Sel.
      assert (Rc : runes (encode_rune c) = [c]).
      { replace (encode_rune c) with (encode [c]) by (rewrite encode_cons; apply app_nil_r). apply runes_encode. constructor; [exact Sc|constructor]. }
      rewrite Rc. change (zlen [c]) with 1. rewrite runes_encode by assumption.
      destruct (replace_one pre c (same (chars_of L)) n content W X (written_same _) L1 Sct Sc) as (n1 & E1 & X1). rewrite E1. cbn [bind].
      assert (W1 : wf n1) by (eapply transform_range_wf; [exact W|apply valid_rune_items|exact E1]).
      destruct (IH (pre ++ [(c, (encode content, []))]) n1 (zlen (exp_text pre) - bytes (map fst pre) + (zlen (encode content) - 1)) F' Sc2 W1) as (n' & off' & E' & X' & W').
      { rewrite <- app_assoc. exact X1. }
      { rewrite exp_text_app, map_app, bytes_app, zlen_app. cbn [map fst]. rewrite Bc. rewrite exp_text_cons. change (exp_text []) with (@nil N). unfold exp_out. cbn [fst snd concat]. rewrite !app_nil_r. clear. unfold expansion in *. ring. }
      exists n', off'. split; [|split; [|exact W']].
      * rewrite <- E'. rewrite map_app, bytes_app. cbn [map fst]. rewrite Bc.
        replace (bytes (map fst pre) + 1 - bytes (map fst pre)) with 1 by lia. reflexivity.
      * rewrite <- app_assoc in X'. cbn [map]. unfold swap at 1. rewrite Hc. exact X'.
    + cbn [bind]. destruct (IH (pre ++ same cs) n (zlen (exp_text pre) - bytes (map fst pre)) F' Sc2 W) as (n' & off' & E' & X' & W').
      { rewrite same_app in X. now rewrite <- app_assoc. }
      { rewrite exp_text_app, map_app, bytes_app, zlen_app, exp_text_same, map_fst_same. unfold bytes. clear. unfold expansion in *. ring. }
      exists n', off'. split; [|split; [|exact W']].
      * rewrite <- E', map_app, bytes_app, map_fst_same. reflexivity.
      * rewrite map_app, swap_none by exact Fx. now rewrite app_assoc.
Qed.

Lemma chunks_flags f rs : Forall (fun x : list N * bool => if snd x then exists c, fst x = [c] /\ f c = true else Forall (fun c => f c = false) (fst x)) (chunks f rs).
Proof.
  induction rs as [|r rs IH]; [constructor|]. cbn [chunks]. destruct (f r) eqn:E.
  - constructor; [|exact IH]. cbn. eauto.
  - destruct (chunks f rs) as [|[c [|]] L]; [repeat constructor; exact E| |].
    + constructor; [repeat constructor; exact E|exact IH].
    + inversion IH as [|? ? Hc H]; subst. constructor; [|exact H]. cbn [snd fst] in *. constructor; assumption.
Qed.
Lemma char_finds_ranges f rs : forall p, char_finds f (map (fun r => (r, length (encode_rune r))) rs) p = char_ranges f p rs.
Proof.
  induction rs as [|r rs IH]; intros p; [reflexivity|]. cbn [map char_finds char_ranges]. rewrite IH. cbn zeta. destruct (f r); reflexivity.
Qed.
Lemma find_chars_chunks f rs : Forall scalar rs -> rs <> [] -> find_matches (PRegexp (find_chars f)) (encode rs) = Ok (ranges_of 0 (chunks f rs)).
Proof.
  intros Sc Ne. pose proof (regexp_chunks (find_chars f) (chunks f rs) (chunks_nonempty f rs) (chunks_alternate f rs) (chunks_ne f rs Ne)) as R.
  rewrite chunks_chars in R. apply R. unfold find_chars. rewrite runes_w_encode by assumption. rewrite chunks_matched. apply char_finds_ranges.
Qed.
Lemma replace_class f content rs n : ascii_class f -> Forall scalar content -> Forall scalar rs -> rs <> [] -> wf n -> expanded (same rs) n ->
  exists n', ns_replace (PRegexp (find_chars f)) (encode content) n = Ok n' /\ expanded (map (swap f content) rs) n' /\ wf n'.
Proof.
  intros Af Sct Sc Ne W X. assert (En : ns_norm n = encode rs) by (destruct X as (_ & X & _); now rewrite X, exp_text_same).
  unfold ns_replace. rewrite En, find_chars_chunks by assumption. cbn [bind].
  destruct (replace_chunks f content Af Sct (chunks f rs) [] n 0 (chunks_flags f rs)) as (n' & off' & E & X' & W').
  { now rewrite chunks_chars. }
  { exact W. }
  { rewrite chunks_chars. exact X. }
  { reflexivity. }
  change (bytes (map fst [])) with 0 in E. rewrite E. cbn [bind fst]. rewrite chunks_chars in X'. exists n'. auto.
Qed.

(** ** The pieces *)
Lemma starts_rune r c rest : scalar r -> scalar c -> starts_with (encode_rune r) (encode (c :: rest)) = (c =? r)%N.
Proof.
  intros Sr Sc. rewrite encode_cons. destruct (N.eqb_spec c r) as [->|H]; [apply starts_with_iff; now eexists|].
  destruct (starts_with (encode_rune r) (encode_rune c ++ encode rest)) eqn:E; [|reflexivity]. exfalso. apply H.
  apply starts_with_iff in E. destruct E as (t & E). pose proof (decode_encode c (encode rest) Sc) as D1. pose proof (decode_encode r t Sr) as D2.
  rewrite E, D2 in D1. congruence.
Qed.
Lemma rune_eqb r c : scalar r -> scalar c -> str_eqb (encode_rune c) (encode_rune r) = (c =? r)%N.
Proof.
  intros Sr Sc. destruct (N.eqb_spec c r) as [->|H]; [apply str_eqb_refl|].
  destruct (str_eqb (encode_rune c) (encode_rune r)) eqn:E; [|reflexivity]. exfalso. apply H. apply str_eqb_eq in E.
  pose proof (decode_encode c [] Sc) as D1. pose proof (decode_encode r [] Sr) as D2. rewrite E, D2 in D1. congruence.
Qed.

Definition marked (r : N) (rs : list N) : list N := map (fun c => if re_space c then r else c) rs.
Definition with_mark (prepend : bool) (r : N) (rs : list N) : list N :=
  match marked r rs with
  | c :: _ => if prepend && negb (c =? r)%N then r :: marked r rs else marked r rs
  | [] => []
  end.
Lemma marked_text r rs : exp_text (map (swap re_space [r]) rs) = encode (marked r rs).
Proof.
  induction rs as [|c rs IH]; [reflexivity|]. cbn [map marked]. rewrite exp_text_cons, IH, encode_cons. f_equal. unfold swap, exp_out. cbn [fst snd concat]. rewrite app_nil_r.
  destruct (re_space c); [rewrite encode_cons; apply app_nil_r|reflexivity].
Qed.
Lemma marked_scalar r rs : scalar r -> Forall scalar rs -> Forall scalar (marked r rs).
Proof. intros Sr F. apply Forall_map. eapply Forall_impl; [|exact F]. intros c Hc. cbn. now destruct (re_space c). Qed.

Lemma meta_pieces r scheme rs : scalar r -> r <> 0%N -> Forall scalar rs -> (prepends scheme = true -> hd 1%N rs <> 0%N) -> rs <> [] ->
  exists ps, meta_split (encode_rune r) (find_chars (N.eqb r)) scheme 0 (new_ns (encode rs)) = Ok (untokenized ps) /\
    map ns_norm ps = map encode (cut_up MergedWithNext (N.eqb r) (with_mark (prepends scheme) r rs)).
Proof.
  intros Sr R0 Sc NZ Ne. assert (V : valid_utf8 (encode rs)) by (now exists rs). unfold meta_split.
  assert (Er : encode [r] = encode_rune r) by (rewrite encode_cons; apply app_nil_r).
  destruct (replace_class re_space [r] rs (new_ns (encode rs)) space_ascii) as (n1 & E1 & X1 & W1).
  { constructor; [exact Sr|constructor]. }
  { exact Sc. }
  { exact Ne. }
  { apply (new_ns_wf _ V). }
  { apply fresh_expanded, new_fresh, Sc. }
  rewrite Er in E1. rewrite E1. cbn [bind]. assert (En1 : ns_norm n1 = encode (marked r rs)) by (destruct X1 as (_ & X & _); now rewrite X, marked_text).
  assert (Sm : Forall scalar (marked r rs)) by (now apply marked_scalar).
  assert (O1 : ordered (ns_al n1)) by (eapply expanded_ordered, X1).
  assert (N2 : exists n2, (if match scheme with Always => negb (starts_with (encode_rune r) (ns_norm n1)) | First => (0 =? 0)%nat && negb (starts_with (encode_rune r) (ns_norm n1)) | Never => false end
                           then ns_prepend (encode_rune r) n1 else Ok n1) = Ok n2 /\
    ns_norm n2 = encode (with_mark (prepends scheme) r rs) /\ wf n2 /\ ordered (ns_al n2)).
  { unfold with_mark. destruct rs as [|c rest]; [congruence|]. cbn [marked map] in *. set (c' := if re_space c then r else c) in *. fold (marked r rest) in *.
    inversion Sm as [|? ? Sc' Sm']; subst. rewrite En1, starts_rune by assumption.
    replace (match scheme with Always => negb (c' =? r)%N | First => (0 =? 0)%nat && negb (c' =? r)%N | Never => false end) with (prepends scheme && negb (c' =? r)%N) by (now destruct scheme).
    destruct (prepends scheme && negb (c' =? r)%N) eqn:Ep.
    - destruct (prepend_ok (encode_rune r) (c' :: marked r rest) n1 W1 O1 En1 Sm) as (n2 & E2 & T2 & W2 & O2).
      { cbn [hd]. unfold c'. destruct (re_space c); [exact R0|]. apply NZ. now destruct (prepends scheme). }
      exists n2. split; [exact E2|]. split; [|auto]. rewrite T2. cbn [length Nat.eqb]. rewrite En1, (encode_cons r). f_equal.
      apply runes_valid_id, valid_encode_rune.
    - exists n1. auto. }
  destruct N2 as (n2 & E2 & En2 & W2 & O2). rewrite E2. cbn [bind]. unfold split_by.
  set (T := with_mark (prepends scheme) r rs) in *.
  assert (NT : T <> []).
  { unfold T, with_mark. destruct rs as [|c rest]; [congruence|]. unfold marked. cbn [map]. destruct (prepends scheme && _); intros X; discriminate X. }
  assert (ST : Forall scalar T).
  { unfold T, with_mark. destruct (marked r rs) eqn:Em; [constructor|]. destruct (prepends scheme && _); [constructor; [exact Sr|]|]; exact Sm. }
  destruct (split_chunks n2 (PRegexp (find_chars (N.eqb r))) MergedWithNext (chunks (N.eqb r) T) W2 O2) as (ps & Es & Tp & _).
  { rewrite chunks_chars. exact En2. }
  { apply chunks_nonempty. }
  { rewrite En2. now apply find_chars_chunks. }
  rewrite Es. cbn [bind]. exists ps. split; [reflexivity|]. rewrite Tp, chunk_cut_up. reflexivity.
Qed.

(** ** Decoding *)
Definition shown (r : N) (drop : bool) (c : N) : list N := if (c =? r)%N then (if drop then [] else [32%N]) else [c].
Lemma ms_token_runes r drop g : scalar r -> Forall scalar g -> ms_token (encode_rune r) drop (encode g) = encode (flat_map (shown r drop) g).
Proof.
  intros Sr F. unfold ms_token. rewrite explode_encode by exact F. rewrite map_map. induction F as [|c g Hc F IH]; [reflexivity|].
  cbn [map concat flat_map]. rewrite encode_app, IH. f_equal. rewrite rune_eqb by assumption. unfold shown. destruct (c =? r)%N; [destruct drop; reflexivity|].
  rewrite encode_cons. symmetry. apply app_nil_r.
Qed.
Lemma ms_tokens_runes r gs : scalar r -> Forall (Forall scalar) gs ->
  concat (map (ms_token (encode_rune r) false) (map encode gs)) = encode (flat_map (shown r false) (concat gs)).
Proof.
  intros Sr F. induction F as [|g gs Hg F IH]; [reflexivity|]. cbn [map concat]. rewrite flat_map_app, encode_app, <- IH. f_equal. now apply ms_token_runes.
Qed.

(** After its first character a piece holds no mark. *)
Lemma merged_tails sep rs : Forall (fun g => Forall (fun c => sep c = false) (tl g)) (cut_up MergedWithNext sep rs).
Proof.
  cbn [cut_up]. induction rs as [|c rs IH]; [constructor|]. cbn [segments]. destruct (segments (stay MergedWithNext sep) rs) as [|[|d g] gs]; [repeat constructor|inversion IH; constructor; [constructor|assumption]|].
  inversion IH as [|? ? Hg H]; subst. cbn [tl] in Hg. destruct (stay MergedWithNext sep c d) eqn:E.
  - constructor; [|exact H]. cbn [tl]. constructor; [|exact Hg]. unfold stay, joins in E. destruct (sep c), (sep d); cbn in E; congruence.
  - constructor; [constructor|]. constructor; assumption.
Qed.
Lemma cut_up_head sep r rest : exists g gs, cut_up MergedWithNext sep (r :: rest) = (r :: g) :: gs.
Proof. cbn [cut_up]. apply segments_head. Qed.

Lemma shown_none r drop g : Forall (fun c => (r =? c)%N = false) g -> flat_map (shown r drop) g = g.
Proof.
  induction 1 as [|c g Hc F IH]; [reflexivity|]. cbn [flat_map]. rewrite IH. unfold shown. rewrite N.eqb_sym, Hc. reflexivity.
Qed.
Lemma shown_marked r rs : ~ In r rs -> flat_map (shown r false) (marked r rs) = blanked rs.
Proof.
  induction rs as [|c rs IH]; intros H; [reflexivity|]. cbn [marked map flat_map blanked]. fold (marked r rs). fold (blanked rs). rewrite IH by (intros X; apply H; now right).
  change (white c) with (re_space c).
  unfold shown. destruct (re_space c); [rewrite N.eqb_refl; reflexivity|]. destruct (N.eqb_spec c r) as [->|_]; [exfalso; apply H; now left|reflexivity].
Qed.

Lemma chain_runes r prepend T : scalar r -> Forall scalar T -> (prepend = true -> forall c l, T = c :: l -> c = r) ->
  concat (ms_chain (encode_rune r) prepend (map encode (cut_up MergedWithNext (N.eqb r) T))) =
  encode (flat_map (shown r false) (if prepend then tl T else T)).
Proof.
  intros Sr ST Hp. destruct T as [|c l]; [destruct prepend; reflexivity|].
  pose proof (merged_tails (N.eqb r) (c :: l)) as Mt. pose proof (cut_up_text MergedWithNext (N.eqb r) (c :: l) ltac:(discriminate)) as Tx.
  destruct (cut_up_head (N.eqb r) c l) as (g & gs & Eg). rewrite Eg in *. pose proof (Forall_inv Mt) as Hg. cbn [tl] in Hg.
  cbn [concat app] in Tx. injection Tx as Tx. pose proof (Forall_inv ST) as Sc. pose proof (Forall_inv_tail ST) as Sl. rewrite <- Tx in Sl. apply Forall_app in Sl. destruct Sl as [Sg Sgs].
  assert (Fgs : Forall (Forall scalar) gs) by (now apply Forall_concat).
  cbn [map ms_chain concat]. rewrite ms_tokens_runes by assumption. rewrite ms_token_runes by (assumption || (constructor; assumption)). rewrite <- encode_app. f_equal.
  destruct prepend.
  - cbn [tl]. cbn [flat_map]. unfold shown at 1. rewrite (Hp eq_refl c l eq_refl), N.eqb_refl. cbn [app]. rewrite <- Tx, flat_map_app, !(shown_none r _ g Hg). reflexivity.
  - cbn [flat_map]. rewrite <- app_assoc. f_equal. rewrite <- Tx, flat_map_app. reflexivity.
Qed.

Lemma meta_nothing u rep find scheme : pre_tokenize u (PTMetaspace rep find scheme) (pt_new []) = Ok (PT [] []).
Proof.
  cbn [pre_tokenize]. unfold pt_split, pt_new, pt_from_ns. cbn [pt_splits pt_orig split_pieces sp_toks sp_ns]. unfold meta_split.
  change (ns_replace (PRegexp (find_chars re_space)) rep (new_ns [])) with (Ok (new_ns [])). cbn [bind]. change (ns_norm (new_ns [])) with (@nil N).
  assert (P : forall b : bool, (if b then ns_prepend rep (new_ns []) else Ok (new_ns [])) = Ok (new_ns [])) by (now intros [|]). rewrite P. clear P.
  cbn [bind]. unfold split_by. destruct (split_nothing (new_ns []) (PRegexp find) MergedWithNext false eq_refl) as (ps & E & Fp).
  { reflexivity. }
  rewrite E. cbn [bind]. replace (filter _ (untokenized ps)) with (@nil split); [reflexivity|].
  clear E. induction Fp as [|n ps Hn Fp IH]; [reflexivity|]. cbn [untokenized map filter sp_ns]. rewrite Hn. exact IH.
Qed.

Lemma metaspace_text u r scheme rs m : scalar r -> r <> 0%N -> Forall scalar rs -> (prepends scheme = true -> hd 1%N rs <> 0%N) -> ~ In r rs ->
  exists p', pre_tokenize u (PTMetaspace (encode_rune r) (find_chars (N.eqb r)) scheme) (pt_new (encode rs)) = Ok p' /\
    pt_orig p' = encode rs /\ Forall (fun sp => sp_toks sp = None) (pt_splits p') /\
    decode m (DMetaspace (encode_rune r) (prepends scheme)) (map sp_text (pt_splits p')) = Ok (encode (after_metaspace (prepends scheme) rs)).
Proof.
  intros Sr R0 Sc NZ Nr. destruct rs as [|c rest].
  { exists (PT [] []). split; [|split; [reflexivity|split; [constructor|reflexivity]]]. apply meta_nothing. }
  destruct (meta_pieces r scheme (c :: rest) Sr R0 Sc NZ ltac:(discriminate)) as (ps & E & Tp).
  set (T := with_mark (prepends scheme) r (c :: rest)) in *.
  assert (ST : Forall scalar T).
  { pose proof (marked_scalar r (c :: rest) Sr Sc) as Sm. unfold T, with_mark. destruct (marked r (c :: rest)); [constructor|]. destruct (prepends scheme && _); [constructor; [exact Sr|]|]; exact Sm. }
  assert (Fl : Forall (fun x : split => match ns_norm (sp_ns x) with [] => false | _ => true end = true) (untokenized ps)).
  { unfold untokenized. apply Forall_map. apply Forall_forall. intros x Hx. cbn [sp_ns]. apply (in_map ns_norm) in Hx. rewrite Tp in Hx. apply in_map_iff in Hx.
    destruct Hx as (g & Eg & Hg). destruct (ns_norm x) as [|b l] eqn:Ex; [|reflexivity]. exfalso. apply encode_nil_inv in Eg. subst g.
    rewrite <- chunk_cut_up in Hg. pose proof (chunk_pieces_nonempty MergedWithNext _ (chunks_nonempty (N.eqb r) T)) as Q. rewrite Forall_forall in Q. now apply (Q [] Hg). }
  exists (PT (encode (c :: rest)) (untokenized ps)). split; [|split; [reflexivity|split]].
  - cbn [pre_tokenize]. unfold pt_split, pt_new, pt_from_ns. cbn [pt_splits pt_orig split_pieces sp_toks sp_ns]. rewrite E. cbn [bind].
    rewrite filter_all by exact Fl. now rewrite app_nil_r.
  - unfold untokenized. apply Forall_map, Forall_forall. reflexivity.
  - cbn [pt_splits]. unfold untokenized. rewrite map_map. change (map (fun x => sp_text (Spl x None)) ps) with (map ns_norm ps). rewrite Tp.
    cbn [decode decode_chain bind]. f_equal. rewrite chain_runes; [|exact Sr|exact ST|].
    + f_equal. unfold T, with_mark. pose proof (shown_marked r (c :: rest) Nr) as Sm. cbn [marked map] in *. fold (marked r rest) in *. set (c' := if re_space c then r else c) in *. cbn [after_metaspace]. change (white c) with (re_space c).
      destruct (prepends scheme); cbn [andb].
      * destruct (re_space c) eqn:Es.
        -- unfold c'. rewrite N.eqb_refl. cbn [negb tl]. apply shown_marked. intros X. apply Nr. now right.
        -- unfold c'. destruct (N.eqb_spec c r) as [->|_]; [exfalso; apply Nr; now left|]. cbn [negb tl]. exact Sm.
      * exact Sm.
    + intros Hp x l. unfold T, with_mark. cbn [marked map]. rewrite Hp. cbn [andb]. destruct (N.eqb_spec (if re_space c then r else c) r) as [Ex|_]; cbn [negb]; intros [= <- _]; [exact Ex|reflexivity].
Qed.

(** When nothing is lost. *)
Lemma blanked_same rs : blanked rs = rs <-> Forall (fun c => white c = true -> c = 32%N) rs.
Proof.
  induction rs as [|c rs IH]; [split; [constructor|reflexivity]|]. cbn [blanked map]. fold (blanked rs). split.
  - intros [= H1 H2]. constructor; [|now apply IH]. intros Es. rewrite Es in H1. now symmetry.
  - intros H. inversion H as [|? ? Hc Hr]; subst. f_equal; [|now apply IH]. destruct (white c); [symmetry; now apply Hc|reflexivity].
Qed.
Lemma after_same prepend rs : after_metaspace prepend rs = rs <->
  Forall (fun c => white c = true -> c = 32%N) rs /\ (prepend = true -> forall c rest, rs = c :: rest -> white c = false).
Proof.
  destruct rs as [|c rest].
  { split; [|reflexivity]. intros _. split; [constructor|]. intros _ ? ? [=]. }
  cbn [after_metaspace]. destruct prepend; cbn [andb].
  - destruct (white c) eqn:E.
    + split.
      * intros H. exfalso. apply (f_equal (@length N)) in H. unfold blanked in H. rewrite map_length in H. cbn [length] in H. lia.
      * intros [_ H]. specialize (H eq_refl c rest eq_refl). congruence.
    + rewrite blanked_same. split; [|tauto]. intros H. split; [exact H|]. intros _ ? ? [= <- <-]. exact E.
  - rewrite blanked_same. split; [|tauto]. intros H. split; [exact H|discriminate].
Qed.
Lemma after_scalar prepend rs : Forall scalar rs -> Forall scalar (after_metaspace prepend rs).
Proof.
  assert (B : forall rs, Forall scalar rs -> Forall scalar (blanked rs)).
  { clear. intros rs F. apply Forall_map. eapply Forall_impl; [|exact F]. intros c Hc. cbn. destruct (white c); [unfold scalar; lia|exact Hc]. }
  intros F. destruct rs as [|c rest]; [constructor|]. cbn [after_metaspace]. inversion F; subst. destruct (_ && _); apply B; assumption.
Qed.
