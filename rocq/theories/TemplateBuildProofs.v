(** Proofs about textual templates, the builder and Validate. *)
From Verif Require Import Base BaseProofs BpeSaveModel BpeSaveProofs EncodingModel EncodingProofs ProcessorModel ProcessorSpec ProcessorProofs
  TemplateBuildModel TemplateBuildSpec.
Open Scope Z_scope.

(** ** Numbers *)
Lemma digit_some c d : digit c = Some d <-> 0 <= d <= 9 /\ c = Z.to_N (48 + d).
Proof.
  unfold digit. destruct (N.leb_spec 48 c); destruct (N.leb_spec c 57); cbn [andb]; split; intros X; try discriminate X; try lia.
  - injection X as <-. lia.
  - f_equal. lia.
Qed.
Lemma digits_app s t : forall acc, digits acc (s ++ t) = match digits acc s with Some a => digits a t | None => None end.
Proof. induction s as [|c s IH]; intros acc; [reflexivity|]. cbn. destruct (digit c); [apply IH|reflexivity]. Qed.
Lemma numeral_digits s z : numeral s z <-> s <> [] /\ digits 0 s = Some z.
Proof.
  split.
  - induction 1 as [d Hd|s z d H [N IH] Hd].
    + split; [discriminate|]. cbn [digits]. rewrite (proj2 (digit_some _ d)) by auto. f_equal; lia.
    + split; [now destruct s|]. rewrite digits_app, IH. cbn [digits]. rewrite (proj2 (digit_some _ d)) by auto. reflexivity.
  - revert z. induction s as [|c s IH] using rev_ind; intros z [N H]; [congruence|]. rewrite digits_app in H.
    destruct (digits 0 s) as [a|] eqn:E; [|discriminate]. cbn [digits] in H. destruct (digit c) as [d|] eqn:D; [|discriminate].
    injection H as <-. apply digit_some in D as [D ->]. destruct s as [|c0 s].
    + cbn in E. injection E as <-. change (10 * 0 + d) with (0 + d). rewrite Z.add_0_l. apply (Num_digit d D).
    + apply Num_more; [|exact D]. apply IH. split; [discriminate|reflexivity].
Qed.
Lemma numeral_chars s z : numeral s z -> Forall (fun c => (48 <= c <= 57)%N) s.
Proof. induction 1 as [d Hd|s z d H IH Hd]; [constructor; [lia|constructor]|]. apply Forall_app. split; [exact IH|]. constructor; [lia|constructor]. Qed.
Lemma number_chars s z : number s z -> Forall (fun c => (43 <= c <= 57)%N) s.
Proof.
  assert (W : forall s z, numeral s z -> Forall (fun c => (43 <= c <= 57)%N) s).
  { intros s' z' H. eapply Forall_impl; [|exact (numeral_chars _ _ H)]. cbv beta. lia. }
  intros [[H|[(s' & -> & H)|(s' & z' & -> & H & _)]] _]; [eapply W, H| |]; (constructor; [lia|eapply W, H]).
Qed.
Lemma number_not s z c : number s z -> (c < 43 \/ 57 < c)%N -> ~ In c s.
Proof. intros H Hc I. pose proof (proj1 (Forall_forall _ _) (number_chars _ _ H) _ I) as X. cbv beta in X. lia. Qed.
Lemma number_nonnil s z : number s z -> s <> [].
Proof. intros [[H|[(s' & -> & H)|(s' & z' & -> & H & _)]] _]; try discriminate. apply numeral_digits in H. tauto. Qed.

Definition part_value (neg : bool) (ds : str) : option Z :=
  match ds with
  | [] => None
  | _ => match digits 0 ds with
         | Some z => let z' := if neg : bool then - z else z in if in_int64 z' then Some z' else None
         | None => None
         end
  end.
Lemma part_value_some neg ds z : part_value neg ds = Some z <->
  (exists z', numeral ds z' /\ z = if neg then - z' else z') /\ - 2 ^ 63 <= z < 2 ^ 63.
Proof.
  unfold part_value. split.
  - intros H. destruct ds as [|c ds]; [discriminate|]. destruct (digits 0 (c :: ds)) as [z'|] eqn:E; [|discriminate].
    cbv zeta in H. destruct (in_int64 _) eqn:B in H; [|discriminate]. injection H as <-. unfold in_int64 in B. split; [|lia].
    exists z'. split; [|reflexivity]. apply numeral_digits. split; [discriminate|exact E].
  - intros [(z' & H & E) R]. apply numeral_digits in H as [N H]. rewrite H. destruct ds; [congruence|]. cbv zeta. rewrite <- E.
    replace (in_int64 z) with true; [reflexivity|]. unfold in_int64. lia.
Qed.
Lemma atoi_number s z : atoi s = Some z <-> number s z.
Proof.
  unfold number. destruct s as [|c s].
  - cbn. split; [discriminate|]. intros [[H|[(s' & H & _)|(s' & z' & H & _)]] _]; try discriminate. apply numeral_digits in H as [H _]. congruence.
  - assert (E : atoi (c :: s) = if (c =? 45)%N then part_value true s else if (c =? 43)%N then part_value false s else part_value false (c :: s)).
    { unfold atoi. destruct (c =? 45)%N; [reflexivity|]. destruct (c =? 43)%N; reflexivity. }
    rewrite E. clear E.
    assert (NN : forall z', numeral (c :: s) z' -> (48 <= c <= 57)%N) by (intros z' H; apply numeral_chars in H; inversion H; assumption).
    destruct (N.eqb_spec c 45) as [->|D1]; [|destruct (N.eqb_spec c 43) as [->|D2]]; rewrite part_value_some; split; intros [H R]; (split; [|exact R]).
    + destruct H as (z' & H & ->). right. right. exists s, z'. auto.
    + destruct H as [H|[(s' & H & _)|(s' & z' & H & H1 & ->)]]; [apply NN in H; lia|discriminate|]. injection H as <-. eauto.
    + destruct H as (z' & H & ->). right. left. eauto.
    + destruct H as [H|[(s' & H & H1)|(s' & z' & H & _)]]; [apply NN in H; lia| |discriminate]. injection H as <-. eauto.
    + destruct H as (z' & H & ->). now left.
    + destruct H as [H|[(s' & H & _)|(s' & z' & H & _)]]; [eauto| |]; injection H as ? _; congruence.
Qed.
Lemma number_unique s z z' : number s z -> number s z' -> z = z'.
Proof. rewrite <- !atoi_number. congruence. Qed.

Lemma numeral_exists n : 0 <= n -> exists s, numeral s n.
Proof.
  intros H. pattern n. apply (Zlt_0_ind); [|exact H]. clear n H. intros n IH Hn. destruct (Z.ltb_spec n 10) as [L|L].
  - eexists. apply (Num_digit n). lia.
  - destruct (IH (n / 10)) as (s & Hs); [split; [apply Z.div_pos; lia|apply Z.div_lt; lia]|].
    exists (s ++ [Z.to_N (48 + n mod 10)]). rewrite (Z.div_mod n 10) at 2 by lia. apply Num_more; [exact Hs|].
    pose proof (Z.mod_pos_bound n 10). lia.
Qed.
Lemma number_exists n : - 2 ^ 63 <= n < 2 ^ 63 -> exists s, number s n.
Proof.
  intros R. destruct (Z.leb_spec 0 n) as [P|P].
  - destruct (numeral_exists n P) as (s & H). exists s. split; [now left|exact R].
  - destruct (numeral_exists (- n) ltac:(lia)) as (s & H). exists (45%N :: s). split; [|exact R]. right. right. exists s, (- n). split; [reflexivity|]. split; [exact H|lia].
Qed.

(** ** Pieces *)
Lemma extract_plain s p : extract_id s = Ok p <-> plain_piece s p.
Proof.
  destruct s as [|c r].
  - cbn. split; [intros X; injection X as <-; constructor; discriminate|]. inversion 1. reflexivity.
  - cbn [extract_id]. unfold DOLLAR. destruct (N.eqb_spec c 36) as [->|D].
    + destruct (str_eqb r [] || str_eqb r [65%N] || str_eqb r [97%N])%bool eqn:EA; [|destruct (str_eqb r [66%N] || str_eqb r [98%N])%bool eqn:EB].
      * assert (HA : r = [] \/ r = [65%N] \/ r = [97%N]) by (rewrite !Bool.orb_true_iff, !str_eqb_eq in EA; tauto). split.
        -- intros X. injection X as <-. now constructor.
        -- inversion 1 as [r' H1 E1|r' H1 E1|r' n H1 E1|s' H1 E1]; subst; [reflexivity| | |].
           ++ destruct HA as [->|[->| ->]], H1; discriminate.
           ++ destruct HA as [->|[->| ->]]; exfalso; [now apply number_nonnil in H1|apply (number_not _ _ 65%N H1)|apply (number_not _ _ 97%N H1)]; try lia; now left.
           ++ exfalso. now apply (H1 r).
      * assert (HB : r = [66%N] \/ r = [98%N]) by (rewrite Bool.orb_true_iff, !str_eqb_eq in EB; tauto). split.
        -- intros X. injection X as <-. now constructor.
        -- inversion 1 as [r' H1 E1|r' H1 E1|r' n H1 E1|s' H1 E1]; subst; [|reflexivity| |].
           ++ destruct HB as [->| ->], H1 as [H1|[H1|H1]]; discriminate.
           ++ exfalso. destruct HB as [->| ->]; [apply (number_not _ _ 66%N H1)|apply (number_not _ _ 98%N H1)]; try lia; now left.
           ++ exfalso. now apply (H1 r).
      * apply Bool.orb_false_iff in EA as [EA E3]. apply Bool.orb_false_iff in EA as [E1' E2]. apply Bool.orb_false_iff in EB as [E4 E5].
        apply str_eqb_neq in E1', E2, E3, E4, E5. destruct (atoi r) as [n|] eqn:E; split.
        -- intros X. injection X as <-. constructor. now apply atoi_number.
        -- inversion 1 as [r' H1 E1|r' H1 E1|r' n' H1 E1|s' H1 E1]; subst; [exfalso; intuition congruence|exfalso; intuition congruence| |].
           ++ apply atoi_number in H1. congruence.
           ++ exfalso. now apply (H1 r).
        -- discriminate.
        -- inversion 1 as [r' H1 E1|r' H1 E1|r' n' H1 E1|s' H1 E1]; subst; [exfalso; intuition congruence|exfalso; intuition congruence| |].
           ++ apply atoi_number in H1. congruence.
           ++ exfalso. now apply (H1 r).
    + split.
      * intros X. injection X as <-. constructor. intros r' X. injection X as ? _. congruence.
      * inversion 1; subst; try congruence; try (exfalso; now apply D).
Qed.
Lemma extract_cases s : (exists p, extract_id s = Ok p) \/ extract_id s = Err.
Proof.
  destruct s as [|c r]; [left; eexists; reflexivity|]. cbn. destruct (c =? DOLLAR)%N; [|left; eauto].
  destruct (str_eqb r [] || _ || _)%bool; [left; eauto|]. destruct (_ || _)%bool; [left; eauto|]. destruct (atoi r); [left; eauto|now right].
Qed.

Lemma with_typed ty p : with_type_id ty p = typed ty p. Proof. now destruct p. Qed.
Lemma piece_cases s : (exists p, new_piece s = Ok p) \/ new_piece s = Err.
Proof.
  unfold new_piece. destruct (split_on COLON s) as [|h [|t [|u l]]]; auto.
  - apply extract_cases.
  - destruct (atoi t); [|auto]. destruct (extract_cases h) as [(p & ->)| ->]; [left; eexists; reflexivity|now right].
Qed.
Lemma piece_exact s p : new_piece s = Ok p <-> piece_text s p.
Proof.
  unfold new_piece, piece_text. split.
  - pose proof (split_on_join COLON s) as J. pose proof (split_on_nosep COLON s) as NS.
    destruct (split_on COLON s) as [|h [|t [|u l]]]; try discriminate; cbn [join_on] in J.
    + intros H. left. subst s. split; [apply NS; now left|now apply extract_plain].
    + destruct (atoi t) as [ty|] eqn:E; [|discriminate]. intros H. apply bind_Ok_inv in H as (q & H & X). injection X as <-.
      right. exists h, t, q, ty. rewrite <- J. split; [reflexivity|]. split; [apply NS; now left|]. split; [now apply extract_plain|].
      split; [now apply atoi_number|apply with_typed].
  - intros [[N H]|(h & t & q & ty & -> & N & H & T & ->)].
    + rewrite split_on_one by exact N. now apply extract_plain.
    + rewrite split_on_app by exact N. rewrite split_on_one by (apply (number_not _ _ 58%N T); lia).
      apply atoi_number in T. rewrite T. apply extract_plain in H. rewrite H. cbn [bind]. now rewrite with_typed.
Qed.

(** ** Templates *)
Lemma spaced_join parts : spaced parts = join_on SPACE parts.
Proof. induction parts as [|x [|y l] IH]; [reflexivity|reflexivity|]. cbn [spaced join_on] in *. now rewrite IH. Qed.
Lemma mapR_new_piece parts t : mapR new_piece parts = Ok t <-> Forall2 piece_text parts t.
Proof.
  revert t. induction parts as [|x parts IH]; intros t; cbn [mapR].
  - split; [intros X; injection X as <-; constructor|inversion 1; reflexivity].
  - split.
    + intros H. apply bind_Ok_inv in H as (p & Hp & H). apply bind_Ok_inv in H as (l & Hl & H). injection H as <-.
      constructor; [now apply piece_exact|now apply IH].
    + inversion 1 as [|x' p parts' l Hp Hl]; subst. apply piece_exact in Hp. rewrite Hp. cbn [bind]. apply IH in Hl. rewrite Hl. reflexivity.
Qed.
Lemma mapR_piece_cases parts : (exists t, mapR new_piece parts = Ok t) \/ mapR new_piece parts = Err.
Proof.
  induction parts as [|x parts IH]; [left; eexists; reflexivity|]. cbn [mapR]. destruct (piece_cases x) as [(p & ->)| ->]; [|now right].
  cbn [bind]. destruct IH as [(t & ->)| ->]; [left; eexists; reflexivity|now right].
Qed.
Lemma split_on_joined sep parts : parts <> [] -> Forall (fun x => ~ In sep x) parts -> split_on sep (join_on sep parts) = parts.
Proof.
  intros N F. induction F as [|x parts H F IH]; [congruence|]. cbn [join_on]. destruct parts as [|y l].
  - now apply split_on_one.
  - rewrite split_on_app by exact H. now rewrite IH.
Qed.
Lemma template_exact s t : template_from_one s = Ok t <-> template_text s t.
Proof.
  unfold template_from_one, template_from_multi, template_text. rewrite mapR_new_piece. split.
  - intros H. exists (split_on SPACE s). split; [apply split_on_nonnil|]. split; [now rewrite spaced_join, split_on_join|]. split; [|exact H].
    apply Forall_forall. intros x. apply (split_on_nosep SPACE).
  - intros (parts & N & -> & F & H). rewrite spaced_join. now rewrite (split_on_joined SPACE).
Qed.
Lemma template_cases' s : (exists t, template_from_one s = Ok t) \/ template_from_one s = Err.
Proof. apply mapR_piece_cases. Qed.

Lemma plain_expressible s p : ~ In 58%N s -> ~ In 32%N s -> plain_piece s p -> expressible p.
Proof.
  intros N1 N2 H. inversion H as [r H1 E1|r H1 E1|r n H1 E1|s' H1 E1]; subst; cbn [expressible]; try lia.
  - destruct H1 as [_ R]. exact R.
  - split; [lia|]. auto.
Qed.
Lemma piece_expressible s p : ~ In 32%N s -> piece_text s p -> expressible p.
Proof.
  intros N [[C H]|(h & t & q & ty & -> & C & H & T & ->)]; [now apply (plain_expressible s)|].
  assert (N1 : ~ In 32%N h) by (intros I; apply N, in_or_app; now left).
  pose proof (plain_expressible h q C N1 H) as X. destruct T as [_ R]. destruct q as [b y|id y]; cbn [typed expressible] in *; tauto.
Qed.
Lemma expressible_piece p : expressible p -> exists s, ~ In 32%N s /\ piece_text s p.
Proof.
  assert (G : forall h q ty, ~ In 58%N h -> ~ In 32%N h -> plain_piece h q -> - 2 ^ 63 <= ty < 2 ^ 63 -> p = typed ty q -> exists s, ~ In 32%N s /\ piece_text s p).
  { intros h q ty C Sp H R ->. destruct (number_exists ty R) as (t & T). exists (h ++ 58%N :: t). split.
    - intros I. apply in_app_or in I as [I|[I|I]]; [now apply Sp|discriminate|]. now apply (number_not _ _ 32%N T); [lia|].
    - right. exists h, t, q, ty. auto. }
  destruct p as [b ty|id ty]; cbn [expressible].
  - intros R. destruct b.
    + apply (G [36; 66]%N (PSeq true 0) ty); [cbn; intuition discriminate|cbn; intuition discriminate|constructor; auto|exact R|reflexivity].
    + apply (G [36; 65]%N (PSeq false 0) ty); [cbn; intuition discriminate|cbn; intuition discriminate|constructor; auto|exact R|reflexivity].
  - intros (R & Sp & C & D). apply (G id (PSpecial id 0) ty); auto. now constructor.
Qed.
Lemma template_expressible t : (exists s, template_from_one s = Ok t) <-> t <> [] /\ Forall expressible t.
Proof.
  split.
  - intros (s & H). apply template_exact in H as (parts & N & -> & F & H). split; [destruct H; [congruence|discriminate]|].
    clear N. induction H as [|x p parts t Hp H IH]; [constructor|]. inversion F; subst. constructor; [eapply piece_expressible; eauto|auto].
  - intros [N F]. assert (P : exists parts, Forall (fun x => ~ In 32%N x) parts /\ Forall2 piece_text parts t).
    { clear N. induction F as [|p t Hp F (parts & IH1 & IH2)]; [exists []; auto|]. destruct (expressible_piece p Hp) as (s & Sp & Hs). exists (s :: parts). auto. }
    destruct P as (parts & P1 & P2). exists (spaced parts). apply template_exact. exists parts. split; [|auto]. destruct P2; [congruence|discriminate].
Qed.

(** An empty word is the special token with the empty name. *)
Lemma empty_word s t : template_from_one s = Ok t -> In [] (split_on SPACE s) -> In (PSpecial [] 0) t.
Proof.
  unfold template_from_one, template_from_multi. rewrite mapR_new_piece. intros H. induction H as [|x p parts t Hp H IH]; [intros []|].
  intros [->|I]; [left|right; auto]. apply piece_exact in Hp. cbn in Hp. congruence.
Qed.
Lemma split_empty_word s x y : s = [] \/ s = SPACE :: y \/ s = x ++ [SPACE] \/ s = x ++ SPACE :: SPACE :: y -> In [] (split_on SPACE s).
Proof.
  assert (A : forall x z, split_on SPACE (x ++ SPACE :: z) = split_on SPACE x ++ split_on SPACE z).
  { clear. intros x z. induction x as [|c x IH]; cbn [app split_on]; [now rewrite N.eqb_refl|]. rewrite IH.
    destruct (c =? SPACE)%N; [reflexivity|]. pose proof (split_on_nonnil SPACE x) as N. destruct (split_on SPACE x); [congruence|reflexivity]. }
  intros [->|[->|[->| ->]]].
  - now left.
  - cbn [split_on]. rewrite N.eqb_refl. now left.
  - rewrite A. apply in_or_app. right. now left.
  - rewrite A. apply in_or_app. right. cbn [split_on]. rewrite N.eqb_refl. now left.
Qed.

(** ** The builder *)
Lemma tokens_fold k (l : list (str * Z)) : forall m : special_tokens,
  (forall v, last_bound k l v -> aget str_eqb k (fold_left (fun m t => aset str_eqb (fst t) ([snd t], [fst t]) m) l m) = Some ([v], [k])) /\
  (~ In k (map fst l) -> aget str_eqb k (fold_left (fun m t => aset str_eqb (fst t) ([snd t], [fst t]) m) l m) = aget str_eqb k m).
Proof.
  induction l as [|[k' v'] l IH]; intros m; cbn [fold_left map fst snd].
  - split; [inversion 1|reflexivity].
  - destruct (IH (aset str_eqb k' ([v'], [k']) m)) as [I1 I2]. split.
    + inversion 1 as [l' v0 N E|x l' v0 B E]; subst; [|auto]. rewrite I2 by exact N. rewrite (ag_aset str_eqb str_eqb_eq), str_eqb_refl. reflexivity.
    + intros N. rewrite I2 by (intros I; apply N; now right). rewrite (ag_aset str_eqb str_eqb_eq). destruct (str_eqb k k') eqn:E; [|reflexivity].
      apply str_eqb_eq in E. exfalso. apply N. now left.
Qed.
Lemma last_bound_in {V} k (l : list (str * V)) : In k (map fst l) -> exists v, last_bound k l v.
Proof.
  induction l as [|[k' v'] l IH]; [intros []|]. cbn [map fst]. destruct (in_dec (list_eq_dec N.eq_dec) k (map fst l)) as [I|I].
  - intros _. destruct (IH I) as (v & H). exists v. now constructor.
  - intros [->|X]; [|contradiction]. exists v'. now constructor.
Qed.
Lemma new_tokens_get l k t : aget str_eqb k (new_tokens l) = Some t <-> exists v, last_bound k l v /\ t = ([v], [k]).
Proof.
  unfold new_tokens. destruct (tokens_fold k l []) as [T1 T2]. split.
  - intros H. destruct (in_dec (list_eq_dec N.eq_dec) k (map fst l)) as [I|I]; [|rewrite T2 in H by exact I; discriminate].
    destruct (last_bound_in k l I) as (v & B). exists v. split; [exact B|]. rewrite (T1 v B) in H. congruence.
  - intros (v & B & ->). now apply T1.
Qed.

Definition counted (st : tstate) : Prop :=
  ts_added_single st = count_added (ts_single st) (ts_toks st) /\ ts_added_pair st = count_added (ts_pair st) (ts_toks st).
Lemma build_step_counted st o st' : build_step st o = Ok st' -> counted st'.
Proof. destruct o as [v|v|l]; cbn; [destruct (new_template v)|destruct (new_template v)|]; try discriminate; intros X; injection X as <-; split; reflexivity. Qed.
Lemma build_counted ops : forall st st', counted st -> build ops st = Ok st' -> counted st'.
Proof.
  unfold build. induction ops as [|o ops IH]; intros st st' C; cbn [foldR]; [intros X; injection X as <-; exact C|].
  intros H. apply bind_Ok_inv in H as (st1 & H1 & H). eapply IH; [|exact H]. eapply build_step_counted, H1.
Qed.

(** ** Validate *)
Lemma pair_scan_special l : Exists is_special_token l -> forall a b, pair_scan l a b = Panic.
Proof. induction 1 as [p l H|p l H IH]; intros a b; cbn; [destruct p; [destruct H|reflexivity]|]. destruct p as [[|] ty|id ty]; auto. Qed.
Lemma pair_scan_plain l : ~ Exists is_special_token l -> forall a b,
  exists a' b', pair_scan l a b = Ok (a', b') /\ (a' = true <-> a = true \/ exists ty, In (PSeq false ty) l) /\ (b' = true <-> b = true \/ exists ty, In (PSeq true ty) l).
Proof.
  induction l as [|p l IH]; intros N a b.
  - exists a, b. split; [reflexivity|]. cbn. split; (split; [auto|intros [H|[ty []]]; exact H]).
  - assert (N' : ~ Exists is_special_token l) by (intros X; apply N; now apply Exists_cons_tl).
    destruct p as [[|] ty|id ty]; cbn [pair_scan].
    + destruct (IH N' a true) as (a' & b' & E & A & B). exists a', b'. split; [exact E|]. rewrite A, B. cbn [In]. split; split.
      * intros [H|(t & H)]; [auto|right; exists t; auto].
      * intros [H|(t & [H|H])]; [auto|discriminate|right; eauto].
      * intros _. right. exists ty. now left.
      * intros _. now left.
    + destruct (IH N' true b) as (a' & b' & E & A & B). exists a', b'. split; [exact E|]. rewrite A, B. cbn [In]. split; split.
      * intros _. right. exists ty. now left.
      * intros _. now left.
      * intros [H|(t & H)]; [auto|right; exists t; auto].
      * intros [H|(t & [H|H])]; [auto|discriminate|right; eauto].
    + exfalso. apply N. now constructor.
Qed.
Lemma no_missing st : missing_tokens st = Ok [].
Proof.
  unfold missing_tokens.
  assert (E : forall l, mapR (fun p => match get_type p, p with N_SpecialToken, PSpecial id _ => check_token st id | _, _ => Ok [] end) l = Ok (map (fun _ => []) l)).
  { induction l as [|p l IH]; [reflexivity|]. cbn [mapR map]. rewrite IH. destruct p; reflexivity. }
  rewrite E. cbn [bind]. f_equal. induction (ts_single st ++ ts_pair st); auto.
Qed.
Lemma validate_plain st : ~ Exists is_special_token (ts_pair st) ->
  (validate st = Ok tt <-> (exists ty, In (PSeq false ty) (ts_pair st)) /\ (exists ty, In (PSeq true ty) (ts_pair st))) /\
  (validate st = Ok tt \/ validate st = Err).
Proof.
  intros N. destruct (pair_scan_plain (ts_pair st) N false false) as (a & b & E & A & B). unfold validate. rewrite E, no_missing. cbn [bind fst snd].
  assert (F : forall P : Prop, (false = true \/ P) <-> P) by (intros P; split; [intros [H|H]; [discriminate|exact H]|auto]). rewrite F in A, B. rewrite <- A, <- B.
  destruct a, b; cbn; intuition congruence.
Qed.
Lemma validate_special st : Exists is_special_token (ts_pair st) -> validate st = Panic.
Proof. intros H. unfold validate. now rewrite pair_scan_special. Qed.
