(** Proofs about the precompiled character map (C51). *)
From Verif Require Import Base BaseProofs Utf8Model Utf8Proofs NormalizedModel DecoderModel DecoderSpec DecoderProofs SpmModel SpmSpec.
From Coq Require Import Sorted.
Open Scope Z_scope.

(** ** Parsing *)
Lemma le32_bytes n : (n < 4294967296)%N ->
  le32 (n mod 256) ((n / 256) mod 256) ((n / 65536) mod 256) ((n / 16777216) mod 256) = n.
Proof.
  intros H. unfold le32.
  assert (E1 : (n = 256 * (n / 256) + n mod 256)%N) by (apply N.div_mod; discriminate).
  assert (E2 : (n / 256 = 256 * (n / 65536) + (n / 256) mod 256)%N).
  { replace 65536%N with (256 * 256)%N by reflexivity. rewrite <- N.div_div by discriminate. apply N.div_mod. discriminate. }
  assert (E3 : (n / 65536 = 256 * (n / 16777216) + (n / 65536) mod 256)%N).
  { replace 16777216%N with (65536 * 256)%N by reflexivity. rewrite <- N.div_div by discriminate. apply N.div_mod. discriminate. }
  assert (E4 : ((n / 16777216) mod 256 = n / 16777216)%N).
  { apply N.mod_small. apply N.div_lt_upper_bound; [discriminate|]. lia. }
  rewrite E4. lia.
Qed.

Lemma read_units_bytes units : forall text, Forall (fun u => (u < 4294967296)%N) units ->
  read_units (N.of_nat (length units)) (flat_map bytes32 units ++ text) = Ok (text, units).
Proof.
  induction units as [|u units IH]; intros text F.
  - cbn [length flat_map app]. change (N.of_nat 0) with 0%N. destruct text; reflexivity.
  - inversion F as [|x y F1 F2]; subst. cbn [flat_map bytes32 app].
    cbn [read_units]. destruct (N.eqb_spec (N.of_nat (length (u :: units))) 0) as [E|_]; [cbn [length] in E; lia|].
    replace (N.of_nat (length (u :: units)) - 1)%N with (N.of_nat (length units)) by (cbn [length]; lia).
    rewrite IH by exact F2. cbn [bind fst snd]. rewrite le32_bytes by exact F1. reflexivity.
Qed.

Lemma parse_blob units text : Forall (fun u => (u < 4294967296)%N) units ->
  (4 * N.of_nat (length units) < 4294967296)%N -> parse (blob units text) = Ok (text, units).
Proof.
  intros F L. unfold blob, bytes32. cbn [app parse]. rewrite le32_bytes by exact L.
  rewrite N.mul_comm, N.div_mul by discriminate. now apply read_units_bytes.
Qed.

Lemma bytes_le32 a b c d : (a < 256)%N -> (b < 256)%N -> (c < 256)%N -> (d < 256)%N ->
  bytes32 (le32 a b c d) = [a; b; c; d] /\ (le32 a b c d < 4294967296)%N.
Proof.
  intros A B C D. unfold bytes32, le32. split; [|lia].
  assert (D1 : forall x y, (x < 256)%N -> ((x + 256 * y) mod 256 = x)%N).
  { intros x y H. rewrite N.mul_comm, N.mod_add by discriminate. now apply N.mod_small. }
  assert (D2 : forall x y, (x < 256)%N -> ((x + 256 * y) / 256 = y)%N).
  { intros x y H. rewrite N.mul_comm, N.div_add by discriminate. rewrite N.div_small by exact H. lia. }
  assert (E : (a + 256 * b + 65536 * c + 16777216 * d = a + 256 * (b + 256 * (c + 256 * d)))%N) by lia.
  rewrite E. replace 65536%N with (256 * 256)%N by reflexivity. replace 16777216%N with (256 * (256 * 256))%N by reflexivity.
  rewrite <- !N.div_div by discriminate. rewrite !D2 by assumption. rewrite !D1 by assumption.
  rewrite (N.mod_small d) by exact D. reflexivity.
Qed.

Lemma read_units_inv : forall rest n text units, all_bytes rest ->
  read_units n rest = Ok (text, units) ->
  rest = (flat_map bytes32 units ++ text)%list /\ N.of_nat (length units) = n /\ Forall (fun u => (u < 4294967296)%N) units.
Proof.
  assert (G : forall k rest, (length rest <= k)%nat -> forall n text units, all_bytes rest ->
    read_units n rest = Ok (text, units) ->
    rest = (flat_map bytes32 units ++ text)%list /\ N.of_nat (length units) = n /\ Forall (fun u => (u < 4294967296)%N) units).
  { induction k as [|k IH]; intros rest L n text units B E.
    - destruct rest; [|cbn in L; lia]. cbn in E. destruct (N.eqb_spec n 0); [|discriminate].
      injection E as <- <-. cbn. auto.
    - destruct (N.eqb_spec n 0) as [->|Nn].
      + assert (E' : Ok (rest, @nil N) = Ok (text, units)) by (destruct rest; exact E). injection E' as <- <-. cbn. auto.
      + assert (R : exists a b c d rest', rest = a :: b :: c :: d :: rest' /\
           (do r <- read_units (n - 1) rest'; Ok (fst r, le32 a b c d :: snd r)) = Ok (text, units)).
        { destruct rest as [|a [|b [|c [|d rest']]]]; cbn in E; destruct (N.eqb_spec n 0); try contradiction; try discriminate.
          exists a, b, c, d, rest'. auto. }
        destruct R as (a & b & c & d & rest' & -> & R).
        destruct (read_units (n - 1) rest') as [[t us]| | | |] eqn:Er; try discriminate. cbn [bind fst snd] in R. injection R as <- <-.
        inversion B as [|x1 y1 B1 B']; subst. inversion B' as [|x2 y2 B2 B'']; subst.
        inversion B'' as [|x3 y3 B3 B3']; subst. inversion B3' as [|x4 y4 B4 B5]; subst.
        destruct (IH rest' ltac:(cbn in L; lia) (n - 1)%N t us B5 Er) as [H1 [H2 H3]].
        destruct (bytes_le32 a b c d B1 B2 B3 B4) as [X1 X2].
        split; [|split].
        * cbn [flat_map]. rewrite X1, H1. reflexivity.
        * cbn [length]. lia.
        * constructor; assumption. }
  intros rest. apply (G (length rest)). lia.
Qed.

Lemma parse_inv data text units : all_bytes data -> parse data = Ok (text, units) ->
  exists size, (size / 4 = N.of_nat (length units))%N /\ data = (bytes32 size ++ flat_map bytes32 units ++ text)%list.
Proof.
  intros B. unfold parse. destruct data as [|a [|b [|c [|d rest]]]]; try discriminate. intros E.
  inversion B as [|x1 y1 B1 B']; subst. inversion B' as [|x2 y2 B2 B'']; subst.
  inversion B'' as [|x3 y3 B3 B3']; subst. inversion B3' as [|x4 y4 B4 B5]; subst.
  destruct (read_units_inv rest _ text units B5 E) as [H1 [H2 _]]. exists (le32 a b c d). split; [now symmetry|].
  destruct (bytes_le32 a b c d B1 B2 B3 B4) as [X1 _]. rewrite X1, H1. reflexivity.
Qed.

Lemma read_units_panics : forall rest n, (N.of_nat (length rest) < 4 * n)%N -> read_units n rest = Panic.
Proof.
  assert (G : forall k rest, (length rest <= k)%nat -> forall n, (N.of_nat (length rest) < 4 * n)%N -> read_units n rest = Panic).
  { induction k as [|k IH]; intros rest L n H.
    - destruct rest; [|cbn in L; lia]. cbn. destruct (N.eqb_spec n 0) as [->|]; [cbn [length] in H; lia|reflexivity].
    - destruct rest as [|a [|b [|c [|d rest']]]]; cbn [read_units]; destruct (N.eqb_spec n 0) as [->|Nn];
        try (cbn [length] in H; lia); try reflexivity.
      rewrite IH; [reflexivity|cbn [length] in L; lia|cbn [length] in H; lia]. }
  intros rest. apply (G (length rest)). lia.
Qed.

Lemma parse_short data : (length data < 4)%nat -> parse data = Panic.
Proof. destruct data as [|a [|b [|c [|d rest]]]]; cbn; intros; try reflexivity. lia. Qed.

Lemma parse_cut size rest : (size < 4294967296)%N -> (N.of_nat (length rest) < 4 * (size / 4))%N ->
  parse (bytes32 size ++ rest) = Panic.
Proof. intros S0 H. unfold bytes32. cbn [app parse]. rewrite le32_bytes by exact S0. now apply read_units_panics. Qed.

(** ** Lookup *)
Lemma unit_at_ok arr i u : has_unit arr i u -> unit_at arr i = Ok u.
Proof.
  unfold has_unit, unit_at, zindex. intros H. destruct (Z.leb_spec 0 (Z.of_N i)); [|lia].
  replace (Z.to_nat (Z.of_N i)) with (N.to_nat i) by lia. now rewrite H.
Qed.
Lemma unit_at_inv arr i u : unit_at arr i = Ok u -> has_unit arr i u.
Proof.
  unfold has_unit, unit_at, zindex. destruct (Z.leb_spec 0 (Z.of_N i)); [|lia].
  replace (Z.to_nat (Z.of_N i)) with (N.to_nat i) by lia. destruct (nth_error arr (N.to_nat i)); [congruence|discriminate].
Qed.
Lemma unit_at_panic arr i : (length arr <= N.to_nat i)%nat -> unit_at arr i = Panic.
Proof.
  unfold unit_at, zindex. intros H. destruct (Z.leb_spec 0 (Z.of_N i)); [|lia].
  replace (Z.to_nat (Z.of_N i)) with (N.to_nat i) by lia.
  apply nth_error_None in H. now rewrite H.
Qed.
Lemma has_unit_fun arr i u v : has_unit arr i u -> has_unit arr i v -> u = v.
Proof. unfold has_unit. congruence. Qed.

Lemma search_from_spec arr key : forall pos rs, search_from arr pos key = Ok rs ->
  exists ps, Forall2 (fun p v => exists to w, path arr pos p to true /\ has_unit arr to w /\ v = u_value w) ps rs /\
    (forall p, In p ps <-> prefix_of p key /\ exists to, path arr pos p to true) /\
    StronglySorted shorter ps.
Proof.
  induction key as [|c key IH]; intros pos rs; cbn [search_from].
  - intros [= <-]. exists []. split; [constructor|]. split; [|constructor]. intros p. split; [intros []|].
    intros [[rest E] [to P]]. symmetry in E. apply app_eq_nil in E as [-> _]. inversion P.
  - assert (NONE : (forall p to, path arr pos p to true -> ~ prefix_of p (c :: key)) ->
      exists ps, Forall2 (fun p v => exists to w, path arr pos p to true /\ has_unit arr to w /\ v = u_value w) ps [] /\
        (forall p, In p ps <-> prefix_of p (c :: key) /\ exists to, path arr pos p to true) /\ StronglySorted shorter ps).
    { intros N0. exists []. split; [constructor|]. split; [|constructor]. intros p. split; [intros []|].
      intros [Pf [to P]]. exact (N0 p to P Pf). }
    destruct (N.eqb_spec c 0) as [->|Nc].
    { intros [= <-]. apply NONE. intros p to P [rest E]. inversion P; subst; cbn [app] in E; injection E as E0 _; congruence. }
    destruct (unit_at arr (N.lxor pos c)) as [u| | | |] eqn:Eu; cbn [bind]; try discriminate. apply unit_at_inv in Eu.
    destruct (N.eqb_spec (u_label u) c) as [Lc|Lc]; cbn [negb].
    2:{ intros [= <-]. apply NONE. intros p to P [rest E].
        inversion P as [f0 c0 u0 N0 H0 L0|f0 c0 u0 p0 t0 l0 N0 H0 L0 P0]; subst; cbn [app] in E; injection E as -> _;
          rewrite (has_unit_fun _ _ _ _ Eu H0) in Lc; contradiction. }
    set (p' := N.lxor (N.lxor pos c) (u_offset u)).
    assert (STEP : forall p to, path arr p' p to true -> path arr pos (c :: p) to true).
    { intros p to P. eapply path_more; eassumption. }
    assert (INV : forall x p to, path arr pos (x :: p) to true -> prefix_of (x :: p) (c :: key) ->
       x = c /\ ((p = [] /\ u_leaf u = true /\ to = p') \/ (path arr p' p to true /\ prefix_of p key))).
    { intros x p to P [rest E]. cbn [app] in E. injection E as -> ->. split; [reflexivity|].
      inversion P as [f0 c0 u0 N0 H0 L0 E0 E1 E2|f0 c0 u0 p0 t0 l0 N0 H0 L0 P0];
        assert (Eq : u0 = u) by (eapply has_unit_fun; eassumption); subst u0.
      - left. split; [reflexivity|]. split; [congruence|reflexivity].
      - right. split; [exact P0|exists rest; reflexivity]. }
    destruct (u_leaf u) eqn:Lu.
    + destruct (unit_at arr p') as [w| | | |] eqn:Ew; cbn [bind]; try discriminate. apply unit_at_inv in Ew.
      destruct (search_from arr p' key) as [rs'| | | |] eqn:Er; cbn [bind]; try discriminate. intros [= <-].
      destruct (IH p' rs' Er) as [ps [F [I S0]]].
      assert (P1 : path arr pos [c] p' true) by (unfold p'; rewrite <- Lu; now apply path_one).
      exists ([c] :: map (cons c) ps). split; [|split].
      * constructor; [exists p', w; auto|]. clear - F STEP. induction F as [|p v ps rs [to [w [A [B C]]]] F IHF]; cbn; constructor; eauto 6.
      * intros p. split.
        -- intros [<-|H].
           ++ split; [exists key; reflexivity|exists p'; exact P1].
           ++ apply in_map_iff in H as [q [<- H]]. apply I in H as [[rest ->] [to P]].
              split; [exists rest; reflexivity|exists to; auto].
        -- intros [Pf [to P]]. destruct p as [|x p]; [inversion P|].
           destruct (INV x p to P Pf) as [-> [[-> _]|[P' Pf']]]; [now left|]. right. apply in_map, I. eauto.
      * constructor.
        -- clear - S0. induction S0 as [|p ps S0 IHS F]; cbn; constructor; [exact IHS|].
           apply Forall_forall. intros q Hq. apply in_map_iff in Hq as [r [<- Hr]]. rewrite Forall_forall in F.
           specialize (F r Hr). unfold shorter in *. cbn [length]. lia.
        -- apply Forall_forall. intros q Hq. apply in_map_iff in Hq as [r [<- Hr]]. apply I in Hr as [_ [to P]].
           unfold shorter. inversion P; cbn [length]; lia.
    + intros Er. destruct (IH p' rs Er) as [ps [F [I S0]]]. exists (map (cons c) ps). split; [|split].
      * clear - F STEP. induction F as [|p v ps rs [to [w [A [B C]]]] F IHF]; cbn; constructor; eauto 6.
      * intros p. split.
        -- intros H. apply in_map_iff in H as [q [<- H]]. apply I in H as [[rest ->] [to P]].
           split; [exists rest; reflexivity|exists to; auto].
        -- intros [Pf [to P]]. destruct p as [|x p]; [inversion P|].
           destruct (INV x p to P Pf) as [-> [[_ [X _]]|[P' Pf']]]; [discriminate|]. apply in_map, I. eauto.
      * clear - S0. induction S0 as [|p ps S0 IHS F]; cbn; constructor; [exact IHS|].
        apply Forall_forall. intros q Hq. apply in_map_iff in Hq as [r [<- Hr]]. rewrite Forall_forall in F.
        specialize (F r Hr). unfold shorter in *. cbn [length]. lia.
Qed.

Lemma search_spec arr key rs : common_prefix_search arr key = Ok rs ->
  exists ps, Forall2 (entry arr) ps rs /\
    (forall p, In p ps <-> prefix_of p key /\ exists v, entry arr p v) /\ StronglySorted shorter ps.
Proof.
  unfold common_prefix_search. destruct (unit_at arr 0) as [u| | | |] eqn:Eu; cbn [bind]; try discriminate.
  apply unit_at_inv in Eu. intros E. destruct (search_from_spec arr key _ rs E) as [ps [F [I S0]]].
  exists ps. split; [|split; [|exact S0]].
  - clear - F Eu. induction F as [|p v ps rs [to [w [A [B C]]]] F IH]; constructor; [|exact IH]. exists u, to, w. auto.
  - intros p. rewrite I. split; intros [Pf H]; (split; [exact Pf|]).
    + destruct H as [to P].
      assert (Hin : In p ps) by (apply I; eauto).
      clear - F Hin Eu. induction F as [|q v ps rs [t [w [A [B C]]]] F IH]; [destruct Hin|].
      destruct Hin as [->|Hin]; [|now apply IH]. exists v, u, t, w. auto.
    + destruct H as [v [u' [to [w [A [B _]]]]]]. rewrite <- (has_unit_fun _ _ _ _ Eu A) in B. eauto.
Qed.

Lemma lxor_block (arr : list N) pos c : (exists k, length arr = (256 * k)%nat) -> (c < 256)%N ->
  (N.to_nat pos < length arr)%nat -> (N.to_nat (N.lxor pos c) < length arr)%nat.
Proof.
  intros [k E] C H. rewrite E in *.
  assert (D : (N.shiftr (N.lxor pos c) 8 = N.shiftr pos 8)%N).
  { rewrite N.shiftr_lxor. replace (N.shiftr c 8) with 0%N; [apply N.lxor_0_r|].
    symmetry. rewrite N.shiftr_div_pow2. apply N.div_small. exact C. }
  rewrite !N.shiftr_div_pow2 in D. change (2 ^ 8)%N with 256%N in D.
  assert (L1 : (pos / 256 < N.of_nat k)%N) by (apply N.div_lt_upper_bound; lia).
  assert (E2 : (N.lxor pos c = 256 * (N.lxor pos c / 256) + N.lxor pos c mod 256)%N) by (apply N.div_mod; discriminate).
  assert (M : (N.lxor pos c mod 256 < 256)%N) by (apply N.mod_lt; discriminate).
  lia.
Qed.

Lemma has_unit_ex (arr : list N) i : (N.to_nat i < length arr)%nat -> exists u, has_unit arr i u.
Proof. intros H. unfold has_unit. destruct (nth_error arr (N.to_nat i)) eqn:E; [eauto|]. apply nth_error_None in E. lia. Qed.

Lemma search_from_safe arr key : well_formed arr -> all_bytes key -> forall pos, (N.to_nat pos < length arr)%nat ->
  exists rs, search_from arr pos key = Ok rs.
Proof.
  intros [B [_ [_ W]]] K. induction K as [|c key Hc K IH]; intros pos L; cbn [search_from]; [eauto|].
  destruct (N.eqb_spec c 0); [eauto|].
  destruct (has_unit_ex arr _ (lxor_block arr pos c B Hc L)) as [u Hu]. rewrite (unit_at_ok _ _ _ Hu). cbn [bind].
  destruct (N.eqb_spec (u_label u) c) as [Lc|]; cbn [negb]; [|eauto].
  assert (L' : (N.to_nat (N.lxor (N.lxor pos c) (u_offset u)) < length arr)%nat).
  { apply W; [exact Hu|]. lia. }
  destruct (IH _ L') as [rs E]. rewrite E.
  destruct (u_leaf u); [|eauto]. destruct (has_unit_ex arr _ L') as [w Hw]. rewrite (unit_at_ok _ _ _ Hw). cbn. eauto.
Qed.

Lemma search_safe arr key : well_formed arr -> all_bytes key -> exists rs, common_prefix_search arr key = Ok rs.
Proof.
  intros W K. unfold common_prefix_search.
  assert (L : (N.to_nat 0 < length arr)%nat) by (destruct W as [_ [N0 _]]; destruct arr; [congruence|cbn; lia]).
  destruct (has_unit_ex arr 0 L) as [u Hu]. rewrite (unit_at_ok _ _ _ Hu). cbn [bind].
  apply search_from_safe; [exact W|exact K|]. apply W. exact Hu.
Qed.

Lemma search_outside arr u c key : has_unit arr 0 u -> c <> 0%N -> (length arr <= N.to_nat (N.lxor (u_offset u) c))%nat ->
  common_prefix_search arr (c :: key) = Panic.
Proof.
  intros U C L. unfold common_prefix_search. rewrite (unit_at_ok _ _ _ U). cbn [bind search_from].
  destruct (N.eqb_spec c 0); [contradiction|]. now rewrite unit_at_panic.
Qed.

(** ** Transform *)
Lemma until_nul_spec s : exists rest, s = (until_nul s ++ rest)%list /\ ~ In 0%N (until_nul s) /\
  (rest = [] \/ exists r, rest = 0%N :: r).
Proof.
  induction s as [|c s [rest [A [B C]]]]; cbn [until_nul].
  - exists []. cbn. auto.
  - destruct (N.eqb_spec c 0) as [->|N0].
    + exists (0%N :: s). cbn. split; [reflexivity|]. split; [tauto|]. right. eauto.
    + exists rest. split; [cbn; congruence|]. split; [|exact C]. intros [H|H]; [congruence|contradiction].
Qed.

Lemma transform_spec arr text chunk : well_formed arr -> values_inside arr text -> all_bytes chunk ->
  exists out, spm_transform arr text chunk = Ok out /\
    ((out = [] /\ forall p v, prefix_of p chunk -> ~ entry arr p v) \/
     exists p v, prefix_of p chunk /\ entry arr p v /\
       (forall q w, prefix_of q chunk -> entry arr q w -> (length p <= length q)%nat) /\
       exists before after, text = (before ++ out ++ after)%list /\ zlen before = v /\ ~ In 0%N out /\
         (after = [] \/ exists r, after = 0%N :: r)).
Proof.
  intros W V K. destruct (search_safe arr chunk W K) as [rs E]. unfold spm_transform. rewrite E. cbn [bind].
  destruct (search_spec arr chunk rs E) as [ps [F [I S0]]].
  destruct F as [|p v ps rs Ep F].
  - exists []. split; [reflexivity|]. left. split; [reflexivity|]. intros p v Pf En. apply (proj2 (I p)). eauto.
  - specialize (V p v Ep). destruct (Z.ltb_spec (zlen text) v); [lia|].
    exists (until_nul (skipn (Z.to_nat v) text)). split; [reflexivity|]. right. exists p, v.
    split; [apply I; now left|]. split; [exact Ep|]. split.
    + intros q w Pq Eq. assert (H0 : In q (p :: ps)) by (apply I; eauto). destruct H0 as [->|H0]; [lia|].
      inversion S0 as [|a b _ Fs]; subst. rewrite Forall_forall in Fs. specialize (Fs q H0). unfold shorter in Fs. lia.
    + destruct (until_nul_spec (skipn (Z.to_nat v) text)) as [after [A [B C]]].
      exists (firstn (Z.to_nat v) text), after. rewrite <- A, firstn_skipn. split; [reflexivity|].
      split; [|split; assumption]. unfold zlen in *. rewrite firstn_length.
      destruct Ep as [u0 [to [w [_ [_ [_ Ev]]]]]]. assert (0 <= v) by (rewrite Ev; unfold u_value; lia). lia.
Qed.

(** ** NormalizeString *)
Lemma encode_rune_byte r : scalar r -> all_bytes (encode_rune r).
Proof.
  intros S0. apply scalarb_spec in S0 as S1. unfold scalar in S0. unfold all_bytes, encode_rune.
  repeat match goal with |- context [if ?b then _ else _] => destruct b eqn:? end;
    repeat constructor; try lia;
    repeat match goal with |- context [(?a / ?b)%N] => pose proof (N.div_mod a b ltac:(discriminate)); pose proof (N.mod_lt a b ltac:(discriminate)); generalize dependent (a / b)%N; intros end;
    repeat match goal with |- context [(?a mod ?b)%N] => pose proof (N.mod_lt a b ltac:(discriminate)); generalize dependent (a mod b)%N; intros end; lia.
Qed.

Section Normalize.
  Context (mn : N -> bool) (arr : list N) (text : str).
  Notation entry_of := (short_entry arr text).
  Notation chars_of := (rewrite_chars mn arr text).

  Lemma rewrite_rune_spec r o : rewrite_rune mn arr text r = Ok o -> char_rewritten mn arr text r o.
  Proof.
    unfold rewrite_rune. destruct (spm_transform arr text (encode_rune r)) as [n| | | |] eqn:E; cbn [bind]; try discriminate.
    destruct (normalize_mn mn n) as [|x m] eqn:Em; intros [= <-].
    - eapply cr_same; eassumption.
    - rewrite <- Em. eapply cr_entry; [exact E|]. rewrite Em. discriminate.
  Qed.
  Lemma rewrite_rune_ok r o : char_rewritten mn arr text r o -> rewrite_rune mn arr text r = Ok o.
  Proof.
    intros [out E N0|out E N0]; unfold rewrite_rune; rewrite E; cbn [bind].
    - destruct (normalize_mn mn out); [congruence|reflexivity].
    - now rewrite N0.
  Qed.
  Lemma rewrite_chars_ok g outs : Forall2 (char_rewritten mn arr text) (runes (normalize_mn mn g)) outs ->
    chars_of g = Ok (concat outs).
  Proof.
    unfold rewrite_chars. intros F.
    assert (E : mapR (rewrite_rune mn arr text) (runes (normalize_mn mn g)) = Ok outs).
    { induction F as [|r o rs outs H F IH]; [reflexivity|]. cbn [mapR]. rewrite (rewrite_rune_ok _ _ H). cbn [bind].
      now rewrite IH. }
    rewrite E. reflexivity.
  Qed.

  Notation plain := (plain arr text).

  Lemma normalize_step g o rest acc : rewritten mn arr text g o ->
    (plain g /\ normalize_from mn arr text (g :: rest) acc = normalize_from mn arr text rest (acc ++ o)%list) \/
    (~ plain g /\ normalize_from mn arr text (g :: rest) acc = Ok (acc ++ o)%list).
  Proof.
    unfold SpmSpec.plain. intros [out L E N0|outs P F]; cbn [normalize_from]; unfold short_entry.
    - destruct (Z.ltb_spec (zlen g) 6); [|lia]. rewrite E. cbn [bind]. right.
      split; [intros H0; specialize (H0 L); congruence|]. destruct out; [congruence|reflexivity].
    - left. split; [exact P|].
      assert (E : (if zlen g <? 6 then spm_transform arr text g else Ok []) = Ok []).
      { destruct (Z.ltb_spec (zlen g) 6); auto. }
      rewrite E. cbn [bind]. rewrite (rewrite_chars_ok _ _ F). reflexivity.
  Qed.

  Lemma normalize_none gs outs : forall acc, Forall plain gs ->
    Forall2 (rewritten mn arr text) gs outs ->
    normalize_from mn arr text gs acc = Ok (acc ++ concat outs)%list.
  Proof.
    intros acc P F. revert acc. induction F as [|g o gs outs A F IH]; intros acc.
    - cbn. now rewrite app_nil_r.
    - inversion P as [|x y P1 P2]; subst.
      destruct (normalize_step g o gs acc A) as [[_ E]|[N0 _]]; [|contradiction].
      rewrite E, IH by exact P2. cbn [concat]. now rewrite app_assoc.
  Qed.

  Lemma normalize_stops gs outs g o post : forall acc, Forall plain gs -> ~ plain g ->
    Forall2 (rewritten mn arr text) gs outs -> rewritten mn arr text g o ->
    normalize_from mn arr text (gs ++ g :: post) acc = Ok (acc ++ concat outs ++ o)%list.
  Proof.
    intros acc P NP F G. revert acc. induction F as [|g0 o0 gs outs A F IH]; intros acc; cbn [app].
    - destruct (normalize_step g o post acc G) as [[H _]|[_ E]]; [contradiction|]. exact E.
    - inversion P as [|x y P1 P2]; subst.
      destruct (normalize_step g0 o0 (gs ++ g :: post) acc A) as [[_ E]|[N0 _]]; [|contradiction].
      rewrite E, IH by exact P2. cbn [concat]. now rewrite !app_assoc.
  Qed.

  (** Every grapheme has a rewriting. *)
  Lemma transform_bytes chunk : well_formed arr -> values_inside arr text -> all_bytes chunk ->
    exists out, spm_transform arr text chunk = Ok out.
  Proof. intros W V K. destruct (transform_spec arr text chunk W V K) as [out [E _]]. eauto. Qed.

  Lemma char_total r : well_formed arr -> values_inside arr text -> all_bytes (encode_rune r) ->
    exists o, char_rewritten mn arr text r o.
  Proof.
    intros W V K. destruct (transform_bytes _ W V K) as [out E].
    destruct (normalize_mn mn out) as [|x m] eqn:Em; eexists; [eapply cr_same|eapply cr_entry]; try exact E; congruence.
  Qed.

  Lemma rewritten_total g : well_formed arr -> values_inside arr text -> all_bytes g -> exists o, rewritten mn arr text g o.
  Proof.
    intros W V K.
    assert (B : forall r, scalar r -> all_bytes (encode_rune r)).
    { intros r S0. assert (Hr := encode_rune_byte r S0). exact Hr. }
    assert (C : exists outs, Forall2 (char_rewritten mn arr text) (runes (normalize_mn mn g)) outs).
    { pose proof (runes_scalar (normalize_mn mn g)) as F. induction F as [|r rs S0 F [outs IH]]; [exists []; constructor|].
      destruct (char_total r W V (B r S0)) as [o Ho]. exists (o :: outs). now constructor. }
    destruct C as [outs C].
    destruct (transform_bytes g W V K) as [out E].
    destruct (Z.ltb_spec (zlen g) 6) as [L|L].
    - destruct out as [|x out].
      + exists (concat outs). apply rw_chars; auto.
      + exists (x :: out). apply rw_whole; [exact L|exact E|discriminate].
    - exists (concat outs). apply rw_chars; [lia|exact C].
  Qed.
End Normalize.

(** ** The layout of a unit *)
Lemma unit_layout u : (u < 4294967296)%N ->
  (u_leaf u = true <-> unit_leaf u) /\ u_value u = Z.of_N (unit_value u) /\
  u_label u = unit_label u /\ u_offset u = unit_offset u.
Proof.
  intros L. split; [|split; [|split]].
  - unfold u_leaf, unit_leaf. rewrite N.testbit_true. reflexivity.
  - unfold u_value, unit_value. f_equal. change 0x7FFFFFFF%N with (N.ones 31). rewrite N.land_ones. reflexivity.
  - unfold u_label, unit_label. apply N.bits_inj. intros i.
    change 0x800000FF%N with (N.lor (N.ones 8) (N.shiftl 1 31)).
    assert (D : (u / 2147483648 = 0 \/ u / 2147483648 = 1)%N).
    { assert (u / 2147483648 < 2)%N by (apply N.div_lt_upper_bound; lia). lia. }
    assert (B : N.testbit u 31 = (u / 2147483648 =? 1)%N).
    { rewrite N.testbit_eqb. change (2 ^ 31)%N with 2147483648%N. destruct D as [-> | ->]; reflexivity. }
    assert (E : (u mod 256 + 2147483648 * (u / 2147483648) = N.lor (N.land u (N.ones 8)) (N.shiftl (u / 2147483648) 31))%N).
    { rewrite N.land_ones. change (2 ^ 8)%N with 256%N.
      assert (M : (u mod 256 < 2 ^ 31)%N) by (pose proof (N.mod_lt u 256 ltac:(lia)); change (2 ^ 31)%N with 2147483648%N; lia).
      rewrite N.shiftl_mul_pow2. change (2 ^ 31)%N with 2147483648%N. rewrite (N.mul_comm _ 2147483648).
      destruct D as [-> | ->].
      - rewrite N.mul_0_r, N.add_0_r, N.lor_0_r. reflexivity.
      - rewrite N.mul_1_r. rewrite <- N.lxor_lor, N.add_nocarry_lxor; try reflexivity.
        + apply N.bits_inj. intros j. rewrite N.land_spec, N.bits_0. change 2147483648%N with (2 ^ 31)%N.
          rewrite N.pow2_bits_eqb. destruct (N.eqb_spec 31 j) as [<-|]; [|apply andb_false_r].
          rewrite andb_true_r. destruct (N.testbit (u mod 256) 31) eqn:T; [|reflexivity].
          change 256%N with (2 ^ 8)%N in T. rewrite N.mod_pow2_bits_high in T by lia. discriminate.
        + apply N.bits_inj. intros j. rewrite N.land_spec, N.bits_0. change 2147483648%N with (2 ^ 31)%N.
          rewrite N.pow2_bits_eqb. destruct (N.eqb_spec 31 j) as [<-|]; [|apply andb_false_r].
          rewrite andb_true_r. destruct (N.testbit (u mod 256) 31) eqn:T; [|reflexivity].
          change 256%N with (2 ^ 8)%N in T. rewrite N.mod_pow2_bits_high in T by lia. discriminate. }
    rewrite E, N.land_lor_distr_r, !N.lor_spec. f_equal.
    rewrite N.land_spec. destruct (N.lt_ge_cases i 31) as [Li|Li].
    + rewrite !N.shiftl_spec_low by exact Li. apply andb_false_r.
    + rewrite !N.shiftl_spec_high by (auto; apply N.le_0_l).
      destruct (N.eq_dec i 31) as [->|Ni].
      * rewrite N.sub_diag, B. destruct D as [-> | ->]; reflexivity.
      * assert (Z1 : N.testbit 1 (i - 31) = false).
        { replace (i - 31)%N with (N.succ (i - 32)) by lia. change 1%N with (2 * 0 + 1)%N at 1. rewrite N.testbit_odd_succ by lia. apply N.bits_0. }
        rewrite Z1, andb_false_r. destruct D as [-> | ->]; [symmetry; apply N.bits_0|now rewrite Z1].
  - unfold u_offset, unit_offset. rewrite N.shiftr_div_pow2. change (2 ^ 10)%N with 1024%N.
    rewrite N.shiftl_mul_pow2. f_equal.
    assert (X : N.land u 512 = if N.testbit u 9 then 512%N else 0%N).
    { apply N.bits_inj. intros j. rewrite N.land_spec. change 512%N with (2 ^ 9)%N. rewrite N.pow2_bits_eqb.
      destruct (N.eqb_spec 9 j) as [<-|Nj].
      - rewrite andb_true_r. destruct (N.testbit u 9); [now rewrite N.pow2_bits_true|reflexivity].
      - rewrite andb_false_r. destruct (N.testbit u 9); [symmetry; apply N.pow2_bits_false; lia|now rewrite N.bits_0]. }
    rewrite X, N.testbit_eqb. change (2 ^ 9)%N with 512%N.
    destruct ((u / 512) mod 2 =? 1)%N; reflexivity.
Qed.
