(** Proofs that truncation, post-processing and padding return. *)
From Verif Require Import Base BaseProofs Utf8Model EncodingModel EncodingSpec EncodingProofs ProcessorModel ProcessorSpec ProcessorProofs PipelineModel PipelineSpec.
From Verif Require ReturnSpec.
Import ReturnSpec.
Local Notation fresh := ProcessorSpec.fresh.
Open Scope Z_scope.

(** Encodings as the encoder makes them, and what truncation makes of them. *)
Definition plain (e : Encoding) : Prop := parallel e /\ overflowing e = [] /\ seq_ranges e = Some [].
Definition quiet (e : Encoding) : Prop := fresh e /\ Forall (fun o => fresh o /\ overflowing o = []) (overflowing e).
Definition endable (e : Encoding) : Prop := two_parallel e /\ rangeable e.

Lemma fresh_ranges_ok e : fresh e -> ranges_ok e.
Proof. unfold ranges_ok. intros [E|E]; rewrite E; [exact I|]. intros k r []. Qed.

(** ** Merging with an encoding without ranges *)
Lemma merge_ranges_fresh n m e : fresh e -> merge_ranges n m (seq_ranges e) = Ok m.
Proof. intros [E|E]; rewrite E; reflexivity. Qed.
Lemma merge_flat_fresh g e p over : fresh p -> exists r, merge_flat e p g over = Ok r.
Proof. intros F. unfold merge_flat. rewrite merge_ranges_fresh by exact F. cbn. eauto. Qed.
Lemma merge_single g e : forall p, fresh p -> overflowing p = [] -> exists r, merge_with g e p = Ok r.
Proof.
  induction e as [e IH] using Encoding_ind'. intros p F O. rewrite merge_with_eq, O. cbn [mapR bind].
  destruct (mapR_exists_Ok (fun o => do m <- merge_with g o p; Ok [m]) (overflowing e)) as (l & E).
  { intros o Ho. rewrite Forall_forall in IH. destruct (IH o Ho p F O) as (r & E). rewrite E. cbn. eauto. }
  cbn [bind] in E |- *. rewrite E. cbn [bind]. now apply merge_flat_fresh.
Qed.
Lemma merge_quiet g e : forall p, quiet p -> exists r, merge_with g e p = Ok r.
Proof.
  induction e as [e IH] using Encoding_ind'. intros p [F Fo]. rewrite merge_with_eq. rewrite Forall_forall in IH, Fo.
  destruct (mapR_exists_Ok (fun o => do m <- merge_with g o p; do ms <- mapR (fun q => merge_with g o q) (overflowing p); Ok (m :: ms)) (overflowing e)) as (l & E).
  { intros o Ho. destruct (IH o Ho p) as (r & E); [split; [exact F|now apply Forall_forall]|]. rewrite E. cbn [bind].
    destruct (mapR_exists_Ok (fun q => merge_with g o q) (overflowing p)) as (ms & Em).
    { intros q Hq. destruct (Fo q Hq). now apply merge_single. }
    rewrite Em. cbn. eauto. }
  rewrite E. cbn [bind].
  destruct (mapR_exists_Ok (fun q => merge_with g e q) (overflowing p)) as (ms & Em).
  { intros q Hq. destruct (Fo q Hq). now apply merge_single. }
  rewrite Em. cbn [bind]. now apply merge_flat_fresh.
Qed.

(** ** Truncation *)
Lemma plain_endable e : plain e -> endable e /\ quiet e.
Proof.
  intros (P & O & Sr). unfold endable, two_parallel, rangeable, quiet. rewrite O, Sr. split; [|split; [right; exact Sr|constructor]].
  split; [split; [exact P|constructor]|]. split; [right; discriminate|]. split; [apply fresh_ranges_ok; now right|constructor].
Qed.
Lemma truncate_plain e m s : plain e -> 0 <= s -> exists r, truncate_ignoring_error e m s = Ok r /\ endable r /\ quiet r.
Proof.
  intros Pl Hs. pose proof Pl as (P & O & Sr). unfold truncate_ignoring_error.
  assert (Keep : exists r, Ok e = Ok r /\ endable r /\ quiet r) by (exists e; destruct (plain_endable e Pl); auto).
  destruct ((m <=? s) || (m =? 0))%bool eqn:E1.
  { unfold truncate. rewrite E1. exact Keep. }
  destruct (zlen (ids e) <=? m) eqn:E2.
  { unfold truncate. rewrite E1, E2. exact Keep. }
  destruct (truncate_long e (Z.to_nat m) (Z.to_nat s)) as (k & Hk & K0 & K1 & K2); [exact P|lia|unfold zlen in E2; lia|].
  rewrite !Z2Nat.id in Hk by lia. rewrite Hk. cbn [bind fst]. eexists. split; [reflexivity|].
  set (wins := map _ _).
  assert (W : Forall (fun o => 0 < enc_len o /\ parallel o /\ overflowing o = [] /\ seq_ranges o = None) wins).
  { unfold wins. apply Forall_forall. intros o Ho. apply in_map_iff in Ho as (j & <- & Hj). apply in_seq in Hj. split; [|split; [|split; reflexivity]].
    - unfold enc_len, zlen, enc_window. cbn [ids]. rewrite window_length. nia.
    - pose proof (parallel_window e (S j * (Z.to_nat m - Z.to_nat s))%nat (Z.to_nat m) P) as D. now inversion D. }
  clearbody wins. clear Hk. unfold endable, two_parallel, rangeable, quiet, enc_prefix. cbn [overflowing seq_ranges]. rewrite Sr. split; [split; [split|split; [|split]]|split].
  - destruct P as (P1 & P2 & P3 & P4 & P5 & P6). unfold parallel. cbn. rewrite !firstn_length. repeat split; congruence.
  - eapply Forall_impl; [|exact W]. cbn. tauto.
  - right. discriminate.
  - unfold ranges_ok. cbn. intros k' r [].
  - eapply Forall_impl; [|exact W]. cbn. intros o (L & _ & O' & S'). rewrite O'. split; [now left|]. split; [apply fresh_ranges_ok; now left|constructor].
  - right. reflexivity.
  - eapply Forall_impl; [|exact W]. cbn. intros o (L & _ & O' & S'). split; [now left|exact O'].
Qed.
Lemma truncation_returns proc trunc e pair add : plain e -> (forall p, pair = Some p -> plain p) ->
  returning_truncation (is_pair pair) (count_of proc (is_pair pair) add) trunc ->
  exists e' pair', post_truncate proc trunc e pair add = Ok (e', pair') /\ is_pair pair' = is_pair pair /\ endable e' /\
    (forall p, pair' = Some p -> endable p /\ quiet p).
Proof.
  intros Pe Pp R. assert (Pp' : forall p, pair = Some p -> endable p /\ quiet p) by (intros p Hp; apply plain_endable; auto).
  destruct (plain_endable e Pe) as [Ee Qe].
  assert (Keep : exists e' pair', Ok (e, pair) = Ok (e', pair') /\ is_pair pair' = is_pair pair /\ endable e' /\ (forall p, pair' = Some p -> endable p /\ quiet p)).
  { exists e, pair. auto. }
  destruct trunc as [t|]; [|exact Keep]. rewrite post_truncate_limit. cbn [returning_truncation] in R. destruct R as [Hs R]. unfold truncate_encodings.
  set (m := tr_max t - _) in *. destruct (m =? 0) eqn:E0; [exact Keep|]. set (nSec := match pair with Some p => enc_len p | None => 0 end).
  destruct (enc_len e + nSec <? m) eqn:E1; [exact Keep|]. destruct (tr_strategy t) eqn:Est.
  - destruct (longest_first_loop _ _ _) as [n1 n2]. destruct (truncate_plain e n1 _ Pe Hs) as (e' & T1 & A1 & _). rewrite T1. cbn [bind].
    destruct pair as [p|].
    + destruct (truncate_plain p n2 _ (Pp p eq_refl) Hs) as (p' & T2 & A2 & B2). rewrite T2. cbn [bind]. exists e', (Some p').
      split; [reflexivity|]. split; [reflexivity|]. split; [exact A1|]. intros q [= <-]. auto.
    + exists e', None. split; [reflexivity|]. split; [reflexivity|]. split; [exact A1|]. discriminate.
  - destruct R as [Np R]. destruct pair as [p|]; [discriminate|]. subst nSec. rewrite Z.add_0_r in *.
    assert (L : enc_len e - m < enc_len e) by (subst m; cbn [is_pair] in *; lia). apply Z.ltb_lt in L. rewrite L.
    destruct (truncate_plain e (enc_len e - (enc_len e - m)) _ Pe Hs) as (e' & T1 & A1 & _). rewrite T1. cbn [bind]. exists e', None.
    split; [reflexivity|]. split; [reflexivity|]. split; [exact A1|]. discriminate.
  - contradiction.
Qed.

(** ** Processors *)
Lemma deep_rangeable e : deep_ranges e -> rangeable e.
Proof.
  intros D. inversion D as [? D1 D2 D3]; subst. split; [now right|]. split; [exact D2|]. eapply Forall_impl; [|exact D3].
  intros o Do. inversion Do as [? X1 X2 X3]; subst. auto.
Qed.
Lemma default_returns e pair : (forall p, pair = Some p -> quiet p) -> exists r, default_process e pair = Ok r.
Proof. intros Q. destruct pair as [p|]; cbn; [apply merge_quiet; now apply Q|eauto]. Qed.
Lemma offsets_quiet prefix p p' : quiet p -> process_all_offsets prefix p = Ok p' -> quiet p'.
Proof.
  intros [F Fo] H. unfold process_all_offsets in H. apply bind_Ok_inv in H as (e1 & H1 & H). apply bind_Ok_inv in H as (over & H2 & H). injection H as <-.
  unfold process_offsets in H1. apply bind_Ok_inv in H1 as (o & _ & H1). injection H1 as <-. cbn [overflowing set_offsets] in H2. split.
  - exact F.
  - cbn [overflowing set_overflowing]. apply mapR_Ok_Forall2 in H2. clear F. induction H2 as [|x y l l' H F IH]; [constructor|].
    inversion Fo as [|? ? [A B] C]; subst. constructor; [|now apply IH]. unfold process_offsets in H. apply bind_Ok_inv in H as (z & _ & H). injection H as <-. auto.
Qed.
Lemma byte_level_end prefix trim e pair add : endable e -> (forall p, pair = Some p -> endable p) ->
  exists r, process (PByteLevel prefix trim) e pair add = Ok (Some r) /\ endable r.
Proof.
  intros [P R] Q. cbn [process]. unfold bytelevel_process. rewrite prepare_encodings_ok. cbn [bind].
  assert (X : forall i x, endable x -> exists x', (if trim then process_all_offsets prefix (prepared i x) else Ok (prepared i x)) = Ok x' /\ deep_ranges x' /\ two_parallel x').
  { intros i x [Px Rx]. destruct trim.
    - destruct (process_all_offsets_trimmed prefix _ (prepared_parallel i x Px)) as (x' & E & T & P' & _). exists x'. split; [exact E|]. split; [|exact P'].
      eapply process_all_offsets_ranges; [|exact E|]; [now apply prepared_parallel|now apply prepared_ranges].
    - exists (prepared i x). split; [reflexivity|]. split; [now apply prepared_ranges|now apply prepared_parallel]. }
  destruct (X 0 e (conj P R)) as (e' & E1 & D1 & P1). destruct pair as [p|].
  - destruct (X 1 p (Q p eq_refl)) as (p' & E2 & D2 & P2).
    assert (M : (if trim then mapR (process_all_offsets prefix) [prepared 0 e; prepared 1 p] else Ok [prepared 0 e; prepared 1 p]) = Ok [e'; p']).
    { destruct trim; [cbn [mapR]; now rewrite E1, E2|]. congruence. }
    rewrite M. cbn [bind].
    destruct (merges_same [p'] e' e' [p'] D1) as (r & E & S0 & Dr).
    + now constructor.
    + apply same_refl.
    + constructor; [apply same_refl|constructor].
    + rewrite E. cbn [bind]. exists r. split; [reflexivity|]. split; [|now apply deep_rangeable].
      apply (two_parallel_same _ _ S0), joined_parallel; [exact P1|now constructor].
  - assert (M : (if trim then mapR (process_all_offsets prefix) [prepared 0 e] else Ok [prepared 0 e]) = Ok [e']).
    { destruct trim; [cbn [mapR]; now rewrite E1|]. congruence. }
    rewrite M. cbn [bind foldR]. exists e'. split; [reflexivity|]. split; [exact P1|now apply deep_rangeable].
Qed.
Lemma template_end single both toks e pair add ty : endable e -> (forall p, pair = Some p -> endable p) ->
  In (PSeq false ty) (template_of single both pair) -> Forall (available toks pair add) (template_of single both pair) ->
  exists r, process (PTemplate single both toks) e pair add = Ok (Some r).
Proof.
  intros [P R] Q Hin F. destruct (template_cases single both toks e pair add R (fun q H => proj2 (Q q H))) as [A _]. specialize (A F). cbv zeta in A.
  destruct (flat_map _ _) as [|x l] eqn:E; [|destruct A as (r & A & _); eauto]. exfalso.
  assert (I : In (retyped ty e) (flat_map (piece_parts toks e pair add) (template_of single both pair))) by (apply in_flat_map; eexists; split; [exact Hin|now left]).
  rewrite E in I. exact I.
Qed.
Lemma processor_end pair add p : returning_processor (is_pair pair) add p -> forall e, endable e -> (forall q, pair = Some q -> endable q /\ quiet q) ->
  exists r, process p e pair add = Ok (Some r).
Proof.
  intros H e Ee Ep. assert (Ep1 : forall q, pair = Some q -> endable q) by (intros; now apply Ep). assert (Ep2 : forall q, pair = Some q -> quiet q) by (intros; now apply Ep).
  revert e Ee. induction H as [cls sep|cls sep prefix|prefix trim|single both toks ty Hin F|front q F H IH]; intros e Ee.
  - destruct add.
    + destruct (bert_framed cls sep e pair) as (r & E & _). eauto.
    + cbn [process]. unfold bert_process. cbn [negb]. destruct (default_returns e pair Ep2) as (r & E). rewrite E. cbn. eauto.
  - destruct Ee as [P R]. destruct add.
    + destruct (roberta_framed cls sep prefix e pair P) as (r & _ & _ & E & _); [intros p Hp; apply (Ep1 p Hp)|]. eauto.
    + cbn [process]. unfold roberta_process. destruct (process_all_offsets_trimmed prefix e P) as (e1 & E1 & _). rewrite E1. cbn [bind negb].
      destruct pair as [p|].
      * destruct (process_all_offsets_trimmed prefix p) as (p1 & E2 & _); [apply (Ep1 p eq_refl)|]. rewrite E2. cbn [bind].
        destruct (default_returns e1 (Some p1)) as (r & E); [intros x [= <-]; exact (offsets_quiet prefix p p1 (Ep2 p eq_refl) E2)|]. rewrite E. cbn. eauto.
      * cbn. eauto.
  - destruct (byte_level_end prefix trim e pair add Ee Ep1) as (r & E & _). eauto.
  - apply (template_end single both toks e pair add ty Ee Ep1).
    + destruct pair; exact Hin.
    + replace (template_of single both pair) with (if is_pair pair then both else single) by now destruct pair.
      eapply Forall_impl; [|exact F]. intros [b ty'|id ty'] Hq; cbn; [|exact Hq]. intros Hb. specialize (Hq Hb). now destruct pair.
  - rewrite sequence_run. assert (G : forall e, endable e -> exists e', run_all front (Some e) pair add = Ok (Some e') /\ endable e').
    { clear -F Ep1. induction F as [|x l (prefix & trim & ->) F IH]; intros e Ee; [exists e; auto|].
      cbn [run_all]. destruct (byte_level_end prefix trim e pair add Ee Ep1) as (r & E & Er). rewrite E. cbn [bind]. now apply IH. }
    destruct (G e Ee) as (e' & E' & Ee'). rewrite run_all_app, E'. cbn [bind run_all]. destruct (IH e' Ee') as (r & E). rewrite E. cbn. eauto.
Qed.

(** ** The whole ending *)
Lemma padding_end d r : pd_dir d = PRight -> exists x, pad_encodings [r] (pd_strategy d) (pd_dir d) (pd_id d) (pd_type d) (pd_token d) = Ok [x].
Proof. intros E. rewrite E. erewrite pad_encodings_right; [|discriminate|reflexivity]. cbn [map]. eauto. Qed.
Lemma post_returns proc trunc padding e pair add : plain e -> (forall p, pair = Some p -> plain p) ->
  with_default (returning_processor (is_pair pair) add) proc -> returning_truncation (is_pair pair) (count_of proc (is_pair pair) add) trunc -> returning_padding padding ->
  exists r, post_process proc trunc padding e pair add = Ok (Some r).
Proof.
  intros Pe Pp Hp Ht Hd. unfold post_process. destruct (truncation_returns proc trunc e pair add Pe Pp Ht) as (e' & pair' & T & Ip & Ee & Epp). rewrite T. cbn [bind fst snd].
  assert (X : exists r, match proc with None => do r <- default_process e' pair'; Ok (Some r) | Some p => process p e' pair' add end = Ok (Some r)).
  { destruct proc as [p|].
    - cbn [with_default] in Hp. rewrite <- Ip in Hp. exact (processor_end pair' add p Hp e' Ee Epp).
    - destruct (default_returns e' pair') as (r & E); [intros q Hq; now apply Epp|]. rewrite E. cbn. eauto. }
  destruct X as (r & X). rewrite X. cbn [bind]. destruct padding as [d|]; [|eauto]. cbn in Hd. destruct (padding_end d r Hd) as (x & E). rewrite E. cbn. eauto.
Qed.
