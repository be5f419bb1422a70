(** Proofs about the decoders. *)
From Verif Require Import Base BaseProofs Utf8Model Utf8Proofs PatternModel BpeModel BpeSaveModel BpeSaveProofs
  AddedVocabModel DecoderModel DecoderSpec.
Open Scope Z_scope.

(** ** Characters *)

Lemma explode_cons s : s <> [] ->
  explode s = firstn (snd (decode_rune s)) s :: explode (skipn (snd (decode_rune s)) s).
Proof. intros H. unfold explode. rewrite (runes_w_cons s H). reflexivity. Qed.

Lemma explode_characters s : characters s (explode s).
Proof.
  remember (length s) as n eqn:En. revert s En. induction n as [n IH] using lt_wf_ind; intros s En.
  destruct s as [|c t] eqn:E; [constructor|]. rewrite <- E in *. assert (Hs : s <> []) by congruence.
  rewrite explode_cons by exact Hs. constructor; [exact Hs|].
  pose proof (decode_width s Hs) as W. eapply IH; [|reflexivity]. rewrite skipn_length. lia.
Qed.

Lemma characters_fun s l1 l2 : characters s l1 -> characters s l2 -> l1 = l2.
Proof.
  intros H; revert l2; induction H as [|s l Hs H IH]; intros l2 H2; inversion H2; subst; try congruence.
  f_equal. auto.
Qed.

Lemma characters_concat s l : characters s l -> concat l = s.
Proof.
  induction 1 as [|s l Hs H IH]; [reflexivity|]. cbn [concat]. rewrite IH. apply firstn_skipn.
Qed.

Lemma explode_concat s : concat (explode s) = s.
Proof. apply characters_concat, explode_characters. Qed.

Lemma explode_encode_app rs s : Forall scalar rs -> explode (encode rs ++ s) = map encode_rune rs ++ explode s.
Proof.
  induction 1 as [|r rs Hr Hrs IH]; [reflexivity|].
  rewrite encode_cons, <- app_assoc. rewrite explode_cons.
  2:{ pose proof (encode_rune_nonempty r). destruct (encode_rune r); [congruence|discriminate]. }
  rewrite decode_encode by exact Hr. cbn [snd].
  rewrite firstn_app, firstn_all, Nat.sub_diag, skipn_app, skipn_all, Nat.sub_diag. cbn [firstn skipn app].
  rewrite app_nil_r, IH. reflexivity.
Qed.

Lemma explode_encode rs : Forall scalar rs -> explode (encode rs) = map encode_rune rs.
Proof.
  intros H. rewrite <- (app_nil_r (encode rs)), explode_encode_app by exact H. change (explode []) with (@nil str).
  apply app_nil_r.
Qed.

(** ** Replacement *)

Lemma starts_with_iff p s : starts_with p s = true <-> exists t, s = p ++ t.
Proof.
  revert s; induction p as [|x p IH]; intros s; cbn.
  - split; [intros _; exists s; reflexivity|reflexivity].
  - destruct s as [|y s].
    + split; [discriminate|intros (t & E); discriminate].
    + rewrite andb_true_iff, N.eqb_eq, IH. split.
      * intros (-> & t & ->). exists t. reflexivity.
      * intros (t & E). injection E as -> ->. split; [reflexivity|exists t; reflexivity].
Qed.

Lemma replaced_cons old new c s s' : starts_with old (c :: s) = false -> replaced old new s s' ->
  replaced old new (c :: s) (c :: s').
Proof.
  intros H R. assert (N0 : forall t, c :: s <> old ++ t).
  { intros t E. assert (starts_with old (c :: s) = true) by (apply starts_with_iff; exists t; exact E). congruence. }
  destruct R as [s Hn|a b b' Hl R].
  - apply rep_none. intros (a & b & E). destruct a as [|x a]; cbn [app] in E.
    + exact (N0 b E).
    + injection E as -> ->. apply Hn. exists a, b. reflexivity.
  - apply (rep_some old new (c :: a) b b'); [|exact R].
    intros a1 b1 E. destruct a1 as [|x a1]; cbn [app] in E.
    + exfalso. exact (N0 b1 E).
    + injection E as E1 E2. cbn [length]. apply Hl in E2. lia.
Qed.

Lemma replace_f_spec fuel old new : old <> [] -> forall s, (length s <= fuel)%nat ->
  replaced old new s (replace_f fuel old new s).
Proof.
  intros Ho. assert (Ln : (0 < length old)%nat) by (destruct old; [congruence|cbn; lia]).
  assert (R0 : replaced old new [] []).
  { apply rep_none. intros (a & b & E). apply (f_equal (@length N)) in E. rewrite !app_length in E. cbn in E. lia. }
  induction fuel as [|fuel IH]; intros s Hs; cbn [replace_f].
  - destruct s; [exact R0|cbn in Hs; lia].
  - destruct s as [|c s]; [exact R0|].
    destruct (starts_with old (c :: s)) eqn:E.
    + apply starts_with_iff in E. destruct E as (t & E). rewrite E.
      rewrite skipn_app, skipn_all, Nat.sub_diag. cbn [skipn app].
      apply (rep_some old new [] t); [intros; cbn; lia|]. apply IH.
      apply (f_equal (@length N)) in E. rewrite app_length in E. cbn in *. lia.
    + apply replaced_cons; [exact E|]. apply IH. cbn in Hs. lia.
Qed.

Lemma replace_all_spec old new s : old <> [] -> replaced old new s (replace_all s old new).
Proof.
  intros H. unfold replace_all. destruct old as [|x old]; [congruence|]. apply replace_f_spec; [exact H|lia].
Qed.

Lemma app_same_length {A} (a1 a2 b1 b2 : list A) : length a1 = length a2 -> a1 ++ b1 = a2 ++ b2 -> a1 = a2 /\ b1 = b2.
Proof.
  revert a2; induction a1 as [|x a1 IH]; intros [|y a2] L E; try discriminate L.
  - split; [reflexivity|exact E].
  - cbn [app] in E. injection E as -> E. destruct (IH a2) as (-> & ->); [cbn in L; lia|exact E|auto].
Qed.

Lemma replaced_fun old new s s1 s2 : replaced old new s s1 -> replaced old new s s2 -> s1 = s2.
Proof.
  intros H; revert s2; induction H as [s Hn|a b b' Hl R IH]; intros s2 H2.
  - inversion H2 as [|a b b' _ _ E]; subst; [reflexivity|]. exfalso. apply Hn. exists a, b. reflexivity.
  - remember (a ++ old ++ b) as s eqn:Es. destruct H2 as [s Hn|a2 b2 b2' Hl2 R2].
    + exfalso. apply Hn. exists a, b. exact Es.
    + assert (La : length a = length a2).
      { pose proof (Hl _ _ eq_refl). pose proof (Hl2 _ _ Es). lia. }
      symmetry in Es. destruct (app_same_length _ _ _ _ La Es) as (-> & E).
      apply app_inv_head in E. subst b2. rewrite (IH _ R2). reflexivity.
Qed.

Lemma replace_all_empty_new s : replace_all s [] [] = s.
Proof.
  unfold replace_all. rewrite app_nil_r.
  change (map (fun c : str => [] ++ c) (explode s)) with (map (fun c : str => c) (explode s)).
  rewrite map_id. apply explode_concat.
Qed.

Lemma cleanup_spec t : replaced_all artifacts t (cleanup t).
Proof.
  unfold cleanup. change cleanup_rules with artifacts.
  assert (H : Forall (fun r => fst r <> []) artifacts) by (repeat constructor; discriminate).
  revert H t. generalize artifacts. intros rules H. induction H as [|[o n] rules Ho H IH]; intros t.
  - constructor.
  - cbn [fold_left fst snd]. econstructor; [apply replace_all_spec, Ho|apply IH].
Qed.

Lemma replaced_all_fun rules s s1 s2 : replaced_all rules s s1 -> replaced_all rules s s2 -> s1 = s2.
Proof.
  intros H; revert s2; induction H as [s|o n rules a b c R H IH]; intros s2 H2; inversion H2 as [|? ? ? ? b2 ? R2 H3]; subst; [reflexivity|].
  apply IH. rewrite (replaced_fun _ _ _ _ _ R R2). assumption.
Qed.

(** ** BPE *)

Lemma bpe_chain_spec suffix : suffix <> [] -> forall toks, bpe_decoded suffix toks (bpe_chain suffix toks).
Proof.
  intros Hs. induction toks as [|t toks IH]; cbn [bpe_chain]; [constructor|].
  destruct toks as [|u toks].
  - apply bpd_last, replace_all_spec, Hs.
  - apply bpd_cons; [discriminate|apply replace_all_spec, Hs|exact IH].
Qed.

Lemma bpe_decoded_fun suffix toks o1 o2 : bpe_decoded suffix toks o1 -> bpe_decoded suffix toks o2 -> o1 = o2.
Proof.
  intros H; revert o2; induction H as [|t t' R|t t' ts out Hne R H IH]; intros o2 H2; inversion H2; subst; try congruence.
  - f_equal. eapply replaced_fun; eassumption.
  - f_equal; [eapply replaced_fun; eassumption|auto].
Qed.

(** ** WordPiece *)

Lemma cleaned_spec (clean : bool) t : cleaned clean t (if clean then cleanup t else t).
Proof. destruct clean; [apply cleanup_spec|reflexivity]. Qed.

Lemma wp_piece_spec prefix t : wp_piece prefix t (if starts_with prefix t then skipn (length prefix) t else SP :: t).
Proof.
  destruct (starts_with prefix t) eqn:E.
  - apply starts_with_iff in E. destruct E as (u & ->).
    rewrite skipn_app, skipn_all, Nat.sub_diag. apply wpp_cont.
  - apply wpp_word. intros t' ->. rewrite starts_with_app in E. discriminate.
Qed.

Lemma wpd_chain_spec prefix clean toks : wp_decoded prefix clean toks (wpd_chain prefix clean toks).
Proof.
  destruct toks as [|t toks]; cbn [wpd_chain]; [constructor|].
  apply wpd_cons with (mids := map (fun t => if starts_with prefix t then skipn (length prefix) t else SP :: t) toks).
  - apply cleaned_spec.
  - induction toks; constructor; [apply wp_piece_spec|assumption].
  - induction toks; constructor; [apply cleaned_spec|assumption].
Qed.

Lemma wp_piece_fun prefix t a b : wp_piece prefix t a -> wp_piece prefix t b -> a = b.
Proof.
  intros H1 H2. destruct H1 as [t|t N1]; inversion H2 as [u E|u N2 E]; subst.
  - symmetry. eapply app_inv_head; eassumption.
  - exfalso. exact (N2 t eq_refl).
  - exfalso. eapply N1; reflexivity.
  - reflexivity.
Qed.

(** ** CTC *)

Lemma repeat_dedup t n ts : dedup t (repeat t n ++ ts) = dedup t ts.
Proof. induction n as [|n IH]; cbn [repeat app dedup]; [reflexivity|]. rewrite str_eqb_refl. exact IH. Qed.

Lemma dedup_runs toks l : runs_of toks l -> forall prev, (forall ts, toks <> prev :: ts) -> dedup prev toks = l.
Proof.
  induction 1 as [|t n ts l Hh H IH]; intros prev Hp; [reflexivity|].
  cbn [repeat app dedup].
  assert (E : str_eqb t prev = false).
  { apply str_eqb_neq. intros ->. exact (Hp _ eq_refl). }
  rewrite E, repeat_dedup, IH; [reflexivity|exact Hh].
Qed.

Lemma runs_of_total toks : exists l, runs_of toks l.
Proof.
  induction toks as [|t toks (l & IH)]; [exists []; constructor|].
  destruct IH as [|u n ts l Hh H].
  - exists [t]. apply (ro_cons t 0 [] []); [discriminate|constructor].
  - destruct (str_eq_dec t u) as [->|Hn].
    + exists (u :: l). apply (ro_cons u (S n) ts l Hh H).
    + exists (t :: u :: l). apply (ro_cons t 0 (repeat u (S n) ++ ts) (u :: l)).
      * intros ts' E. cbn in E. congruence.
      * constructor; assumption.
Qed.

Lemma dedup_runs_nil toks l : runs_of toks l ->
  dedup [] toks = match l with [] :: l' => l' | _ => l end.
Proof.
  intros H. destruct H as [|t n ts l Hh H]; [reflexivity|].
  destruct t as [|c t].
  - cbn [repeat app dedup]. cbn [str_eqb]. rewrite repeat_dedup. apply dedup_runs; assumption.
  - apply dedup_runs; [constructor; assumption|]. intros ts' E. discriminate E.
Qed.

Definition nonempty (t : str) : bool := match t with [] => false | _ => true end.

Lemma ctc_token_spec pad delim clean t : pad <> [] -> (clean = true -> delim <> []) ->
  ctc_decoded pad delim clean t (ctc_token pad delim clean t).
Proof.
  intros Hp Hd. exists (replace_all t pad []). split; [apply replace_all_spec, Hp|].
  unfold ctc_token. destruct clean; [|reflexivity].
  exists (cleanup (replace_all t pad [])). split; [apply cleanup_spec|apply replace_all_spec, Hd; reflexivity].
Qed.

Lemma ctc_token_nil pad delim clean : pad <> [] -> (clean = true -> delim <> []) -> ctc_token pad delim clean [] = [].
Proof.
  intros Hp Hd. unfold ctc_token. destruct pad as [|p pad]; [congruence|].
  change (replace_all [] (p :: pad) []) with (@nil N). destruct clean; [|reflexivity].
  destruct delim as [|d delim]; [exfalso; apply Hd; reflexivity|]. reflexivity.
Qed.

Lemma ctc_chain_spec pad delim clean toks l : pad <> [] -> (clean = true -> delim <> []) -> runs_of toks l ->
  exists outs, Forall2 (ctc_decoded pad delim clean) l outs /\
    ctc_chain pad delim clean toks = filter nonempty outs.
Proof.
  intros Hp Hd H. exists (map (ctc_token pad delim clean) l). split.
  - clear H. induction l; constructor; [apply ctc_token_spec; assumption|assumption].
  - unfold ctc_chain. rewrite (dedup_runs_nil toks l H). fold nonempty.
    destruct l as [|[|c t] l]; [reflexivity| |reflexivity].
    cbn [map filter]. rewrite ctc_token_nil by assumption. reflexivity.
Qed.

(** ** Strip *)

Lemma strip_start_spec content chars n : forall i, (i <= length chars)%nat ->
  match strip_start content n i chars with
  | Ok j => (i <= j <= i + n)%nat /\ (j <= length chars)%nat /\
            (forall k, (i <= k < j)%nat -> nth_error chars k = Some content) /\
            ((j < i + n)%nat -> exists c, nth_error chars j = Some c /\ c <> content)
  | Panic => (length chars < i + n)%nat /\ forall k, (i <= k < length chars)%nat -> nth_error chars k = Some content
  | _ => False
  end.
Proof.
  induction n as [|n IH]; intros i Hi; cbn [strip_start].
  - split; [lia|]. split; [exact Hi|]. split; intros; lia.
  - destruct (nth_error chars i) as [c|] eqn:E.
    + assert (Hl : (i < length chars)%nat) by (apply nth_error_Some; congruence).
      destruct (str_eqb c content) eqn:Ec.
      * apply str_eqb_eq in Ec. subst c. specialize (IH (S i) Hl).
        destruct (strip_start content n (S i) chars) as [j| | | |]; try contradiction.
        -- destruct IH as (A & B & C & D). split; [lia|]. split; [exact B|]. split.
           ++ intros k Hk. destruct (Nat.eq_dec k i) as [->|]; [exact E|]. apply C. lia.
           ++ intros H. apply D. lia.
        -- destruct IH as (A & C). split; [lia|]. intros k Hk.
           destruct (Nat.eq_dec k i) as [->|]; [exact E|]. apply C. lia.
      * apply str_eqb_neq in Ec. split; [lia|]. split; [lia|]. split; [intros; lia|].
        intros _. exists c. auto.
    + apply nth_error_None in E. split; [lia|]. intros; lia.
Qed.

Lemma nth_error_rev {A} (l : list A) k : (k < length l)%nat -> nth_error (rev l) k = nth_error l (length l - S k)%nat.
Proof.
  intros H. destruct l as [|d l'] eqn:E; [cbn in H; lia|]. rewrite <- E in *.
  rewrite (nth_error_nth' (rev l) d) by (rewrite rev_length; exact H).
  rewrite (nth_error_nth' l d) by lia. rewrite rev_nth by exact H. reflexivity.
Qed.

Lemma Forall_nth_error {A} (P : A -> Prop) (l : list A) :
  (forall k, (k < length l)%nat -> exists c, nth_error l k = Some c /\ P c) -> Forall P l.
Proof.
  intros H. apply Forall_forall. intros x Hx. apply In_nth_error in Hx. destruct Hx as (k & E).
  destruct (H k) as (c & E' & Pc); [apply nth_error_Some; congruence|]. congruence.
Qed.

Lemma nth_error_skipn' {A} (l : list A) a k : nth_error (skipn a l) k = nth_error l (a + k)%nat.
Proof. revert l; induction a as [|a IH]; intros l; [reflexivity|]. destruct l; [destruct k; reflexivity|apply IH]. Qed.

Lemma nth_error_firstn' {A} (l : list A) a k : (k < a)%nat -> nth_error (firstn a l) k = nth_error l k.
Proof.
  revert l k; induction a as [|a IH]; intros l k H; [lia|]. destruct l; [destruct k; reflexivity|].
  destruct k; [reflexivity|]. cbn. apply IH. lia.
Qed.

Lemma skipn_plus {A} (a c : nat) (l : list A) : skipn (a + c) l = skipn c (skipn a l).
Proof. revert l; induction a as [|a IH]; intros l; [reflexivity|]. destruct l; [destruct c; reflexivity|apply IH]. Qed.

Lemma cut_three {A} (l : list A) a b : (a + b <= length l)%nat ->
  firstn a l ++ firstn (length l - a - b) (skipn a l) ++ skipn (length l - b) l = l.
Proof.
  intros H. transitivity (firstn a l ++ skipn a l); [|apply firstn_skipn]. f_equal.
  replace (skipn (length l - b) l) with (skipn (length l - a - b) (skipn a l)); [apply firstn_skipn|].
  rewrite <- skipn_plus. f_equal. lia.
Qed.

Lemma cut_tail {A} (l : list A) a b : (a + b <= length l)%nat ->
  firstn (length l - a - b) (skipn a l) ++ skipn (length l - b) l = skipn a l.
Proof.
  intros H. replace (skipn (length l - b) l) with (skipn (length l - a - b) (skipn a l)); [apply firstn_skipn|].
  rewrite <- skipn_plus. f_equal. lia.
Qed.

Lemma cut_head {A} (l : list A) a b : (a + b <= length l)%nat ->
  firstn a l ++ firstn (length l - a - b) (skipn a l) = firstn (length l - b) l.
Proof.
  intros H. rewrite <- (firstn_skipn (length l - b) l) at 2 3.
  revert b H. revert l. induction a as [|a IH]; intros l b H.
  - cbn [firstn skipn app]. rewrite Nat.sub_0_r.
    rewrite firstn_skipn. reflexivity.
  - destruct l as [|x l]; [cbn in H; lia|]. cbn [length] in *.
    replace (S (length l) - b)%nat with (S (length l - b)) by lia.
    cbn [firstn skipn app]. rewrite !firstn_skipn in *. f_equal.
    specialize (IH l b). rewrite !firstn_skipn in IH. apply IH. lia.
Qed.

Lemma zslice_three {A} (l : list A) (a b : nat) : (a + b <= length l)%nat ->
  zslice l (Z.of_nat a) (zlen l - Z.of_nat b) = Ok (firstn (length l - a - b) (skipn a l)).
Proof.
  intros H. unfold zslice, zlen.
  replace ((0 <=? Z.of_nat a) && (Z.of_nat a <=? Z.of_nat (length l) - Z.of_nat b) &&
           (Z.of_nat (length l) - Z.of_nat b <=? Z.of_nat (length l))) with true.
  2:{ symmetry. rewrite !andb_true_iff, !Z.leb_le. lia. }
  do 2 f_equal; [|f_equal]; lia.
Qed.

Lemma zslice_crossed {A} (l : list A) (a b : nat) : (length l < a + b)%nat ->
  zslice l (Z.of_nat a) (zlen l - Z.of_nat b) = Panic.
Proof.
  intros H. unfold zslice, zlen.
  replace ((0 <=? Z.of_nat a) && (Z.of_nat a <=? Z.of_nat (length l) - Z.of_nat b) &&
           (Z.of_nat (length l) - Z.of_nat b <=? Z.of_nat (length l))) with false; [reflexivity|].
  symmetry. apply andb_false_iff. left. apply andb_false_iff. right. apply Z.leb_gt. lia.
Qed.

Lemma strip_token_spec content start stop t :
  match strip_token content start stop t with
  | Ok t' => stripped content (Z.to_nat start) (Z.to_nat stop) t t' /\ ~ too_short content (Z.to_nat start) (Z.to_nat stop) t
  | Panic => too_short content (Z.to_nat start) (Z.to_nat stop) t
  | _ => False
  end.
Proof.
  unfold strip_token, strip_stop. set (chars := explode t). set (m := Z.to_nat start). set (n := Z.to_nat stop).
  pose proof (strip_start_spec content chars m 0 (Nat.le_0_l _)) as A.
  pose proof (strip_start_spec content (rev chars) n 0 (Nat.le_0_l _)) as B.
  rewrite rev_length in B.
  assert (TS : too_short content m n t <-> Forall (eq content) chars /\ (length chars < m + n)%nat).
  { split.
    - intros (l & Hl & F). rewrite (characters_fun _ _ _ Hl (explode_characters t)) in F. exact F.
    - intros F. exists chars. split; [apply explode_characters|exact F]. }
  cbn [bind]. destruct (strip_start content m 0 chars) as [a| | | |]; try contradiction.
  2:{ cbn [bind]. apply TS. destruct A as (A1 & A2). split; [|lia]. apply Forall_nth_error. intros k Hk.
      exists content. split; [apply A2; lia|reflexivity]. }
  cbn [bind]. destruct A as (A1 & A2 & A3 & A4).
  destruct (strip_start content n 0 (rev chars)) as [b| | | |]; try contradiction.
  2:{ cbn [bind]. apply TS. destruct B as (B1 & B2). split; [|lia]. apply Forall_nth_error. intros k Hk.
      exists content. split; [|reflexivity].
      specialize (B2 (length chars - S k)%nat). rewrite nth_error_rev in B2 by lia.
      replace (length chars - S (length chars - S k))%nat with k in B2 by lia. apply B2. lia. }
  cbn [bind]. destruct B as (B1 & B2 & B3 & B4).
  assert (B3' : forall k, (length chars - b <= k < length chars)%nat -> nth_error chars k = Some content).
  { intros k Hk. specialize (B3 (length chars - S k)%nat). rewrite nth_error_rev in B3 by lia.
    replace (length chars - S (length chars - S k))%nat with k in B3 by lia. apply B3. lia. }
  destruct (le_lt_dec (a + b) (length chars)) as [Hab|Hab].
  2:{ rewrite zslice_crossed by exact Hab. cbn [bind]. apply TS.
      split; [|lia]. apply Forall_nth_error. intros k Hk. exists content. split; [|reflexivity].
      destruct (lt_dec k a); [apply A3; lia|apply B3'; lia]. }
  rewrite zslice_three by exact Hab. cbn [bind].
  assert (CUT : firstn a chars ++ firstn (length chars - a - b) (skipn a chars) ++ skipn (length chars - b) chars = chars).
  { apply cut_three. exact Hab. }
  split.
  - exists (firstn a chars), (firstn (length chars - a - b) (skipn a chars)), (skipn (length chars - b) chars).
    split; [rewrite CUT; apply explode_characters|]. split; [reflexivity|].
    split. { apply Forall_nth_error. intros k Hk. rewrite firstn_length in Hk. exists content.
             rewrite nth_error_firstn' by lia. split; [apply A3; lia|reflexivity]. }
    split. { apply Forall_nth_error. intros k Hk. rewrite skipn_length in Hk. exists content.
             rewrite nth_error_skipn'. split; [apply B3'; lia|reflexivity]. }
    split; [rewrite firstn_length; lia|]. split; [rewrite skipn_length; lia|]. split.
    + rewrite firstn_length. intros H. destruct A4 as (c & E & Hc); [lia|].
      assert (La : (a < length chars)%nat) by (apply nth_error_Some; congruence).
      assert (E' : nth_error (skipn a chars) 0 = Some c) by (rewrite nth_error_skipn', Nat.add_0_r; exact E).
      assert (T : firstn (length chars - a - b) (skipn a chars) ++ skipn (length chars - b) chars = skipn a chars).
      { apply cut_tail, Hab. }
      rewrite T. destruct (skipn a chars) as [|x r]; [discriminate|]. cbn in E'. injection E' as ->.
      exists c, r. auto.
    + rewrite skipn_length. intros H. destruct B4 as (c & E & Hc); [lia|].
      assert (Lb : (b < length chars)%nat).
      { rewrite <- (rev_length chars). apply nth_error_Some. congruence. }
      rewrite nth_error_rev in E by exact Lb.
      assert (T : firstn a chars ++ firstn (length chars - a - b) (skipn a chars) = firstn (length chars - b) chars).
      { apply cut_head, Hab. }
      rewrite T. exists c, (firstn (length chars - S b) chars). split; [|exact Hc].
      rewrite <- (firstn_skipn (length chars - S b) (firstn (length chars - b) chars)).
      rewrite firstn_firstn. replace (Nat.min (length chars - S b) (length chars - b)) with (length chars - S b)%nat by lia.
      f_equal. assert (E' : nth_error (skipn (length chars - S b) (firstn (length chars - b) chars)) 0 = Some c).
      { rewrite nth_error_skipn', Nat.add_0_r, nth_error_firstn' by lia. exact E. }
      assert (L1 : length (skipn (length chars - S b) (firstn (length chars - b) chars)) = 1%nat).
      { rewrite skipn_length, firstn_length. lia. }
      destruct (skipn (length chars - S b) (firstn (length chars - b) chars)) as [|x [|y r]]; try discriminate L1. cbn in E'. congruence.
  - intros TS'. apply TS in TS'. destruct TS' as (F & L). rewrite Forall_forall in F.
    assert (a = m \/ b = n -> False).
    { intros [|]; [|]; subst; [destruct (lt_dec b n) as [Hb|]; [|lia]|destruct (lt_dec a m) as [Ha|]; [|lia]].
      - destruct B4 as (c & E & Hc); [lia|]. apply nth_error_In in E. apply in_rev in E. apply Hc. symmetry. exact (F c E).
      - destruct A4 as (c & E & Hc); [lia|]. apply nth_error_In in E. apply Hc. symmetry. exact (F c E). }
    destruct (lt_dec a m) as [Ha|]; [|apply H; lia].
    destruct A4 as (c & E & Hc); [lia|]. apply nth_error_In in E. apply Hc. symmetry. exact (F c E).
Qed.

(** ** Byte fallback *)

Lemma nth_error_lt16 l v (c : N) : length l = 16%nat -> nth_error l (N.to_nat v) = Some c -> (v < 16)%N.
Proof. intros L H. assert (N.to_nat v < length l)%nat by (apply nth_error_Some; congruence). lia. Qed.

Lemma hex_value_spec c v : hex_value c = Some v <-> hex_digit c v.
Proof.
  unfold hex_digit. split.
  - unfold hex_value.
    destruct ((48 <=? c) && (c <=? 57))%N eqn:E1; [|destruct ((97 <=? c) && (c <=? 102))%N eqn:E2;
      [|destruct ((65 <=? c) && (c <=? 70))%N eqn:E3; [|discriminate]]]; intros H; injection H as <-.
    + left. assert (D : (c = 48 \/ c = 49 \/ c = 50 \/ c = 51 \/ c = 52 \/ c = 53 \/ c = 54 \/ c = 55 \/ c = 56 \/ c = 57)%N) by lia.
      repeat destruct D as [->|D]; try (subst c); reflexivity.
    + left. assert (D : (c = 97 \/ c = 98 \/ c = 99 \/ c = 100 \/ c = 101 \/ c = 102)%N) by lia.
      repeat destruct D as [->|D]; try (subst c); reflexivity.
    + right. assert (D : (c = 65 \/ c = 66 \/ c = 67 \/ c = 68 \/ c = 69 \/ c = 70)%N) by lia.
      repeat destruct D as [->|D]; try (subst c); reflexivity.
  - intros [H|H]; (assert (L : (v < 16)%N) by (eapply nth_error_lt16; [|exact H]; reflexivity));
      (assert (D : (v = 0 \/ v = 1 \/ v = 2 \/ v = 3 \/ v = 4 \/ v = 5 \/ v = 6 \/ v = 7 \/ v = 8 \/ v = 9 \/ v = 10 \/
                   v = 11 \/ v = 12 \/ v = 13 \/ v = 14 \/ v = 15)%N) by lia);
      repeat destruct D as [->|D]; try (subst v); cbn in H; injection H as <-; reflexivity.
Qed.

Lemma token_byte_spec t :
  match token_byte t with
  | Ok (Some b) => byte_token t b
  | Ok None => forall h l, t <> angle h l
  | Panic => malformed t
  | _ => False
  end.
Proof.
  destruct (list_eq_dec N.eq_dec (firstn 3 t) [60; 48; 120]%N) as [E3|N3].
  - destruct t as [|c0 [|c1 [|c2 t]]]; try discriminate E3. cbn in E3. injection E3 as -> -> ->.
    destruct t as [|h [|l [|e t]]]; try (cbn; intros ? ? E; discriminate E).
    destruct (N.eq_dec e 62) as [->|Ne].
    + destruct t as [|e2 t].
      2:{ cbn. intros ? ? E; discriminate E. }
      change (token_byte [60; 48; 120; h; l; 62]%N) with
        (match hex_value h, hex_value l with Some x, Some y => Ok (Some (16 * x + y)%N) | _, _ => Panic end).
      destruct (hex_value h) as [x|] eqn:Hh; [destruct (hex_value l) as [y|] eqn:Hl|].
      * exists h, l, x, y. rewrite <- !hex_value_spec. auto.
      * split; [exists h, l; reflexivity|]. intros b (h' & l' & x' & y' & E & A & B & _). injection E as -> ->.
        apply hex_value_spec in B. congruence.
      * split; [exists h, l; reflexivity|]. intros b (h' & l' & x' & y' & E & A & B & _). injection E as -> ->.
        apply hex_value_spec in A. congruence.
    + assert (R : token_byte (60%N :: 48%N :: 120%N :: h :: l :: e :: t) = Ok None).
      { cbn. destruct e as [|p]; [reflexivity|]. do 6 (destruct p as [p|p|]; try reflexivity). congruence. }
      rewrite R. intros h' l' E. injection E; intros; congruence.
  - assert (R : token_byte t = Ok None).
    { destruct t as [|c0 [|c1 [|c2 t]]]; try reflexivity.
      - cbn. destruct c0 as [|p]; [reflexivity|]. do 6 (destruct p as [p|p|]; try reflexivity).
      - cbn. destruct c0 as [|p]; [reflexivity|]. do 6 (destruct p as [p|p|]; try reflexivity).
        destruct c1 as [|p]; [reflexivity|]. do 6 (destruct p as [p|p|]; try reflexivity).
      - cbn. destruct c0 as [|p]; [reflexivity|]. do 6 (destruct p as [p|p|]; try reflexivity).
        destruct c1 as [|p]; [reflexivity|]. do 6 (destruct p as [p|p|]; try reflexivity).
        destruct c2 as [|p]; [reflexivity|]. do 7 (destruct p as [p|p|]; try reflexivity).
        exfalso. apply N3. reflexivity. }
    rewrite R. intros h l ->. apply N3. reflexivity.
Qed.

Lemma byte_token_fun t b1 b2 : byte_token t b1 -> byte_token t b2 -> b1 = b2.
Proof.
  intros (h & l & x & y & -> & A & B & ->) (h' & l' & x' & y' & E & A' & B' & ->). injection E as -> ->.
  rewrite <- hex_value_spec in A, B, A', B'. congruence.
Qed.

Lemma utf8_valid_iff s : utf8_valid s = true <-> valid_utf8 s.
Proof. unfold utf8_valid. rewrite str_eqb_eq. symmetry. apply valid_utf8_iff. Qed.

(** Whatever was collected stands for a run of byte tokens before the rest. *)
Lemma bf_chain_spec toks : forall bs,
  match bf_chain bs toks with
  | Ok out => ~ Exists malformed toks /\
      forall run, Forall2 byte_token run bs -> byte_decoded (run ++ toks) out
  | Panic => Exists malformed toks
  | _ => False
  end.
Proof.
  assert (FL : forall run bs ts out, Forall2 byte_token run bs ->
             (forall t ts' b, ts = t :: ts' -> ~ byte_token t b) -> byte_decoded ts out ->
             byte_decoded (run ++ ts) (flush_bytes bs ++ out)).
  { intros run bs ts out F H D. destruct F as [|t b run bs Hb F]; [exact D|]. unfold flush_bytes.
    destruct (utf8_valid (b :: bs)) eqn:V.
    - apply bd_valid with (run := t :: run); [discriminate|constructor; assumption|exact H|apply utf8_valid_iff, V|exact D].
    - apply bd_invalid with (run := t :: run); [discriminate|constructor; assumption|exact H| |exact D].
      rewrite <- utf8_valid_iff. congruence. }
  induction toks as [|t toks IH]; intros bs; cbn [bf_chain].
  - split; [intros E; inversion E|]. intros run F. rewrite <- (app_nil_r (flush_bytes bs)).
    apply FL; [exact F|discriminate|constructor].
  - pose proof (token_byte_spec t) as T. destruct (token_byte t) as [[b|]| | | |]; try contradiction; cbn [bind].
    + specialize (IH (bs ++ [b])). destruct (bf_chain (bs ++ [b]) toks) as [out| | | |]; try contradiction.
      * destruct IH as (H1 & H2). split.
        -- intros E. inversion E as [? ? M|? ? M]; subst; [|contradiction]. destruct M as (_ & M). exact (M b T).
        -- intros run F. specialize (H2 (run ++ [t])). rewrite <- app_assoc in H2. apply H2.
           apply Forall2_app; [exact F|constructor; [exact T|constructor]].
      * apply Exists_cons_tl. exact IH.
    + specialize (IH []). destruct (bf_chain [] toks) as [out| | | |]; try contradiction; cbn [bind].
      * destruct IH as (H1 & H2).
        assert (NB : forall b, ~ byte_token t b).
        { intros b (h & l & x & y & E & _). exact (T h l E). }
        split.
        -- intros E. inversion E as [? ? M|? ? M]; subst; [|contradiction].
           destruct M as ((h & l & E') & _). exact (T h l E').
        -- intros run F. apply FL; [exact F| |].
           ++ intros u ts' b E. injection E as <- <-. apply NB.
           ++ apply bd_other; [exact NB|]. apply (H2 []). constructor.
      * apply Exists_cons_tl. exact IH.
    + apply Exists_cons_hd. exact T.
Qed.

(** ** Byte level *)

Lemma bytes_char_gen : bytes_char = generate_bytes_char.
Proof. vm_compute. reflexivity. Qed.

Definition check_byte (b : N) : bool :=
  match runes (byte_char b) with
  | [r] => scalarb r && str_eqb (encode_rune r) (byte_char b) && (char_byte (byte_char b) =? b)%N
           && negb ((r <=? 32) || ((127 <=? r) && (r <=? 160)) || (r =? 173))%N
           && (if ((b <=? 32) || ((127 <=? b) && (b <=? 160)) || (b =? 173))%N then true else (r =? b)%N)
  | _ => false
  end.

Lemma all_bytes_checked : forallb check_byte (map N.of_nat (seq 0 256)) = true.
Proof. vm_compute. reflexivity. Qed.

Lemma byte_checked b : (b < 256)%N -> check_byte b = true.
Proof.
  intros H. pose proof all_bytes_checked as A. rewrite forallb_forall in A. apply A.
  apply in_map_iff. exists (N.to_nat b). split; [lia|]. apply in_seq. lia.
Qed.

Lemma byte_char_spec b : (b < 256)%N ->
  exists r, scalar r /\ byte_char b = encode_rune r /\ char_byte (byte_char b) = b /\ ~ invisible r /\
    (~ invisible b -> r = b).
Proof.
  intros H. pose proof (byte_checked b H) as C. unfold check_byte in C.
  destruct (runes (byte_char b)) as [|r [|]]; try discriminate. exists r.
  rewrite !andb_true_iff in C. destruct C as ((((C1 & C2) & C3) & C4) & C5).
  apply scalarb_spec in C1. apply str_eqb_eq in C2. apply N.eqb_eq in C3.
  do 3 (split; [auto|]). unfold invisible. split.
  - destruct (r <=? 32)%N eqn:?, ((127 <=? r) && (r <=? 160))%N eqn:?, (r =? 173)%N eqn:?; try discriminate C4. lia.
  - intros NI. destruct ((b <=? 32) || ((127 <=? b) && (b <=? 160)) || (b =? 173))%N eqn:E.
    + exfalso. apply NI. lia.
    + apply N.eqb_eq. exact C5.
Qed.

Lemma render_encode s : Forall (fun b => b < 256)%N s ->
  exists rs, Forall scalar rs /\ bl_render s = encode rs /\ map encode_rune rs = map byte_char s.
Proof.
  unfold bl_render. induction 1 as [|b s Hb H (rs & A & B & C)]; [exists []; repeat split; constructor|].
  destruct (byte_char_spec b Hb) as (r & R1 & R2 & _). exists (r :: rs).
  split; [constructor; assumption|]. cbn [map concat]. rewrite encode_cons, B, R2, C. auto.
Qed.

Lemma bl_decode_render s : Forall (fun b => b < 256)%N s -> bl_decode (bl_render s) = s.
Proof.
  intros H. destruct (render_encode s H) as (rs & A & B & C). unfold bl_decode.
  rewrite B, explode_encode by exact A. rewrite C, map_map. clear - H.
  induction H as [|b s Hb H IH]; [reflexivity|]. cbn [map]. rewrite IH. f_equal.
  destruct (byte_char_spec b Hb) as (r & _ & _ & E & _). exact E.
Qed.

(** ** Sequences *)

Lemma sequence_spec ds : forall toks out, decode_chain (DSequence ds) toks = Ok out <-> applied_in_order ds toks out.
Proof.
  induction ds as [|d ds IH]; intros toks out.
  - cbn. split; [intros E; injection E as <-; constructor|intros H; inversion H; reflexivity].
  - change (decode_chain (DSequence (d :: ds)) toks) with
      (do t2 <- decode_chain d toks; decode_chain (DSequence ds) t2).
    split.
    + destruct (decode_chain d toks) as [t2| | | |] eqn:E; cbn [bind]; try discriminate.
      intros H. econstructor; [exact E|]. apply IH. exact H.
    + intros H. inversion H as [|? ? ? t2 ? H3 H4]; subst. rewrite H3. cbn [bind]. apply IH. assumption.
Qed.

Fixpoint decoder_size (d : decoder) : nat :=
  match d with
  | DSequence ds => S (list_sum (map decoder_size ds))
  | _ => 1
  end.

Lemma strip_harmless c a b t : a <= 0 -> b <= 0 -> exists t', strip_token c a b t = Ok t'.
Proof.
  intros Ha Hb. unfold strip_token, strip_stop.
  replace (Z.to_nat a) with 0%nat by lia. replace (Z.to_nat b) with 0%nat by lia. cbn [strip_start bind].
  rewrite zslice_three by lia. cbn [bind]. eexists. reflexivity.
Qed.

Lemma mapR_ok {A B} (f : A -> res B) l : (forall x, In x l -> exists y, f x = Ok y) -> exists l', mapR f l = Ok l'.
Proof.
  induction l as [|x l IH]; intros H; [exists []; reflexivity|]. cbn [mapR].
  destruct (H x) as (y & ->); [left; reflexivity|]. cbn [bind].
  destruct IH as (l' & ->); [intros z Hz; apply H; right; exact Hz|]. cbn [bind]. eexists. reflexivity.
Qed.

Lemma harmless_total d : harmless d -> forall toks, exists out, decode_chain d toks = Ok out.
Proof.
  remember (decoder_size d) as n eqn:En. revert d En.
  induction n as [n IH] using lt_wf_ind; intros d En H toks.
  destruct H as [s|p dl c| |p c|c a b Ha Hb| |r b|ds Hds]; try (eexists; reflexivity).
  - cbn [decode_chain]. apply mapR_ok. intros t _. apply strip_harmless; assumption.
  - assert (HS : forall d, In d ds -> (decoder_size d < n)%nat).
    { intros d Hd. subst n. cbn [decoder_size]. clear - Hd. induction ds as [|e ds IH]; [destruct Hd|].
      cbn [map list_sum fold_right]. change (fold_right plus 0%nat) with list_sum.
      destruct Hd as [->|Hd]; [lia|]. specialize (IH Hd). lia. }
    clear En. revert toks. induction ds as [|d ds IHd]; intros toks; [eexists; reflexivity|].
    change (decode_chain (DSequence (d :: ds)) toks) with
      (do t2 <- decode_chain d toks; decode_chain (DSequence ds) t2).
    destruct (IH (decoder_size d)) with (d := d) (toks := toks) as (t2 & ->).
    + apply HS. left. reflexivity.
    + reflexivity.
    + apply Hds. left. reflexivity.
    + cbn [bind]. apply IHd; intros e He; [apply Hds|apply HS]; right; exact He.
Qed.

Lemma strip_chain_spec content start stop toks :
  match decode_chain (DStrip content start stop) toks with
  | Ok out => Forall2 (stripped content (Z.to_nat start) (Z.to_nat stop)) toks out /\
              ~ Exists (too_short content (Z.to_nat start) (Z.to_nat stop)) toks
  | Panic => Exists (too_short content (Z.to_nat start) (Z.to_nat stop)) toks
  | _ => False
  end.
Proof.
  cbn [decode_chain]. induction toks as [|t toks IH]; cbn [mapR].
  - split; [constructor|]. intros E. inversion E.
  - pose proof (strip_token_spec content start stop t) as T.
    destruct (strip_token content start stop t) as [t'| | | |]; try contradiction; cbn [bind].
    + destruct T as (T1 & T2). destruct (mapR _ toks) as [out| | | |]; try contradiction; cbn [bind].
      * destruct IH as (I1 & I2). split; [constructor; assumption|]. intros E. inversion E; subst; contradiction.
      * apply Exists_cons_tl. exact IH.
    + apply Exists_cons_hd. exact T.
Qed.

(** ** Decoding ids *)

Lemma tokens_of_ids_spec m av skip ids : shown (av_id_to_token m av) (is_special av) skip ids (tokens_of_ids m av skip ids).
Proof.
  induction ids as [|i ids IH]; cbn [tokens_of_ids]; [constructor|].
  destruct (av_id_to_token m av i) as [t|] eqn:E.
  - destruct skip; [destruct (is_special av t) eqn:Es|]; cbn [negb orb].
    + eapply sh_skipped; eauto.
    + apply sh_token; auto.
    + apply sh_token; auto.
  - apply sh_unknown; assumption.
Qed.

Lemma shown_fun f sp skip ids a b : shown f sp skip ids a -> shown f sp skip ids b -> a = b.
Proof.
  intros H; revert b; induction H as [|i ids toks E H IH|i t ids toks E Es Et H IH|i t ids toks E Es H IH];
    intros b Hb; inversion Hb; subst; try congruence; auto.
  - match goal with D : _ \/ _ |- _ => destruct D; congruence end.
  - destruct Es; congruence.
  - f_equal; [congruence|auto].
Qed.

Lemma join_sp_spec l : spaced l (join_sp l).
Proof.
  induction l as [|t l IH]; [constructor|]. destruct l as [|u l]; [constructor|].
  change (join_sp (t :: u :: l)) with (t ++ [32%N] ++ join_sp (u :: l)). constructor. exact IH.
Qed.

(** ** The meaning of byte tokens is unique *)

Lemma run_unique run1 bs1 ts1 run2 bs2 ts2 : run1 ++ ts1 = run2 ++ ts2 ->
  Forall2 byte_token run1 bs1 -> Forall2 byte_token run2 bs2 ->
  (forall t ts' b, ts1 = t :: ts' -> ~ byte_token t b) ->
  (forall t ts' b, ts2 = t :: ts' -> ~ byte_token t b) ->
  run1 = run2 /\ bs1 = bs2 /\ ts1 = ts2.
Proof.
  intros E F1; revert run2 bs2 E; induction F1 as [|t b run1 bs1 Hb F1 IH]; intros run2 bs2 E F2 M1 M2.
  - destruct F2 as [|t2 b2 run2 bs2 Hb2 F2]; [auto|]. cbn [app] in E. exfalso. exact (M1 _ _ b2 E Hb2).
  - destruct F2 as [|t2 b2 run2 bs2 Hb2 F2]; cbn [app] in E.
    + exfalso. symmetry in E. exact (M2 _ _ b E Hb).
    + injection E as -> E. destruct (IH run2 bs2 E F2 M1 M2) as (-> & -> & ->).
      rewrite (byte_token_fun _ _ _ Hb Hb2). auto.
Qed.

Lemma byte_decoded_fun toks o1 o2 : byte_decoded toks o1 -> byte_decoded toks o2 -> o1 = o2.
Proof.
  assert (OTH : forall t ts run bs ts', (forall b, ~ byte_token t b) -> run <> [] -> Forall2 byte_token run bs ->
                 t :: ts = run ++ ts' -> False).
  { intros t ts run bs ts' N Hr F E. destruct F as [|u b run bs Hb F]; [congruence|]. cbn in E. injection E as -> _.
    exact (N b Hb). }
  assert (EMP : forall (run : list str) ts', run <> [] -> [] = run ++ ts' -> False).
  { intros [|? ?] ts' H E; [congruence|discriminate]. }
  intros H; revert o2; induction H as [|t ts out N H IH|run bs ts out Hr F M V H IH|run bs ts out Hr F M V H IH]; intros o2 H2.
  - remember [] as e eqn:E in H2. destruct H2 as [|? ? ? ? ?|? ? ? ? Hr2|? ? ? ? Hr2];
      [reflexivity|discriminate| |]; exfalso; symmetry in E; exact (EMP _ _ Hr2 E).
  - inversion H2 as [E|? ? ? N2 H3|? ? ? ? Hr2 F2 ? ? ? E|? ? ? ? Hr2 F2 ? ? ? E]; subst.
    + f_equal. auto.
    + exfalso. exact (OTH _ _ _ _ _ N Hr2 F2 (eq_sym E)).
    + exfalso. exact (OTH _ _ _ _ _ N Hr2 F2 (eq_sym E)).
  - remember (run ++ ts) as toks eqn:E. destruct H2 as [|t2 ts2 out2 N2 H2|run2 bs2 ts2 out2 Hr2 F2 M2 V2 H2|run2 bs2 ts2 out2 Hr2 F2 M2 V2 H2].
    + exfalso. exact (EMP _ _ Hr E).
    + exfalso. exact (OTH _ _ _ _ _ N2 Hr F E).
    + destruct (run_unique _ _ _ _ _ _ E F2 F M2 M) as (-> & -> & ->). f_equal. auto.
    + destruct (run_unique _ _ _ _ _ _ E F2 F M2 M) as (-> & -> & ->). contradiction.
  - remember (run ++ ts) as toks eqn:E. destruct H2 as [|t2 ts2 out2 N2 H2|run2 bs2 ts2 out2 Hr2 F2 M2 V2 H2|run2 bs2 ts2 out2 Hr2 F2 M2 V2 H2].
    + exfalso. exact (EMP _ _ Hr E).
    + exfalso. exact (OTH _ _ _ _ _ N2 Hr F E).
    + destruct (run_unique _ _ _ _ _ _ E F2 F M2 M) as (-> & -> & ->). contradiction.
    + destruct (run_unique _ _ _ _ _ _ E F2 F M2 M) as (-> & -> & ->). f_equal. auto.
Qed.
