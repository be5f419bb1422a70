(** Putting the tokens of words together again (C74). *)
From Verif Require Import Base BaseProofs Utf8Model Utf8Proofs EncodingModel EncodingProofs BpeModel BpeSaveModel WordPieceModel WordPieceSpec WordPieceProofs
  AddedVocabModel DecoderModel DecoderProofs RoundTripSpec RoundTripEndProofs PretrainedModel WordsSpec.
Open Scope Z_scope.

(** ** Words without cleaning up *)
Definition bare (p : str) (v : str) : str := if starts_with p v then skipn (length p) v else 32%N :: v.
Definition glue (p : str) (vs : list str) : str := concat (map (bare p) vs).
Lemma glue_app p a b : glue p (a ++ b) = glue p a ++ glue p b.
Proof. unfold glue. now rewrite map_app, concat_app. Qed.
Lemma starts_app p x : starts_with p (p ++ x) = true.
Proof. induction p as [|c p IH]; [reflexivity|]. cbn. now rewrite N.eqb_refl. Qed.
Lemma bare_cont p x : bare p (p ++ x) = x.
Proof. unfold bare. rewrite starts_app, skipn_app, Nat.sub_diag, skipn_all. reflexivity. Qed.
Lemma starts_prefix : forall p a b, starts_with p a = true -> starts_with p (a ++ b) = true.
Proof. induction p as [|c p IH]; intros [|x a] b H; try discriminate; [reflexivity|reflexivity|]. cbn in *. apply andb_true_iff in H as [H1 H2]. now rewrite H1, IH. Qed.

Section WP.
  Variable wp : wordpiece.
  Local Notation p := (wp_prefix wp).
  Definition values (ts : list token) : list str := map t_value ts.

  Lemma glue_pieces : forall ps first pos, (first = true -> starts_with p (encode (concat (map snd ps))) = false) ->
    glue p (values (piece_tokens p first pos ps)) = (if first then match ps with [] => [] | _ => [32%N] end else []) ++ encode (concat (map snd ps)).
  Proof.
    induction ps as [|[id q] ps IH]; intros first pos H; [destruct first; reflexivity|]. cbn [piece_tokens values map t_value]. cbn [map concat snd] in *. unfold glue. cbn [map concat].
    change (concat (map (bare p) (map t_value (piece_tokens p false (pos + zlen q) ps)))) with (glue p (values (piece_tokens p false (pos + zlen q) ps))).
    rewrite (IH false) by discriminate. rewrite encode_app in *. unfold piece_key. destruct first.
    - unfold bare. destruct (starts_with p (encode q)) eqn:E; [|reflexivity]. rewrite (starts_prefix _ _ _ E) in H. now discriminate H.
    - now rewrite bare_cont.
  Qed.
  Lemma glue_word w ts : valid_utf8 w -> ts <> [] -> starts_with p w = false -> starts_with p (wp_unk wp) = false -> wp_tokenize wp w = Ok ts ->
    exists x, seen_as wp w x /\ glue p (values ts) = 32%N :: x.
  Proof.
    intros V Ne Hw Hu E. destruct (wp_cases wp w) as [H|[H|(ps & G & L)]].
    - rewrite wp_unk_case in E by auto. destruct (vget _ _); [|discriminate]. injection E as <-. exists (wp_unk wp). split; [right; split; [|reflexivity]; intros [X _]; lia|].
      cbn. unfold bare. now rewrite Hu, app_nil_r.
    - rewrite wp_unk_case in E by auto. destruct (vget _ _); [|discriminate]. injection E as <-. exists (wp_unk wp). split; [right; split; [|reflexivity]; intros [_ (ps & X)]; exact (H ps X)|].
      cbn. unfold bare. now rewrite Hu, app_nil_r.
    - rewrite (wp_greedy _ _ _ L G) in E. injection E as <-. exists w. split; [left; split; [split; [exact L|eauto]|reflexivity]|].
      rewrite glue_pieces; rewrite (greedy_concat _ _ _ _ _ G), valid_utf8_runes by exact V; [|now intros _]. destruct ps; [now destruct Ne|reflexivity].
  Qed.
  Lemma pieces_of w ts : valid_utf8 w -> wp_tokenize wp w = Ok ts -> Forall (fun t => piece_of wp w (t_value t)) ts.
  Proof.
    intros V E. assert (U : forall n, wp_unknown wp n = Ok ts -> Forall (fun t => piece_of wp w (t_value t)) ts).
    { intros n. unfold wp_unknown. destruct (vget _ _); [|discriminate]. intros [= <-]. repeat constructor. }
    destruct (wp_cases wp w) as [H|[H|(ps & G & L)]].
    - rewrite wp_unk_case in E by auto. destruct (vget _ _); [|discriminate]. injection E as <-. repeat constructor.
    - rewrite wp_unk_case in E by auto. destruct (vget _ _); [|discriminate]. injection E as <-. repeat constructor.
    - rewrite (wp_greedy _ _ _ L G) in E. injection E as <-. clear U.
      assert (K : forall first rs ps, greedy (wp_vocab wp) p first rs ps -> forall a pos, w = encode a ++ encode rs -> (first = true <-> encode a = []) -> Forall (fun t => piece_of wp w (t_value t)) (piece_tokens p first pos ps)).
      { clear. induction 1 as [|first q rest id ps Hq Hid Hm G IH]; intros a pos Ew Ha; [constructor|]. cbn [piece_tokens].
        assert (Nq : encode q <> []) by (destruct q as [|r q]; [now destruct Hq|]; rewrite encode_cons; intros X; apply app_eq_nil in X as [X _]; now apply (encode_rune_nonempty r)).
        rewrite encode_app in Ew. constructor.
        - right. exists (encode a), (encode q), (encode rest). split; [exact Ew|]. split; [exact Nq|]. cbn [t_value]. unfold piece_key. destruct first; [left|right]; (split; [|reflexivity]); intuition congruence.
        - apply (IH (a ++ q)); [now rewrite encode_app, <- app_assoc|]. split; [discriminate|]. rewrite encode_app. intros X. apply app_eq_nil in X as [_ X]. congruence. }
      apply (K true _ _ G []); [now rewrite valid_utf8_runes|easy].
  Qed.
End WP.

Definition spaces (xs : list str) : str := concat (map (fun x => 32%N :: x) xs).
Lemma spaced_out_spaces xs : spaced_out xs = tl (spaces xs).
Proof.
  destruct xs as [|x xs]; [reflexivity|]. unfold spaces. cbn [map concat tl app]. revert x. induction xs as [|y xs IH]; intros x; [cbn; now rewrite app_nil_r|].
  change (spaced_out (x :: y :: xs)) with (x ++ 32%N :: spaced_out (y :: xs)). rewrite IH. reflexivity.
Qed.
Lemma chain_glue p vs : match vs with v :: _ => starts_with p v = false | [] => True end -> concat (wpd_chain p false vs) = tl (glue p vs).
Proof. destruct vs as [|v vs]; intros H; [reflexivity|]. cbn [wpd_chain concat]. unfold glue. cbn [map concat]. unfold bare at 1. rewrite H. reflexivity. Qed.

(** The words of a text, without cleaning up. *)
Section All.
  Variables (wp : wordpiece) (m : base_model) (av : added_vocab) (skip : bool) (ws : list str) (tss : list (list token)).
  Hypothesis V : Forall valid_utf8 ws.
  Hypothesis Hp : Forall (fun w => starts_with (wp_prefix wp) w = false) ws.
  Hypothesis Hu : starts_with (wp_prefix wp) (wp_unk wp) = false.
  Hypothesis F : Forall2 (fun w ts => ts <> [] /\ wp_tokenize wp w = Ok ts) ws tss.
  Hypothesis Nm : forall w v id, In w ws -> piece_of wp w v -> vget v (wp_vocab wp) = Some id -> shown m av skip id = Some v.

  Lemma named : shown_all m av skip (map t_id (concat tss)) = concat (map values tss).
  Proof.
    clear Hp Hu. revert V Nm. induction F as [|w ts ws' tss' [Ne E] F' IH]; intros V' N'; [reflexivity|]. apply Forall_cons_iff in V' as [V1 V2]. cbn [concat map]. rewrite map_app. unfold shown_all in *. rewrite flat_map_app.
    rewrite IH; [|exact F'|exact V2|intros; eapply N'; eauto; now right]. f_equal. pose proof (pieces_of wp w ts V1 E) as P. pose proof (wp_values wp w ts E) as Q.
    clear -P Q N'. induction ts as [|t ts IH]; [reflexivity|]. apply Forall_cons_iff in P as [P1 P2]. apply Forall_cons_iff in Q as [Q1 Q2]. cbn [map flat_map values]. rewrite (N' w (t_value t) (t_id t) (or_introl eq_refl) P1 Q1). cbn [app]. f_equal. now apply IH.
  Qed.
  Lemma words_seen : exists xs, Forall2 (seen_as wp) ws xs /\ glue (wp_prefix wp) (concat (map values tss)) = spaces xs.
  Proof.
    clear Nm. revert V Hp. induction F as [|w ts ws' tss' [Ne E] F' IH]; intros V' P'; [exists []; split; [constructor|reflexivity]|].
    apply Forall_cons_iff in V' as [V1 V2]. apply Forall_cons_iff in P' as [P1 P2]. destruct (IH F' V2 P2) as (xs & A & B). destruct (glue_word wp w ts V1 Ne P1 Hu E) as (x & X & G).
    exists (x :: xs). split; [constructor; assumption|]. cbn [map concat]. rewrite glue_app, G, B. reflexivity.
  Qed.
  Lemma first_bare : match concat (map values tss) with v :: _ => starts_with (wp_prefix wp) v = false | [] => True end.
  Proof. clear Nm.
    destruct F as [|w ts ws' tss' [Ne E] F']; [exact I|]. apply Forall_cons_iff in Hp as [P1 P2]. apply Forall_cons_iff in V as [V1 V2]. cbn [map concat]. destruct ts as [|t ts]; [now destruct Ne|]. cbn [values map app].
    pose proof (pieces_of wp w _ V1 E) as P. apply Forall_cons_iff in P as [P _].
    destruct (wp_cases wp w) as [H|[H|(ps & G & L)]].
    - rewrite wp_unk_case in E by auto. destruct (vget _ _); [|discriminate]. injection E as <- <-. exact Hu.
    - rewrite wp_unk_case in E by auto. destruct (vget _ _); [|discriminate]. injection E as <- <-. exact Hu.
    - rewrite (wp_greedy _ _ _ L G) in E. injection E as E. pose proof (greedy_concat _ _ _ _ _ G) as C. destruct ps as [|[id q] ps]; [discriminate|]. cbn [piece_tokens] in E. injection E as <- <-.
      cbn [t_value]. unfold piece_key. destruct (starts_with (wp_prefix wp) (encode q)) eqn:Es; [|reflexivity]. cbn [map concat snd] in C. rewrite <- (valid_utf8_runes w V1), <- C, encode_app in P1. now rewrite (starts_prefix _ _ _ Es) in P1.
  Qed.
  Lemma values_decoded : exists xs, Forall2 (seen_as wp) ws xs /\ concat (wpd_chain (wp_prefix wp) false (concat (map values tss))) = spaced_out xs.
  Proof. clear Nm. destruct words_seen as (xs & A & B). exists xs. split; [exact A|]. rewrite (chain_glue _ _ first_bare), B. symmetry. apply spaced_out_spaces. Qed.
  Lemma words_decoded : exists xs, Forall2 (seen_as wp) ws xs /\
    concat (wpd_chain (wp_prefix wp) false (shown_all m av skip (map t_id (concat tss)))) = spaced_out xs.
  Proof. rewrite named. exact values_decoded. Qed.
End All.

(** ** Cleaning up *)
Lemma starts_ex : forall p s, starts_with p s = true <-> exists z, s = p ++ z.
Proof.
  induction p as [|c p IH]; intros s; [split; [eexists; reflexivity|now intros _]|]. destruct s as [|x s]; [split; [discriminate|intros (z & H); discriminate]|]. cbn [starts_with]. rewrite andb_true_iff, IH. split.
  - intros [H (z & ->)]. apply N.eqb_eq in H as ->. now exists z.
  - intros (z & H). injection H as -> ->. split; [apply N.eqb_refl|eauto].
Qed.
Lemma replace_quiet old new : forall s, ~ In 32%N s -> forall fuel, replace_f fuel (32%N :: old) new s = s.
Proof.
  induction s as [|c s IH]; intros H fuel; [now destruct fuel|]. destruct fuel as [|fuel]; [reflexivity|]. cbn [replace_f starts_with]. replace (32 =? c)%N with false by (symmetry; apply N.eqb_neq; intros <-; apply H; now left).
  cbn [andb]. f_equal. apply IH. intros X. apply H. now right.
Qed.
Lemma replace_spaced old new v : ~ In 32%N v -> starts_with old v = false -> forall fuel, replace_f fuel (32%N :: old) new (32%N :: v) = 32%N :: v.
Proof.
  intros H E fuel. destruct fuel as [|fuel]; [reflexivity|]. cbn [replace_f starts_with]. rewrite E, andb_false_r. f_equal. now apply replace_quiet.
Qed.
Lemma cleanup_fold (P : str -> Prop) s : forall rules, Forall (fun r => replace_all s (fst r) (snd r) = s) rules -> fold_left (fun o r => replace_all o (fst r) (snd r)) rules s = s.
Proof. induction rules as [|r rules IH]; intros F; [reflexivity|]. apply Forall_cons_iff in F as [F1 F2]. cbn [fold_left]. rewrite F1. now apply IH. Qed.
Lemma cleanup_quiet v : ~ In 32%N v -> cleanup v = v.
Proof. intros H. apply (cleanup_fold (fun _ => True)). unfold cleanup_rules. repeat (constructor; [cbn [fst snd replace_all]; now apply replace_quiet|]). constructor. Qed.
Definition apart (x : str) : str := if in_dec (list_eq_dec N.eq_dec) x stops then x else 32%N :: x.
Lemma cleanup_spaced v : neat v -> cleanup (32%N :: v) = apart v.
Proof.
  intros [H S]. unfold apart. destruct (in_dec (list_eq_dec N.eq_dec) v stops) as [I|I].
  - destruct I as [<-|[<-|[<-|[<-|[]]]]]; reflexivity.
  - destruct S as [S|S]; [now destruct I|]. apply (cleanup_fold (fun _ => True)). 
    assert (K : forall old new, In old (stops ++ contractions) \/ In 32%N old -> replace_all (32%N :: v) (32%N :: old) new = 32%N :: v).
    { intros old new Ho. cbn [replace_all]. apply replace_spaced; [exact H|]. destruct (starts_with old v) eqn:E; [|reflexivity]. apply starts_ex in E as (z & E).
      destruct Ho as [Ho|Ho]; [now destruct (S old z Ho)|]. elim H. rewrite E. apply in_or_app. now left. }
    unfold cleanup_rules. repeat (constructor; [cbn [fst snd]; apply K; cbn; tauto|]). constructor.
Qed.

Section Clean.
  Variable wp : wordpiece.
  Local Notation p := (wp_prefix wp).
  Definition neatly (vs : list str) : str := concat (map (fun v => cleanup (bare p v)) vs).
  Lemma neatly_app a b : neatly (a ++ b) = neatly a ++ neatly b.
  Proof. unfold neatly. now rewrite map_app, concat_app. Qed.
  Lemma neat_prefix y z : y <> [] -> neat (y ++ z) -> neat y /\ (In y stops -> z = []).
  Proof.
    intros Ne [H S]. split.
    - split; [intros X; apply H, in_or_app; now left|]. destruct S as [S|S].
      + left. destruct y as [|c y]; [now destruct Ne|]. destruct S as [S|[S|[S|[S|[]]]]]; injection S as <- S; symmetry in S; apply app_eq_nil in S as [-> ->]; cbn; tauto.
      + right. intros b x Hb E. apply (S b (x ++ z) Hb). now rewrite E, app_assoc.
    - intros I. destruct S as [S|S].
      + assert (L : forall x, In x stops -> length x = 1%nat) by (intros x [<-|[<-|[<-|[<-|[]]]]]; reflexivity). apply L in S, I. rewrite app_length in S. destruct z; [reflexivity|cbn in S; lia].
      + exfalso. apply (S y z); [apply in_or_app; now left|reflexivity].
  Qed.
  Lemma neatly_rest : forall ps pos, ~ In 32%N (encode (concat (map snd ps))) -> neatly (values (piece_tokens p false pos ps)) = encode (concat (map snd ps)).
  Proof.
    induction ps as [|[id q] ps IH]; intros pos H; [reflexivity|]. cbn [piece_tokens values map t_value] in *. cbn [map concat snd] in *. unfold neatly in *. cbn [map concat]. rewrite encode_app in *. unfold values in IH.
    rewrite IH by (intros X; apply H, in_or_app; now right). unfold piece_key. rewrite bare_cont, cleanup_quiet by (intros X; apply H, in_or_app; now left). reflexivity.
  Qed.
  Lemma clean_word w ts : valid_utf8 w -> starts_with p w = false -> starts_with p (wp_unk wp) = false -> neat w -> neat (wp_unk wp) -> ts <> [] -> wp_tokenize wp w = Ok ts ->
    exists x v vs, seen_as wp w x /\ values ts = v :: vs /\ neatly (v :: vs) = apart x /\ cleanup v ++ neatly vs = x.
  Proof.
    intros V Hw Hu Nw Nu Ne E.
    assert (U : forall n, wp_unknown wp n = Ok ts -> ~ known wp w -> exists x v vs, seen_as wp w x /\ values ts = v :: vs /\ neatly (v :: vs) = apart x /\ cleanup v ++ neatly vs = x).
    { intros n. unfold wp_unknown. destruct (vget _ _); [|discriminate]. intros [= <-] K. exists (wp_unk wp), (wp_unk wp), []. split; [now right|]. split; [reflexivity|].
      unfold neatly. cbn [map concat]. rewrite !app_nil_r. unfold bare. rewrite Hu. split; [now apply cleanup_spaced|]. apply cleanup_quiet. now destruct Nu. }
    destruct (wp_cases wp w) as [H|[H|(ps & G & L)]].
    - apply (U (zlen (runes w))); [rewrite wp_unk_case in E by auto; exact E|]. intros [X _]. lia.
    - apply (U (zlen (runes w))); [rewrite wp_unk_case in E by auto; exact E|]. intros [_ (ps & X)]. exact (H ps X).
    - clear U. rewrite (wp_greedy _ _ _ L G) in E. injection E as E. pose proof (greedy_concat _ _ _ _ _ G) as C. pose proof (greedy_nonempty _ _ _ _ _ G) as Nq. destruct ps as [|[id q] ps]; [now destruct Ne|].
      cbn [map concat snd] in C. apply Forall_cons_iff in Nq as [Nq _]. cbn [snd] in Nq. assert (Ew : w = encode q ++ encode (concat (map snd ps))) by (rewrite <- encode_app, C; symmetry; now apply valid_utf8_runes).
      assert (Nq' : encode q <> []) by (destruct q as [|r q]; [now destruct Nq|]; rewrite encode_cons; intros X; apply app_eq_nil in X as [X _]; now apply (encode_rune_nonempty r)).
      pose proof Nw as Nw0. rewrite Ew in Nw. destruct (neat_prefix _ _ Nq' Nw) as [N1 N2]. subst ts. cbn [piece_tokens values map t_value]. unfold piece_key. 
      exists w, (encode q), (values (piece_tokens p false (0 + zlen q) ps)). split; [left; split; [split; [exact L|]|reflexivity]|].
      { exists ((id, q) :: ps). exact G. }
      split; [reflexivity|]. assert (Hb : starts_with p (encode q) = false) by (destruct (starts_with p (encode q)) eqn:Es; [|reflexivity]; rewrite Ew, (starts_prefix _ _ _ Es) in Hw; discriminate).
      assert (Hr : ~ In 32%N (encode (concat (map snd ps)))) by (intros X; apply Nw0; rewrite Ew; apply in_or_app; now right).
      split.
      + change (encode q :: values (piece_tokens p false (0 + zlen q) ps)) with ([encode q] ++ values (piece_tokens p false (0 + zlen q) ps)). rewrite neatly_app, neatly_rest by exact Hr. unfold neatly. cbn [map concat]. unfold bare. rewrite Hb, app_nil_r, cleanup_spaced by exact N1.
        unfold apart. destruct (in_dec (list_eq_dec N.eq_dec) (encode q) stops) as [I|I].
        * rewrite (N2 I), app_nil_r in Ew. rewrite (N2 I), Ew, app_nil_r. destruct (in_dec (list_eq_dec N.eq_dec) (encode q) stops); [reflexivity|now destruct n].
        * destruct (in_dec (list_eq_dec N.eq_dec) w stops) as [J|J]; [|now rewrite Ew]. exfalso. apply I. rewrite Ew in J. destruct (encode q) as [|c y]; [now destruct Nq'|]. destruct J as [S|[S|[S|[S|[]]]]]; injection S as <- S; symmetry in S; apply app_eq_nil in S as [-> _]; cbn; tauto.
      + rewrite neatly_rest by exact Hr. rewrite cleanup_quiet; [now symmetry|]. now destruct N1.
  Qed.
  Lemma clean_chain vs v : wpd_chain p true (v :: vs) = cleanup v :: map (fun v => cleanup (bare p v)) vs.
  Proof. reflexivity. Qed.
End Clean.
Section AllClean.
  Variables (wp : wordpiece) (m : base_model) (av : added_vocab) (skip : bool) (ws : list str) (tss : list (list token)).
  Hypothesis V : Forall valid_utf8 ws.
  Hypothesis Hp : Forall (fun w => starts_with (wp_prefix wp) w = false) ws.
  Hypothesis Hu : starts_with (wp_prefix wp) (wp_unk wp) = false.
  Hypothesis F : Forall2 (fun w ts => ts <> [] /\ wp_tokenize wp w = Ok ts) ws tss.
  Hypothesis Nm : forall w v id, In w ws -> piece_of wp w v -> vget v (wp_vocab wp) = Some id -> shown m av skip id = Some v.
  Hypothesis Nw : Forall neat ws.
  Hypothesis Nu : neat (wp_unk wp).

  Lemma apart_all : exists xs, Forall2 (seen_as wp) ws xs /\ neatly wp (concat (map values tss)) = concat (map apart xs).
  Proof.
    clear Nm. revert V Hp Nw. induction F as [|w ts ws' tss' [Ne E] F' IH]; intros V' P' N'; [exists []; split; [constructor|reflexivity]|].
    apply Forall_cons_iff in V' as [V1 V2]. apply Forall_cons_iff in P' as [P1 P2]. apply Forall_cons_iff in N' as [N1 N2]. destruct (IH F' V2 P2 N2) as (xs & A & B).
    destruct (clean_word wp w ts V1 P1 Hu N1 Nu Ne E) as (x & v & vs & X & Ev & G & _). exists (x :: xs). split; [constructor; assumption|]. cbn [map concat]. rewrite neatly_app, B, Ev, G. reflexivity.
  Qed.
  Lemma values_tidied : exists xs, Forall2 (seen_as wp) ws xs /\ concat (wpd_chain (wp_prefix wp) true (concat (map values tss))) = tidy xs.
  Proof.
    clear Nm. destruct F as [|w ts ws' tss' [Ne E] F']; [exists []; split; [constructor|reflexivity]|].
    apply Forall_cons_iff in V as [V1 V2]. apply Forall_cons_iff in Hp as [P1 P2]. apply Forall_cons_iff in Nw as [N1 N2].
    destruct (clean_word wp w ts V1 P1 Hu N1 Nu Ne E) as (x & v & vs & X & Ev & _ & G).
    assert (R : exists xs, Forall2 (seen_as wp) ws' xs /\ neatly wp (concat (map values tss')) = concat (map apart xs)).
    { clear -V2 P2 N2 F' Hu Nu. revert V2 P2 N2. induction F' as [|w ts ws' tss' [Ne E] F' IH]; intros V' P' N'; [exists []; split; [constructor|reflexivity]|].
      apply Forall_cons_iff in V' as [V1 V2]. apply Forall_cons_iff in P' as [P1 P2]. apply Forall_cons_iff in N' as [N1 N2]. destruct (IH V2 P2 N2) as (xs & A & B).
      destruct (clean_word wp w ts V1 P1 Hu N1 Nu Ne E) as (x & v & vs & X & Ev & G & _). exists (x :: xs). split; [constructor; assumption|]. cbn [map concat]. rewrite neatly_app, B, Ev, G. reflexivity. }
    destruct R as (xs & A & B). exists (x :: xs). split; [constructor; assumption|]. cbn [map concat]. rewrite Ev. cbn [app]. rewrite clean_chain. cbn [concat tidy]. rewrite map_app, concat_app.
    fold (neatly wp vs). fold (neatly wp (concat (map values tss'))). rewrite B, app_assoc, G. reflexivity.
  Qed.
  Lemma words_tidied : exists xs, Forall2 (seen_as wp) ws xs /\
    concat (wpd_chain (wp_prefix wp) true (shown_all m av skip (map t_id (concat tss)))) = tidy xs.
  Proof. rewrite (named wp m av skip ws tss V F Nm). exact values_tidied. Qed.
End AllClean.
