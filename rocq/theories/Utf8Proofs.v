From Verif Require Import Base Utf8Model.
Local Open Scope N_scope.
Ltac Zify.zify_post_hook ::= Z.div_mod_to_equations.

Lemma scalarb_spec r : scalarb r = true <-> scalar r.
Proof. unfold scalarb, scalar. lia. Qed.

Lemma encode_rune_length r : (1 <= length (encode_rune r) <= 4)%nat.
Proof.
  unfold encode_rune. destruct (r <? 128); [cbn; lia|].
  destruct (r <? 2048); [cbn; lia|]. destruct (negb _); [cbn; lia|].
  destruct (r <? 65536); cbn; lia.
Qed.

Lemma between_spec lo hi b : between lo hi b = true <-> lo <= b <= hi.
Proof. unfold between. lia. Qed.

Lemma decode_encode r s : scalar r ->
  decode_rune (encode_rune r ++ s) = (r, length (encode_rune r)).
Proof.
  intros H. unfold encode_rune.
  destruct (r <? 128) eqn:E1.
  { cbn. now rewrite E1. }
  destruct (r <? 2048) eqn:E2.
  { cbn [app decode_rune length].
    replace (192 + r / 64 <? 128) with false by lia.
    replace (192 + r / 64 <? 194) with false by lia.
    replace (192 + r / 64 <? 224) with true by lia.
    replace (between 128 191 (128 + r mod 64)) with true
      by (symmetry; rewrite between_spec; lia).
    f_equal. lia. }
  replace (scalarb r) with true by (symmetry; now apply scalarb_spec).
  cbn [negb].
  destruct (r <? 65536) eqn:E3.
  { cbn [app decode_rune length].
    replace (224 + r / 4096 <? 128) with false by lia.
    replace (224 + r / 4096 <? 194) with false by lia.
    replace (224 + r / 4096 <? 224) with false by lia.
    replace (224 + r / 4096 <? 240) with true by lia.
    replace (between 128 191 (128 + r mod 64)) with true
      by (symmetry; rewrite between_spec; lia).
    match goal with |- context [between ?a ?b ?c] =>
      replace (between a b c) with true end.
    2:{ symmetry. rewrite between_spec. unfold scalar in H.
        destruct (224 + r / 4096 =? 224) eqn:Ea, (224 + r / 4096 =? 237) eqn:Eb; lia. }
    cbn [andb]. f_equal. lia. }
  { assert (r <= 0x10FFFF) by (unfold scalar in H; lia).
    cbn [app decode_rune length].
    replace (240 + r / 262144 <? 128) with false by lia.
    replace (240 + r / 262144 <? 194) with false by lia.
    replace (240 + r / 262144 <? 224) with false by lia.
    replace (240 + r / 262144 <? 240) with false by lia.
    replace (240 + r / 262144 <? 245) with true by lia.
    replace (between 128 191 (128 + r mod 64)) with true
      by (symmetry; rewrite between_spec; lia).
    replace (between 128 191 (128 + (r / 64) mod 64)) with true
      by (symmetry; rewrite between_spec; lia).
    match goal with |- context [between ?a ?b ?c] =>
      replace (between a b c) with true end.
    2:{ symmetry. rewrite between_spec.
        destruct (240 + r / 262144 =? 240) eqn:Ea, (240 + r / 262144 =? 244) eqn:Eb; lia. }
    cbn [andb]. f_equal. lia. }
Qed.

Lemma decode_width s : s <> [] -> (1 <= snd (decode_rune s) <= length s)%nat.
Proof.
  destruct s as [|b0 t]; [congruence|intros _]. cbn [decode_rune].
  destruct (b0 <? 128); [cbn; lia|]. destruct (b0 <? 194); [cbn; lia|].
  destruct (b0 <? 224).
  { destruct t as [|b1 t]; [cbn; lia|]. destruct (between _ _ b1); cbn; lia. }
  destruct (b0 <? 240).
  { destruct t as [|b1 [|b2 t]]; [cbn; lia..|]. destruct (_ && _); cbn; lia. }
  destruct (b0 <? 245).
  { destruct t as [|b1 [|b2 [|b3 t]]]; [cbn; lia..|]. destruct (_ && _); cbn; lia. }
  cbn; lia.
Qed.

(** Decoding yields a scalar; either the bytes read are exactly its encoding or
    one invalid byte was read as U+FFFD. *)
Lemma decode_spec s : s <> [] ->
  let '(r, w) := decode_rune s in
  scalar r /\
  (firstn w s = encode_rune r \/
   (r = rune_error /\ w = 1%nat /\ length (encode_rune r) = 3%nat)).
Proof.
  destruct s as [|b0 t]; [congruence|intros _]. cbn [decode_rune].
  assert (HE : scalar rune_error /\
    (firstn 1 (b0 :: t) = encode_rune rune_error \/
     (rune_error = rune_error /\ 1 = 1 /\ length (encode_rune rune_error) = 3)%nat)).
  { split; [unfold scalar, rune_error; lia|]. right. repeat split. }
  destruct (b0 <? 128) eqn:E0.
  { split; [unfold scalar; lia|]. left. unfold encode_rune. now rewrite E0. }
  destruct (b0 <? 194) eqn:E1; [exact HE|].
  destruct (b0 <? 224) eqn:E2.
  { destruct t as [|b1 t]; [exact HE|].
    destruct (between _ _ b1) eqn:B1; [|exact HE]. apply between_spec in B1.
    split; [unfold scalar; lia|]. left. cbn [firstn]. unfold encode_rune.
    set (r := (b0 - 192) * 64 + (b1 - 128)).
    replace (r <? 128) with false by lia. replace (r <? 2048) with true by lia.
    unfold r. repeat f_equal; lia. }
  destruct (b0 <? 240) eqn:E3.
  { destruct t as [|b1 [|b2 t]]; [exact HE..|].
    destruct (_ && _) eqn:B; [|exact HE]. apply andb_true_iff in B as [B1 B2].
    apply between_spec in B1, B2.
    set (r := (b0 - 224) * 4096 + (b1 - 128) * 64 + (b2 - 128)).
    assert (HB : 128 <= b1 <= 191) by (destruct (b0 =? 224), (b0 =? 237); lia).
    assert (Hs : scalar r).
    { unfold scalar, r. destruct (b0 =? 224) eqn:Ea, (b0 =? 237) eqn:Eb; lia. }
    split; [exact Hs|]. left. cbn [firstn]. unfold encode_rune.
    assert (2048 <= r) by (unfold r; destruct (b0 =? 224) eqn:Ea, (b0 =? 237) eqn:Eb; lia).
    replace (r <? 128) with false by lia. replace (r <? 2048) with false by lia.
    replace (scalarb r) with true by (symmetry; now apply scalarb_spec). cbn [negb].
    replace (r <? 65536) with true by lia.
    unfold r. repeat f_equal; clear -HB B2 E2 E3; lia. }
  destruct (b0 <? 245) eqn:E4; [|exact HE].
  { destruct t as [|b1 [|b2 [|b3 t]]]; [exact HE..|].
    destruct (_ && _) eqn:B; [|exact HE].
    apply andb_true_iff in B as [B B3]. apply andb_true_iff in B as [B1 B2].
    apply between_spec in B1, B2, B3.
    set (r := (b0 - 240) * 262144 + (b1 - 128) * 4096 + (b2 - 128) * 64 + (b3 - 128)).
    assert (HB : 128 <= b1 <= 191) by (destruct (b0 =? 240), (b0 =? 244); lia).
    assert (65536 <= r <= 0x10FFFF).
    { unfold r. destruct (b0 =? 240) eqn:Ea, (b0 =? 244) eqn:Eb; lia. }
    assert (Hs : scalar r) by (unfold scalar; lia).
    split; [exact Hs|]. left. cbn [firstn]. unfold encode_rune.
    replace (r <? 128) with false by lia. replace (r <? 2048) with false by lia.
    replace (scalarb r) with true by (symmetry; now apply scalarb_spec). cbn [negb].
    replace (r <? 65536) with false by lia.
    unfold r. repeat f_equal; clear -HB B2 B3 E3 E4; lia. }
Qed.

Lemma runes_f_fuel f : forall s, (length s <= f)%nat -> runes_f f s = runes_w s.
Proof.
  unfold runes_w.
  assert (G : forall f1 f2 s, (length s <= f1)%nat -> (length s <= f2)%nat ->
             runes_f f1 s = runes_f f2 s).
  { induction f1 as [|f1 IH]; intros f2 s H1 H2.
    - destruct s; [|cbn in H1; lia]. destruct f2; reflexivity.
    - destruct f2 as [|f2]; [destruct s; [reflexivity|cbn in H2; lia]|].
      destruct s as [|b t]; [reflexivity|]. cbn [runes_f].
      pose proof (decode_width (b :: t) ltac:(discriminate)) as W.
      destruct (decode_rune (b :: t)) as [r w]; cbn [snd] in W. f_equal.
      apply IH; rewrite skipn_length; cbn [length] in *; lia. }
  intros s H. apply G; lia.
Qed.

Lemma runes_w_nil : runes_w [] = [].
Proof. reflexivity. Qed.

Lemma runes_w_cons s : s <> [] ->
  runes_w s = decode_rune s :: runes_w (skipn (snd (decode_rune s)) s).
Proof.
  intros Hs. unfold runes_w at 1. destruct s as [|b t] eqn:E; [congruence|].
  rewrite <- E in *. replace (length s) with (S (length t)) by (rewrite E; reflexivity).
  cbn [runes_f]. rewrite E. rewrite <- E.
  pose proof (decode_width s Hs) as W. destruct (decode_rune s) as [r w]. cbn [snd] in *.
  f_equal. apply runes_f_fuel. rewrite skipn_length, E. cbn [length]. lia.
Qed.

Lemma runes_w_ind (P : str -> list (N * nat) -> Prop) :
  P [] [] ->
  (forall s r w, s <> [] -> decode_rune s = (r, w) ->
     P (skipn w s) (runes_w (skipn w s)) -> P s ((r, w) :: runes_w (skipn w s))) ->
  forall s, P s (runes_w s).
Proof.
  intros H0 H1 s. remember (length s) as n eqn:En.
  revert s En; induction n as [n IH] using lt_wf_ind; intros s En.
  destruct s as [|b t] eqn:E; [exact H0|]. rewrite <- E in *.
  assert (Hs : s <> []) by congruence.
  rewrite runes_w_cons by assumption.
  pose proof (decode_width s Hs) as W. destruct (decode_rune s) as [r w] eqn:D.
  cbn [snd] in *. apply H1; [exact Hs|exact D|].
  eapply IH; [|reflexivity]. rewrite skipn_length. lia.
Qed.

(** The widths add up to the length of the string. *)
Lemma runes_w_total s : fold_right (fun p n => (snd p + n)%nat) 0%nat (runes_w s) = length s.
Proof.
  apply (runes_w_ind (fun s l => fold_right (fun p n => (snd p + n)%nat) 0%nat l = length s)).
  - reflexivity.
  - intros s0 r w Hs D IH. cbn [fold_right snd]. rewrite IH, skipn_length.
    pose proof (decode_width s0 Hs) as W. rewrite D in W. cbn in W. lia.
Qed.

Lemma runes_w_encode_app rs s : Forall scalar rs ->
  runes_w (encode rs ++ s) = map (fun r => (r, length (encode_rune r))) rs ++ runes_w s.
Proof.
  induction 1 as [|r rs Hr Hrs IH]; [reflexivity|].
  cbn [encode map concat]. fold (encode rs). rewrite <- app_assoc.
  pose proof (encode_rune_length r) as L.
  rewrite runes_w_cons.
  2:{ destruct (encode_rune r); [cbn in L; lia|discriminate]. }
  rewrite decode_encode by assumption. cbn [snd app]. f_equal.
  rewrite skipn_app, skipn_all, Nat.sub_diag. cbn [app skipn]. exact IH.
Qed.

Lemma runes_w_encode rs : Forall scalar rs ->
  runes_w (encode rs) = map (fun r => (r, length (encode_rune r))) rs.
Proof.
  intros H. rewrite <- (app_nil_r (encode rs)), runes_w_encode_app by assumption.
  now rewrite app_nil_r.
Qed.

Lemma runes_encode rs : Forall scalar rs -> runes (encode rs) = rs.
Proof.
  intros H. unfold runes. rewrite runes_w_encode by assumption.
  rewrite map_map. cbn. apply map_id.
Qed.

Lemma encode_app a b : encode (a ++ b) = encode a ++ encode b.
Proof. unfold encode. now rewrite map_app, concat_app. Qed.

Lemma encode_cons r rs : encode (r :: rs) = encode_rune r ++ encode rs.
Proof. reflexivity. Qed.

Lemma runes_scalar s : Forall scalar (runes s).
Proof.
  unfold runes. apply (runes_w_ind (fun _ l => Forall scalar (map fst l))); [constructor|].
  intros s0 r w Hs D IH. cbn [map fst]. constructor; [|exact IH].
  pose proof (decode_spec s0 Hs) as H. rewrite D in H. apply H.
Qed.

Lemma valid_utf8_runes s : valid_utf8 s -> encode (runes s) = s.
Proof. intros (rs & H & ->). now rewrite runes_encode. Qed.

Lemma valid_utf8_iff s : valid_utf8 s <-> encode (runes s) = s.
Proof.
  split; [apply valid_utf8_runes|]. intros E. exists (runes s).
  split; [apply runes_scalar|now symmetry].
Qed.

(** A string is valid exactly when each rune occupies as many bytes as its
    encoding; otherwise its re-encoding is strictly longer. *)
Lemma encode_runes_length s :
  (length s <= length (encode (runes s)))%nat /\
  (length s = length (encode (runes s)) -> encode (runes s) = s).
Proof.
  unfold runes.
  apply (runes_w_ind (fun s l => (length s <= length (encode (map fst l)))%nat /\
    (length s = length (encode (map fst l)) -> encode (map fst l) = s))).
  - split; reflexivity || (cbn; lia).
  - intros s0 r w Hs D [IH1 IH2]. cbn [map fst]. rewrite encode_cons, app_length.
    pose proof (decode_width s0 Hs) as W. rewrite D in W. cbn [snd] in W.
    pose proof (decode_spec s0 Hs) as H. rewrite D in H. destruct H as [_ [H|H]].
    + assert (L : length (encode_rune r) = w).
      { rewrite <- H, firstn_length. lia. }
      rewrite skipn_length in *. split; [lia|]. intros E.
      rewrite <- H, IH2 by lia. apply firstn_skipn.
    + rewrite skipn_length in *. split; [lia|]. intros E. lia.
Qed.

Lemma invalid_longer s : ~ valid_utf8 s -> (length s < length (encode (runes s)))%nat.
Proof.
  intros H. pose proof (encode_runes_length s) as [L E].
  destruct (Nat.eq_dec (length s) (length (encode (runes s)))) as [e|n]; [|lia].
  elim H. apply valid_utf8_iff, E, e.
Qed.

Lemma valid_utf8_app a b : valid_utf8 a -> valid_utf8 b -> valid_utf8 (a ++ b).
Proof.
  intros (ra & Ha & ->) (rb & Hb & ->). exists (ra ++ rb).
  split; [now apply Forall_app|symmetry; apply encode_app].
Qed.

Lemma encode_rune_nonempty r : encode_rune r <> [].
Proof. pose proof (encode_rune_length r). destruct (encode_rune r); [cbn in *; lia|discriminate]. Qed.

Lemma encode_inj rs1 rs2 : Forall scalar rs1 -> Forall scalar rs2 ->
  encode rs1 = encode rs2 -> rs1 = rs2.
Proof.
  intros H1 H2 E. rewrite <- (runes_encode rs1 H1), <- (runes_encode rs2 H2). now rewrite E.
Qed.
