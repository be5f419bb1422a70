(** Proofs about post-processing. *)
From Verif Require Import Base BaseProofs Utf8Model EncodingModel EncodingSpec EncodingProofs ProcessorModel ProcessorSpec.
Open Scope Z_scope.

Lemma map_const_repeat {A B} (b : B) (l : list A) : map (fun _ => b) l = repeat b (length l).
Proof. induction l as [|x l IH]; [reflexivity|]. cbn. now rewrite IH. Qed.
Lemma shift0 (l : list (Z * Z)) : map (fun o => (fst o + 0, snd o + 0)) l = l.
Proof. induction l as [|[a b] l IH]; [reflexivity|]. cbn. now rewrite IH, !Z.add_0_r. Qed.

Lemma bind_Ok_r {A} (x : res A) : (do y <- x; Ok y) = x.
Proof. destruct x; reflexivity. Qed.
Lemma cons_inj {A} (a b : A) l l' : a :: l = b :: l' -> a = b /\ l = l'.
Proof. intros H. now inversion H. Qed.
Lemma rev_repeat {A} (x : A) n : rev (repeat x n) = repeat x n.
Proof. induction n as [|n IH]; [reflexivity|]. cbn. now rewrite IH, <- repeat_cons. Qed.
(** ** Merging with frames *)
Lemma over_spec_flat g e e' p p' : flat e = flat e' -> flat p = flat p' -> map flat (overflowing e) = map flat (overflowing e') ->
  map flat (overflowing p) = map flat (overflowing p') -> over_spec g e p = over_spec g e' p'.
Proof.
  intros He Hp Ho Hq. 
  assert (A : forall x y z d, flat x = flat y -> enc_append x z d = enc_append y z d).
  { intros x y z d H. unfold flat in H. unfold enc_append. injection H as H1 H2 H3 H4 H5 H6 H7. congruence. }
  assert (A' : forall x y z d, flat y = flat z -> enc_append x y d = enc_append x z d).
  { intros x y z d H. unfold flat in H. unfold enc_append. injection H as H1 H2 H3 H4 H5 H6 H7. congruence. }
  assert (G : forall x y, flat x = flat y -> growth g x = growth g y).
  { intros x y H. unfold flat in H. injection H as _ _ _ H _ _ _. unfold growth. now rewrite H. }
  assert (M : forall x y d l l', flat x = flat y -> map flat l = map flat l' -> map (fun q => enc_append x q d) l = map (fun q => enc_append y q d) l').
  { intros x y d l. induction l as [|q l IH]; intros [|q' l'] Hx Hl; try discriminate; [reflexivity|]. cbn [map] in *. apply cons_inj in Hl as [Hq' Hl].
    rewrite (A x y q d Hx), (A' y q q' d Hq'). f_equal. now apply IH. }
  unfold over_spec. f_equal.
  - revert Ho. generalize (overflowing e) (overflowing e'). intros l. induction l as [|o l IH]; intros [|o' l'] Ho; try discriminate; [reflexivity|].
    cbn [map] in Ho. apply cons_inj in Ho as [Ho' Ho]. cbn [flat_map]. rewrite (IH l' Ho). f_equal.
    rewrite (G o o' Ho'). apply M; [exact Ho'|]. cbn [map]. now rewrite Hp, Hq.
  - rewrite (G e e' He). now apply M.
Qed.

Lemma new_ranges i ty tk off sp att w : deep_ranges (new_encoding i ty tk off sp att w).
Proof. constructor; cbn; [discriminate|intros ? ? []|constructor]. Qed.
Lemma framed_ranges add e : (forall x, deep_ranges (add x)) -> deep_ranges (set_overflowing (add e) (map add (overflowing e))).
Proof.
  intros H. pose proof (H e) as He. inversion He as [? H1 H2 _]; subst. constructor; cbn; [exact H1|exact H2|].
  apply Forall_map, Forall_forall. auto.
Qed.

Lemma same_refl x : same x x.
Proof. split; reflexivity. Qed.
Lemma same_len x y : same x y -> enc_len x = enc_len y.
Proof. intros [H _]. unfold flat in H. injection H as H _. unfold enc_len. now rewrite H. Qed.
Lemma over_flat g e p : map flat (over_spec g e p) = over_spec g e p.
Proof.
  unfold over_spec. rewrite map_app, map_map. f_equal. induction (overflowing e) as [|o l IH]; [reflexivity|].
  cbn [flat_map]. now rewrite map_app, map_map, IH.
Qed.
Lemma enc_append_flat x y z w d : flat x = flat y -> flat z = flat w -> enc_append x z d = enc_append y w d.
Proof.
  intros H K. unfold flat in *. unfold enc_append. injection H as H1 H2 H3 H4 H5 H6 H7. injection K as K1 K2 K3 K4 K5 K6 K7. congruence.
Qed.
Lemma merge_same e p r e' p' : merge_with false e p = Ok r -> same e e' -> same p p' ->
  same r (set_overflowing (enc_append e' p' 0) (over_spec false e' p')).
Proof.
  intros H [E1 E2] [P1 P2]. split.
  - rewrite (merge_with_flat _ _ _ _ H). cbn [growth]. rewrite (enc_append_flat e e' p p' 0 E1 P1). reflexivity.
  - cbn [overflowing set_overflowing]. rewrite over_flat, (merge_with_overflow _ _ _ _ H). now apply over_spec_flat.
Qed.
Lemma merges_same l : forall e e' l', deep_ranges e -> Forall deep_ranges l -> same e e' -> Forall2 same l l' ->
  exists r, foldR (fun acc p => merge_with false acc p) l e = Ok r /\ same r (joined e' l') /\ deep_ranges r.
Proof.
  induction l as [|p l IH]; intros e e' l' D F S0 F2; inversion F2 as [|? p' ? l2 H1 H2]; subst.
  - exists e. split; [reflexivity|]. split; [exact S0|exact D].
  - inversion F as [|? ? D1 D2]; subst. destruct (merge_with_total false e p D D1) as (r & E & Dr).
    cbn [foldR]. rewrite E. cbn [bind].
    destruct (IH r (set_overflowing (enc_append e' p' 0) (over_spec false e' p')) l2 Dr D2 (merge_same _ _ _ _ _ E S0 H1) H2) as (r' & E' & S' & Dr').
    exists r'. split; [exact E'|]. split; [exact S'|exact Dr'].
Qed.
Lemma joined_flat l : forall e, flat (joined e l) = concat_enc (e :: l).
Proof.
  induction l as [|p l IH]; intros e; cbn [joined fold_left].
  - unfold concat_enc, flat. cbn. now rewrite !app_nil_r.
  - unfold joined in IH. rewrite IH. unfold concat_enc. cbn. now rewrite shift0, !app_assoc.
Qed.
Lemma same_framed_bert cls sep e : same (set_overflowing (bert_add cls sep e) (map (bert_add cls sep) (overflowing e))) (framed [cls] [sep] 0 e).
Proof.
  assert (A : forall x, flat (bert_add cls sep x) = around [cls] [sep] 0 x).
  { intros x. unfold flat, around, bert_add, new_encoding. cbn [ids type_ids tokens offsets special attention words map app].
    rewrite !map_const_repeat. f_equal. replace (length (ids x) + 2)%nat with (S (length (ids x) + 1)) by lia. cbn. f_equal. now rewrite repeat_app. }
  split; [exact (A e)|]. cbn. rewrite !map_map. apply map_ext. exact A.
Qed.
Lemma same_framed_bert_pair sep e : same (set_overflowing (bert_pair_add sep e) (map (bert_pair_add sep) (overflowing e))) (framed [] [sep] 1 e).
Proof.
  assert (A : forall x, flat (bert_pair_add sep x) = around [] [sep] 1 x).
  { intros x. unfold flat, around, bert_pair_add, new_encoding. cbn [ids type_ids tokens offsets special attention words map app].
    now rewrite !map_const_repeat. }
  split; [exact (A e)|]. cbn. rewrite !map_map. apply map_ext. exact A.
Qed.
Lemma same_framed_roberta cls sep e : two_parallel e ->
  same (set_overflowing (roberta_add cls sep e) (map (roberta_add cls sep) (overflowing e))) (framed [cls] [sep] 0 e).
Proof.
  assert (A : forall x, parallel x -> flat (roberta_add cls sep x) = around [cls] [sep] 0 x).
  { intros x (_ & _ & _ & P4 & P5 & _). unfold flat, around, roberta_add, new_encoding. cbn [ids type_ids tokens offsets special attention words map app].
    now rewrite !map_const_repeat, P4, P5. }
  intros [P F]. split; [exact (A e P)|]. cbn. rewrite !map_map. apply map_ext_Forall. eapply Forall_impl; [|exact F]. exact A.
Qed.
Lemma same_framed_roberta_pair sep e : two_parallel e ->
  same (set_overflowing (roberta_pair_add sep e) (map (roberta_pair_add sep) (overflowing e))) (framed [sep] [sep] 1 e).
Proof.
  assert (A : forall x, parallel x -> flat (roberta_pair_add sep x) = around [sep] [sep] 1 x).
  { intros x (_ & _ & _ & P4 & P5 & _). unfold flat, around, roberta_pair_add, new_encoding. cbn [ids type_ids tokens offsets special attention words map app].
    now rewrite !map_const_repeat, P4, P5. }
  intros [P F]. split; [exact (A e P)|]. cbn. rewrite !map_map. apply map_ext_Forall. eapply Forall_impl; [|exact F]. exact A.
Qed.

(** [add_and_merge] in one statement. *)
Lemma add_and_merge_same add pair_add e pair f fp :
  (forall x, deep_ranges (add x)) -> (forall x, deep_ranges (pair_add x)) ->
  same (set_overflowing (add e) (map add (overflowing e))) f ->
  match pair, fp with
  | Some p, Some q => same (set_overflowing (pair_add p) (map pair_add (overflowing p))) q
  | None, None => True
  | _, _ => False
  end ->
  exists r, add_and_merge add pair_add e pair = Ok r /\ same r (with_pair f fp) /\ deep_ranges r.
Proof.
  intros R1 R2 H1 H2. unfold add_and_merge. destruct pair as [p|], fp as [q|]; try contradiction.
  - destruct (merges_same [set_overflowing (pair_add p) (map pair_add (overflowing p))] _ f [q] (framed_ranges add e R1)) as (r & E & S0 & D).
    + constructor; [apply framed_ranges, R2|constructor].
    + exact H1.
    + constructor; [exact H2|constructor].
    + cbn [foldR] in E. rewrite bind_Ok_r in E. exists r. auto.
  - eexists. split; [reflexivity|]. split; [exact H1|now apply framed_ranges].
Qed.

(** ** Trimming *)
Lemma leading_repeat a l : leading (repeat 288%N a ++ l) = Z.of_nat a + leading l.
Proof. induction a as [|a IH]; [reflexivity|]. cbn [repeat app leading]. rewrite N.eqb_refl, IH. lia. Qed.
Lemma leading_stop l x : hd_error l = Some x -> x <> 288%N -> leading l = 0.
Proof. destruct l as [|y l]; [discriminate|]. intros [= ->] H. cbn. now destruct (N.eqb_spec x 288). Qed.
Lemma spaced_leading tok a b : spaced tok a b -> leading (runes tok) = Z.of_nat a /\ leading (rev (runes tok)) = Z.of_nat b.
Proof.
  intros [(mid & x & y & -> & Hx & Hy & Nx & Ny)|[-> ->]].
  - split.
    + rewrite leading_repeat. rewrite (leading_stop (mid ++ _) x); [lia| |exact Nx]. destruct mid; [discriminate|exact Hx].
    + rewrite !rev_app_distr, rev_repeat, <- app_assoc, leading_repeat. rewrite (leading_stop (rev mid ++ _) y); [lia| |exact Ny].
      destruct (rev mid); [discriminate|exact Hy].
  - rewrite rev_repeat. pose proof (leading_repeat a []) as H. rewrite app_nil_r in H. cbn in H. split; lia.
Qed.
Lemma strip_front l : exists a m, l = repeat 288%N a ++ m /\ match m with [] => True | x :: _ => x <> 288%N end.
Proof.
  induction l as [|x l (a & m & -> & H)]; [exists 0%nat, []; now split|].
  destruct (N.eq_dec x 288) as [->|E]; [exists (S a), m; now split|]. exists 0%nat, (x :: repeat 288%N a ++ m). now split.
Qed.
Lemma spaced_exists tok : exists a b, spaced tok a b.
Proof.
  destruct (strip_front (runes tok)) as (a & m & E & H). destruct m as [|x m].
  - exists a, a. right. rewrite E, app_nil_r. now split.
  - destruct (strip_front (rev (x :: m))) as (b & m' & E' & H'). destruct m' as [|y m'].
    + exfalso. rewrite app_nil_r in E'. assert (I : In x (repeat 288%N b)). { rewrite <- E'. apply in_rev. rewrite rev_involutive. now left. }
      apply repeat_spec in I. congruence.
    + apply (f_equal (@rev N)) in E'. rewrite rev_involutive, rev_app_distr, rev_repeat in E'.
      exists a, b. left. exists (rev (y :: m')), x, y. rewrite E, E'. split; [reflexivity|].
      assert (hd_error (rev (y :: m')) = Some x).
      { destruct (rev (y :: m')) as [|z w] eqn:R; [apply (f_equal (@length N)) in R; rewrite rev_length in R; discriminate|]. cbn in E'. injection E' as -> _. reflexivity. }
      split; [assumption|]. rewrite rev_involutive. now split.
Qed.
Lemma trim_offset_spec prefix i tok o a b : spaced tok a b -> 0 <= fst o <= snd o -> Z.of_nat b <= snd o ->
  trim_offset prefix i tok o = without_spaces prefix (i =? 0)%nat a b o.
Proof.
  intros H Ho Hb. destruct (spaced_leading tok a b H) as [La Lb]. unfold trim_offset, without_spaces. rewrite La, Lb.
  replace (Z.of_nat a =? 1) with (a =? 1)%nat by (destruct (Nat.eqb_spec a 1); lia).
  destruct o as [s e]. cbn [fst snd] in *. set (ld := if (_ && _)%bool then 0 else Z.of_nat a).
  assert (0 <= ld <= Z.of_nat a) by (unfold ld; destruct (_ && _)%bool; lia). clearbody ld.
  f_equal; destruct (Z.ltb_spec 0 (Z.of_nat a)); destruct (Z.ltb_spec e (s + ld)); destruct (Z.ltb_spec 0 (Z.of_nat b));
    destruct (Z.leb_spec (Z.of_nat b) e); cbn [andb]; try lia;
    match goal with |- context [if ?c <? ?d then _ else _] => destruct (Z.ltb_spec c d) end; lia.
Qed.
Lemma trim_from_spec prefix toks : forall i offs, length offs = length toks ->
  exists o', trim_from prefix i toks offs = Ok o' /\ length o' = length toks /\
    forall j tok o, nth_error toks j = Some tok -> nth_error offs j = Some o -> nth_error o' j = Some (trim_offset prefix (i + j) tok o).
Proof.
  induction toks as [|t toks IH]; intros i [|o offs] L; try discriminate.
  - exists []. split; [reflexivity|]. split; [reflexivity|]. intros [|j]; discriminate.
  - destruct (IH (S i) offs ltac:(cbn in L; lia)) as (o' & E & L' & H). cbn [trim_from]. rewrite E. cbn [bind].
    eexists. split; [reflexivity|]. split; [cbn; lia|]. intros [|j] tok o0 H1 H2; cbn in H1, H2 |- *.
    + injection H1 as ->. injection H2 as ->. now rewrite Nat.add_0_r.
    + rewrite (H j tok o0 H1 H2). do 2 f_equal. lia.
Qed.
Lemma process_offsets_trimmed prefix e : parallel e ->
  exists o, process_offsets prefix e = Ok (set_offsets e o) /\ trimmed prefix e (set_offsets e o) /\ parallel (set_offsets e o).
Proof.
  intros P. destruct (trim_from_spec prefix (tokens e) 0 (offsets e)) as (o & E & L & H).
  { destruct P as (_ & P2 & P3 & _). congruence. }
  unfold process_offsets. rewrite E. cbn [bind]. exists o. split; [reflexivity|]. split.
  - do 6 (split; [reflexivity|]). split; [exact L|]. intros i tok o0 a b H1 H2 Sp Ho Hb. cbn.
    rewrite (H i tok o0 H1 H2). f_equal. now apply trim_offset_spec.
  - destruct P as (P1 & P2 & P3 & P4 & P5 & P6). unfold parallel. cbn. rewrite L. auto 10.
Qed.
Lemma process_all_offsets_trimmed prefix e : two_parallel e ->
  exists e', process_all_offsets prefix e = Ok e' /\ all_trimmed prefix e e' /\ two_parallel e' /\ seq_ranges e' = seq_ranges e /\
    Forall2 (fun o o' => seq_ranges o' = seq_ranges o /\ overflowing o' = overflowing o) (overflowing e) (overflowing e').
Proof.
  intros [P F]. destruct (process_offsets_trimmed prefix e P) as (o & E & T & P'). unfold process_all_offsets. rewrite E. cbn [bind].
  assert (X : exists over, mapR (process_offsets prefix) (overflowing e) = Ok over /\ Forall2 (trimmed prefix) (overflowing e) over /\ Forall parallel over /\
     Forall2 (fun o o' => seq_ranges o' = seq_ranges o /\ overflowing o' = overflowing o) (overflowing e) over).
  { clear -F. induction F as [|x l Px F (over & E & T & P & R)].
    - exists []. split; [reflexivity|]. split; constructor; constructor.
    - destruct (process_offsets_trimmed prefix x Px) as (o & Ex & Tx & Px'). cbn [mapR]. rewrite Ex. cbn [bind]. rewrite E. cbn [bind].
      eexists. split; [reflexivity|]. split; [now constructor|]. split; [now constructor|]. constructor; [now split|exact R]. }
  destruct X as (over & EX & T2 & P2 & R2). change (overflowing (set_offsets e o)) with (overflowing e). rewrite EX. cbn [bind].
  eexists. split; [reflexivity|]. split; [split; [exact T|exact T2]|]. split; [split; [exact P'|exact P2]|]. split; [reflexivity|exact R2].
Qed.

(** ** Preparing the encodings *)
Definition with_range (i : Z) (e : Encoding) : Encoding :=
  if 0 <? enc_len e then
    mkEnc (ids e) (type_ids e) (tokens e) (offsets e) (special e) (attention e) (words e) (overflowing e)
      (Some (aset Z.eqb i (zrange (length (ids e)) 0) (match seq_ranges e with Some m => m | None => [] end)))
  else e.
Lemma set_sequence_ids_ok e i : set_sequence_ids e i = Ok (with_range i e).
Proof.
  unfold set_sequence_ids, with_range. destruct (Z.ltb_spec 0 (enc_len e)) as [H|H]; [|reflexivity].
  rewrite new_range_Ok by lia. cbn [bind]. rewrite Z.sub_0_r. unfold enc_len, zlen. now rewrite Nat2Z.id.
Qed.
Lemma with_range_flat i e : flat (with_range i e) = flat e.
Proof. unfold with_range. now destruct (0 <? enc_len e). Qed.
Lemma with_range_over i e : overflowing (with_range i e) = overflowing e.
Proof. unfold with_range. now destruct (0 <? enc_len e). Qed.
Lemma with_range_ids i e : ids (with_range i e) = ids e.
Proof. unfold with_range. now destruct (0 <? enc_len e). Qed.
Lemma with_range_ok i e : ranges_ok e -> ranges_ok (with_range i e).
Proof.
  intros H. unfold with_range. destruct (Z.ltb_spec 0 (enc_len e)) as [L|L]; [|exact H].
  unfold ranges_ok in *. cbn. intros k r I. apply aset_in in I as [->|I].
  - unfold enc_len, zlen in L. assert (Hn : (0 < length (ids e))%nat) by lia. pose proof (zrange_last _ 0 Hn) as X.
    destruct (length (ids e)) as [|n]; [lia|]. cbn [zrange] in X |- *. do 2 eexists. split; [reflexivity|]. split; [lia|]. rewrite X. lia.
  - destruct (seq_ranges e) as [m|]; [now apply (H k r)|destruct I].
Qed.
Lemma with_range_some i e : (0 < enc_len e \/ seq_ranges e <> None) -> seq_ranges (with_range i e) <> None.
Proof. unfold with_range. destruct (Z.ltb_spec 0 (enc_len e)); intros [H'|H']; try lia; cbn; congruence. Qed.
Lemma mapR_ok {A B} (f : A -> res B) g l : (forall x, f x = Ok (g x)) -> mapR f l = Ok (map g l).
Proof. intros H. induction l as [|x l IH]; [reflexivity|]. cbn [mapR map]. now rewrite H, IH. Qed.

Definition prepared (i : Z) (e : Encoding) : Encoding :=
  let e2 := set_overflowing (with_range i e) (map (with_range i) (overflowing e)) in
  if 0 <? enc_len e then set_type_ids e2 (repeat i (length (ids e))) else e2.
Lemma prepare_ok i e : prepare i e = Ok (prepared i e).
Proof.
  unfold prepare. rewrite set_sequence_ids_ok. cbn [bind]. rewrite (mapR_ok _ (with_range i)) by (intros; apply set_sequence_ids_ok). cbn [bind].
  unfold prepared. rewrite with_range_over. f_equal. unfold enc_len, set_overflowing. cbn [ids]. rewrite !with_range_ids. reflexivity.
Qed.
Lemma prepare_encodings_ok e pair : prepare_encodings e pair =
  Ok (prepared 0 e :: match pair with Some p => [prepared 1 p] | None => [] end).
Proof. unfold prepare_encodings. rewrite prepare_ok. cbn [bind]. destruct pair as [p|]; [|reflexivity]. now rewrite prepare_ok. Qed.
Lemma prepared_same i e : type_ids e = [] \/ ids e <> [] -> same (prepared i e) (retyped i e).
Proof.
  intros H. unfold prepared, retyped, with_range. unfold enc_len, zlen. split.
  - destruct (ids e) as [|x l] eqn:E.
    + destruct H as [H|]; [|congruence]. cbn. unfold flat. cbn. now rewrite E, H.
    + cbn [length]. replace (0 <? Z.of_nat (S (length l))) with true by lia. unfold flat. cbn. now rewrite map_const_repeat, ?E.
  - destruct (0 <? Z.of_nat (length (ids e))); cbn; rewrite map_map; apply map_ext; intros x; apply with_range_flat.
Qed.
Lemma prepared_ids i e : ids (prepared i e) = ids e.
Proof. unfold prepared. destruct (0 <? enc_len e); cbn; apply with_range_ids. Qed.
Lemma prepared_ranges i e : rangeable e -> deep_ranges (prepared i e).
Proof.
  intros (H1 & H2 & H3). pose proof (with_range_some i e H1) as A. pose proof (with_range_ok i e H2) as B.
  assert (C : Forall deep_ranges (map (with_range i) (overflowing e))).
  { apply Forall_map. eapply Forall_impl; [|exact H3]. intros o (O1 & O2 & O3). constructor.
    - now apply with_range_some.
    - now apply with_range_ok.
    - now rewrite with_range_over. }
  unfold prepared. destruct (0 <? enc_len e); constructor; cbn; auto.
Qed.
(** What one sequence piece contributes, whatever the type ids were. *)
Definition seq_part (i ty : Z) (e : Encoding) : Encoding := with_range i (set_type_ids (prepared i e) (repeat ty (length (ids e)))).
Lemma seq_part_same i ty e : same (seq_part i ty e) (retyped ty e).
Proof.
  unfold seq_part. split.
  - rewrite with_range_flat. unfold prepared, with_range, set_type_ids, retyped, flat.
    destruct (0 <? enc_len e); cbn; now rewrite map_const_repeat.
  - rewrite with_range_over. unfold prepared. destruct (0 <? enc_len e); cbn; rewrite map_map; apply map_ext; intros x; apply with_range_flat.
Qed.
Lemma seq_part_ranges i ty e : rangeable e -> deep_ranges (seq_part i ty e).
Proof.
  intros H. pose proof (prepared_ranges i e H) as D. inversion D as [? D1 D2 D3]; subst. unfold seq_part. constructor.
  - apply with_range_some. right. exact D1.
  - apply with_range_ok. exact D2.
  - rewrite with_range_over. exact D3.
Qed.

(** ** Templates *)
Definition template_part (toks : special_tokens) (e : Encoding) (pair : option Encoding) (add : bool) (p : piece) : list Encoding :=
  match p with
  | PSeq false ty => [seq_part 0 ty e]
  | PSeq true ty => match pair with Some q => [seq_part 1 ty q] | None => [] end
  | PSpecial id ty =>
      if add then match aget str_eqb id toks with
                  | Some t => [new_encoding (fst t) (repeat ty (length (fst t))) (snd t) (repeat (0, 0) (length (fst t))) (repeat 1 (length (fst t))) (repeat 1 (length (fst t))) []]
                  | None => [] end else []
  end.
Definition available_dec toks pair add p : {available toks pair add p} + {~ available toks pair add p}.
Proof.
  destruct p as [[|] ty|id ty]; cbn.
  - destruct pair; [left; discriminate|right; intros H; now apply H].
  - left. discriminate.
  - destruct add; [|left; discriminate]. destruct (aget str_eqb id toks); [left; discriminate|right; intros H; now apply H].
Defined.
Lemma apply_piece_ok toks e pair add p :
  apply_piece toks (prepared 0 e :: match pair with Some p => [prepared 1 p] | None => [] end) add p =
  if available_dec toks pair add p then Ok (template_part toks e pair add p) else Panic.
Proof.
  destruct p as [[|] ty|id ty].
  - cbn [apply_piece]. destruct pair as [q|].
    + change (zindex [prepared 0 e; prepared 1 q] 1) with (Ok (prepared 1 q)). cbn [bind]. rewrite set_sequence_ids_ok. cbn [bind available_dec template_part].
      unfold seq_part. now rewrite prepared_ids.
    + reflexivity.
  - cbn [apply_piece]. rewrite zindex_0. cbn [bind]. rewrite set_sequence_ids_ok. cbn [bind available_dec template_part]. unfold seq_part. now rewrite prepared_ids.
  - cbn. destruct add; [|reflexivity]. destruct (aget str_eqb id toks) as [[i t]|]; reflexivity.
Qed.
Lemma apply_template_ok toks e pair add tpl :
  (Forall (available toks pair add) tpl ->
   apply_template tpl toks (prepared 0 e :: match pair with Some p => [prepared 1 p] | None => [] end) add = Ok (flat_map (template_part toks e pair add) tpl)) /\
  (~ Forall (available toks pair add) tpl ->
   apply_template tpl toks (prepared 0 e :: match pair with Some p => [prepared 1 p] | None => [] end) add = Panic).
Proof.
  unfold apply_template. set (encs := prepared 0 e :: _). split.
  - intros F. assert (E : mapR (apply_piece toks encs add) tpl = Ok (map (template_part toks e pair add) tpl)).
    { induction F as [|p tpl A F IH]; [reflexivity|]. cbn [mapR map]. unfold encs at 1. rewrite apply_piece_ok.
      destruct (available_dec toks pair add p); [|contradiction]. cbn [bind]. now rewrite IH. }
    rewrite E. cbn [bind]. now rewrite flat_map_concat_map.
  - intros F. assert (E : mapR (apply_piece toks encs add) tpl = Panic).
    { induction tpl as [|p tpl IH]; [exfalso; apply F; constructor|]. cbn [mapR]. unfold encs at 1. rewrite apply_piece_ok.
      destruct (available_dec toks pair add p) as [A|]; [|reflexivity]. cbn [bind]. rewrite IH; [reflexivity|]. intros F'. apply F. now constructor. }
    now rewrite E.
Qed.
Lemma template_part_same toks e pair add p : Forall2 same (template_part toks e pair add p) (piece_parts toks e pair add p).
Proof.
  destruct p as [[|] ty|id ty]; cbn.
  - destruct pair; constructor; [apply seq_part_same|constructor].
  - constructor; [apply seq_part_same|constructor].
  - destruct add; [|constructor]. destruct (aget str_eqb id toks) as [[i t]|]; constructor; [|constructor].
    split; [|reflexivity]. unfold flat, new_encoding, special_piece. cbn. now rewrite !map_const_repeat.
Qed.
Lemma template_part_ranges toks e pair add p : rangeable e -> (forall q, pair = Some q -> rangeable q) ->
  Forall deep_ranges (template_part toks e pair add p).
Proof.
  intros R1 R2. destruct p as [[|] ty|id ty]; cbn.
  - destruct pair as [q|]; constructor; [apply seq_part_ranges; auto|constructor].
  - constructor; [now apply seq_part_ranges|constructor].
  - destruct add; [|constructor]. destruct (aget str_eqb id toks) as [[i t]|]; constructor; [|constructor]. apply new_ranges.
Qed.
Lemma Forall2_flat_map {A B} (R : B -> B -> Prop) (f g : A -> list B) l : (forall x, Forall2 R (f x) (g x)) -> Forall2 R (flat_map f l) (flat_map g l).
Proof. intros H. induction l as [|x l IH]; [constructor|]. cbn. now apply Forall2_app. Qed.
Lemma Forall_flat_map' {A B} (P : B -> Prop) (f : A -> list B) l : (forall x, Forall P (f x)) -> Forall P (flat_map f l).
Proof. intros H. induction l as [|x l IH]; [constructor|]. cbn. apply Forall_app. auto. Qed.

Lemma template_cases single both toks e pair add : rangeable e -> (forall q, pair = Some q -> rangeable q) ->
  let tpl := template_of single both pair in
  let parts := flat_map (piece_parts toks e pair add) tpl in
  (Forall (available toks pair add) tpl ->
     match parts with
     | [] => process (PTemplate single both toks) e pair add = Ok None
     | p :: l => exists r, process (PTemplate single both toks) e pair add = Ok (Some r) /\ same r (joined p l) /\ deep_ranges r
     end) /\
  (~ Forall (available toks pair add) tpl -> process (PTemplate single both toks) e pair add = Panic).
Proof.
  intros R1 R2 tpl parts. cbn [process]. unfold template_process. rewrite prepare_encodings_ok. cbn [bind].
  change (match pair with None => single | Some _ => both end) with tpl.
  destruct (apply_template_ok toks e pair add tpl) as [A1 A2]. split.
  - intros F. rewrite (A1 F). cbn [bind].
    assert (S2 : Forall2 same (flat_map (template_part toks e pair add) tpl) parts) by (apply Forall2_flat_map, template_part_same).
    assert (D : Forall deep_ranges (flat_map (template_part toks e pair add) tpl)) by (apply Forall_flat_map'; intros; now apply template_part_ranges).
    clearbody parts. clear A1 A2. destruct S2 as [|x p l l' H1 H2]; [reflexivity|]. inversion D as [|? ? D1 D2]; subst.
    destruct (merges_same l x p l' D1 D2 H1 H2) as (r & E & S0 & Dr). cbn [merge_encodings]. rewrite E. cbn [bind]. exists r. auto.
  - intros F. now rewrite (A2 F).
Qed.

(** ** Lengths *)
Lemma around_len b a ty e : enc_len (around b a ty e) = zlen b + enc_len e + zlen a.
Proof. unfold enc_len, zlen, around. cbn. rewrite !app_length, !map_length. lia. Qed.
Lemma joined_len l : forall e, enc_len (joined e l) = enc_len e + fold_right (fun p n => enc_len p + n) 0 l.
Proof.
  induction l as [|p l IH]; intros e; cbn [joined fold_left fold_right]; [lia|]. unfold joined in IH. rewrite IH.
  unfold enc_len, zlen. cbn. rewrite app_length. lia.
Qed.
Lemma len_nonneg e : 0 <= enc_len e.
Proof. unfold enc_len, zlen. lia. Qed.
Lemma merge_len e p r : merge_with false e p = Ok r -> enc_len r = enc_len e + enc_len p.
Proof.
  intros H. apply merge_with_flat in H. apply (f_equal ids) in H. cbn in H. unfold enc_len. rewrite H. unfold zlen. rewrite app_length. lia.
Qed.
Lemma default_len e pair r : default_process e pair = Ok r -> enc_len r = enc_len e + pair_len pair.
Proof. destruct pair as [p|]; cbn; [apply merge_len|]. intros [= ->]. lia. Qed.
Lemma merges_len l : forall e r, foldR (fun acc p => merge_with false acc p) l e = Ok r -> enc_len r = enc_len e + fold_right (fun p n => enc_len p + n) 0 l.
Proof.
  induction l as [|p l IH]; intros e r; cbn [foldR fold_right]; [intros [= ->]; lia|].
  intros H. apply bind_Ok_inv in H as (m & H1 & H2). apply merge_len in H1. apply IH in H2. lia.
Qed.
Lemma bert_adds cls sep : adds_exactly (PBert cls sep).
Proof.
  intros e pair add r H. cbn in H. apply bind_Ok_inv in H as (r' & H & E). injection E as <-. unfold bert_process in H.
  destruct add; cbn [negb] in H; [|rewrite (default_len _ _ _ H); cbv iota; lia].
  unfold add_and_merge in H. destruct pair as [p|]; cbn [is_pair pair_len added_tokens].
  - rewrite (merge_len _ _ _ H). unfold enc_len, zlen. cbn [ids set_overflowing bert_add bert_pair_add roberta_add roberta_pair_add new_encoding length]. rewrite !app_length. cbn [length]. lia.
  - injection H as <-. unfold enc_len, zlen. cbn [ids set_overflowing bert_add bert_pair_add roberta_add roberta_pair_add new_encoding length]. rewrite !app_length. cbn [length]. lia.
Qed.
Lemma process_all_offsets_len prefix e e' : process_all_offsets prefix e = Ok e' -> enc_len e' = enc_len e.
Proof.
  unfold process_all_offsets, process_offsets. intros H. apply bind_Ok_inv in H as (e1 & H1 & H). apply bind_Ok_inv in H as (ov & H2 & H). injection H as <-.
  apply bind_Ok_inv in H1 as (o & _ & H1). injection H1 as <-. reflexivity.
Qed.
Lemma roberta_adds cls sep trim prefix : adds_exactly (PRoberta cls sep trim prefix).
Proof.
  intros e pair add r H. cbn in H. unfold roberta_process in H. destruct trim; [|destruct add; discriminate].
  apply bind_Ok_inv in H as (e1 & He & H). apply bind_Ok_inv in H as (p1 & Hp & H). apply bind_Ok_inv in H as (r' & H & E). injection E as <-.
  apply process_all_offsets_len in He.
  assert (Lp : pair_len p1 = pair_len pair /\ is_pair p1 = is_pair pair).
  { destruct pair as [p|]; [|injection Hp as <-; now split]. apply bind_Ok_inv in Hp as (p2 & Hp & E). injection E as <-.
    split; [|reflexivity]. cbn. now apply process_all_offsets_len in Hp. }
  destruct Lp as [Lp Ip]. destruct add; cbn [negb] in H; [|rewrite (default_len _ _ _ H); cbv iota; lia].
  unfold add_and_merge in H. destruct p1 as [p|], pair as [p0|]; try discriminate; cbn [is_pair pair_len added_tokens] in *.
  - rewrite (merge_len _ _ _ H). unfold enc_len, zlen in *. cbn [ids set_overflowing bert_add bert_pair_add roberta_add roberta_pair_add new_encoding length]. rewrite !app_length. cbn [length]. lia.
  - injection H as <-. unfold enc_len, zlen in *. cbn [ids set_overflowing bert_add bert_pair_add roberta_add roberta_pair_add new_encoding length]. rewrite !app_length. cbn [length]. lia.
Qed.
Lemma bytelevel_adds prefix trim : adds_exactly (PByteLevel prefix trim).
Proof.
  intros e pair add r H. cbn [process added_tokens] in *. apply bind_Ok_inv in H as (r' & H & E). injection E as <-.
  unfold bytelevel_process in H. rewrite prepare_encodings_ok in H. cbn [bind] in H. apply bind_Ok_inv in H as (encs & H1 & H).
  assert (L : Forall2 (fun x y => enc_len y = enc_len x) (prepared 0 e :: match pair with Some p => [prepared 1 p] | None => [] end) encs).
  { destruct trim.
    - clear H. apply mapR_Ok_Forall2 in H1. revert H1. generalize (prepared 0 e :: match pair with Some p => [prepared 1 p] | None => [] end).
      intros l H1. induction H1 as [|x y l l' H2 _ IH]; constructor; auto. now apply process_all_offsets_len in H2.
    - injection H1 as <-. destruct pair; repeat constructor. }
  assert (P : forall i x, enc_len (prepared i x) = enc_len x) by (intros; unfold enc_len; now rewrite prepared_ids).
  inversion L as [|x y l l' L1 L2]; subst. apply merges_len in H. rewrite H, L1, P.
  destruct pair as [p|].
  - inversion L2 as [|? y2 ? l2 L3 L4]; subst. inversion L4; subst. cbn [fold_right pair_len]. rewrite L3, P. destruct add; lia.
  - inversion L2; subst. cbn [fold_right pair_len]. destruct add; lia.
Qed.

(** ** Parallel lists *)
Lemma two_parallel_same x y : same x y -> two_parallel y -> two_parallel x.
Proof.
  intros [H1 H2] [P F]. split.
  - change (parallel (flat x)). rewrite H1. exact P.
  - assert (G : Forall parallel (map flat (overflowing x))). { rewrite H2. apply Forall_map. eapply Forall_impl; [|exact F]. intros a Ha. exact Ha. }
    apply Forall_forall. intros a Ia. rewrite Forall_forall in G. exact (G (flat a) (in_map flat _ _ Ia)).
Qed.
Lemma over_parallel e p : two_parallel e -> two_parallel p -> Forall parallel (over_spec false e p).
Proof.
  intros [P F] [Q G]. unfold over_spec. apply Forall_app. split.
  - apply Forall_forall. intros x I. apply in_flat_map in I as (o & Io & I). apply in_map_iff in I as (q & <- & Iq).
    rewrite Forall_forall in F, G. apply parallel_append; [now apply F|]. destruct Iq as [<-|Iq]; [exact Q|now apply G].
  - apply Forall_map. eapply Forall_impl; [|exact G]. intros q Hq. now apply parallel_append.
Qed.
Lemma joined_parallel l : forall e, two_parallel e -> Forall two_parallel l -> two_parallel (joined e l).
Proof.
  induction l as [|p l IH]; intros e P F; [exact P|]. inversion F as [|? ? F1 F2]; subst. cbn [joined fold_left]. apply IH; [|exact F2].
  split; [|now apply over_parallel]. destruct P, F1. apply (parallel_append e p 0); assumption.
Qed.
Lemma around_parallel b a ty e : parallel e -> parallel (around b a ty e).
Proof.
  intros (P1 & P2 & P3 & P4 & P5 & P6). unfold parallel, around. cbn. rewrite !app_length, !map_length, P1, P2, P3, P6. auto 10.
Qed.
Lemma framed_parallel b a ty e : two_parallel e -> two_parallel (framed b a ty e).
Proof.
  intros [P F]. split; [exact (around_parallel b a ty e P)|]. cbn. apply Forall_map. eapply Forall_impl; [|exact F]. intros x. apply around_parallel.
Qed.
Lemma with_pair_parallel f q : two_parallel f -> (forall x, q = Some x -> two_parallel x) -> two_parallel (with_pair f q).
Proof. intros P H. destruct q as [q|]; [|exact P]. apply joined_parallel; [exact P|]. constructor; [now apply H|constructor]. Qed.

(** ** BERT and RoBERTa *)
Lemma bert_framed cls sep e pair :
  exists r, process (PBert cls sep) e pair true = Ok (Some r) /\ deep_ranges r /\
    same r (with_pair (framed [cls] [sep] 0 e) (option_map (framed [] [sep] 1) pair)).
Proof.
  destruct (add_and_merge_same (bert_add cls sep) (bert_pair_add sep) e pair _ (option_map (framed [] [sep] 1) pair)
    (fun x => new_ranges _ _ _ _ _ _ _) (fun x => new_ranges _ _ _ _ _ _ _) (same_framed_bert cls sep e)) as (r & E & S0 & D).
  { destruct pair; cbn; [apply same_framed_bert_pair|exact I]. }
  cbn [process]. unfold bert_process. cbn [negb]. rewrite E. cbn [bind]. exists r. auto.
Qed.
Lemma roberta_framed cls sep prefix e pair : two_parallel e -> (forall p, pair = Some p -> two_parallel p) ->
  exists r e1 p1, process (PRoberta cls sep true prefix) e pair true = Ok (Some r) /\ deep_ranges r /\
    all_trimmed prefix e e1 /\
    match pair, p1 with Some p, Some q => all_trimmed prefix p q | None, None => True | _, _ => False end /\
    two_parallel e1 /\ (forall q, p1 = Some q -> two_parallel q) /\
    same r (with_pair (framed [cls] [sep] 0 e1) (option_map (framed [sep] [sep] 1) p1)).
Proof.
  intros P Q. cbn [process]. unfold roberta_process.
  destruct (process_all_offsets_trimmed prefix e P) as (e1 & E1 & T1 & P1 & _). rewrite E1. cbn [bind].
  assert (X : exists p1, match pair with None => Ok None | Some p => do p1 <- process_all_offsets prefix p; Ok (Some p1) end = Ok p1 /\
     match pair, p1 with Some p, Some q => all_trimmed prefix p q | None, None => True | _, _ => False end /\ (forall q, p1 = Some q -> two_parallel q)).
  { destruct pair as [p|].
    - destruct (process_all_offsets_trimmed prefix p (Q p eq_refl)) as (q & E & T & P2 & _). rewrite E. cbn [bind]. exists (Some q).
      split; [reflexivity|]. split; [exact T|]. intros ? [= <-]. exact P2.
    - exists None. split; [reflexivity|]. split; [exact I|discriminate]. }
  destruct X as (p1 & E2 & T2 & P2). rewrite E2. cbn [bind negb].
  destruct (add_and_merge_same (roberta_add cls sep) (roberta_pair_add sep) e1 p1 _ (option_map (framed [sep] [sep] 1) p1)
    (fun x => new_ranges _ _ _ _ _ _ _) (fun x => new_ranges _ _ _ _ _ _ _) (same_framed_roberta cls sep e1 P1)) as (r & E & S0 & D).
  { destruct p1 as [q|]; cbn; [apply same_framed_roberta_pair; now apply P2|exact I]. }
  rewrite E. cbn [bind]. exists r, e1, p1. auto 10.
Qed.
Lemma default_same e pair : (pair <> None -> deep_ranges e) -> (forall p, pair = Some p -> deep_ranges p) ->
  exists r, default_process e pair = Ok r /\ same r (with_pair e pair).
Proof.
  intros H1 H2. destruct pair as [p|]; cbn [default_process with_pair].
  - destruct (merges_same [p] e e [p]) as (r & E & S0 & _).
    + apply H1. discriminate.
    + constructor; [now apply H2|constructor].
    + apply same_refl.
    + constructor; [apply same_refl|constructor].
    + cbn [foldR] in E. rewrite bind_Ok_r in E. exists r. auto.
  - exists e. split; [reflexivity|apply same_refl].
Qed.

(** ** Byte level *)
Lemma trimmed_same prefix x y e' : same x y -> all_trimmed prefix x e' -> all_trimmed prefix y e'.
Proof.
  intros [H1 H2] [T1 T2]. 
  assert (A : forall x y z, flat x = flat y -> trimmed prefix x z -> trimmed prefix y z).
  { clear. intros x y z H. unfold flat in H. injection H as H1 H2 H3 H4 H5 H6 H7. unfold trimmed. now rewrite H1, H2, H3, H4, H5, H6, H7. }
  split; [exact (A _ _ _ H1 T1)|]. clear H1 T1. revert H2 T2. generalize (overflowing x) (overflowing y) (overflowing e'). intros l. induction l as [|a l IH]; intros [|b l'] l2 H T; try discriminate.
  - exact T.
  - cbn [map] in H. apply cons_inj in H as [Ha H]. inversion T as [|? c ? l3 T1 T2]; subst. constructor; [exact (A _ _ _ Ha T1)|now apply IH].
Qed.
Lemma prepared_parallel i e : two_parallel e -> two_parallel (prepared i e).
Proof.
  intros [P F]. apply (two_parallel_same _ (retyped i e)).
  - apply prepared_same. destruct P as (P1 & _). destruct (ids e); [left|right; discriminate]. now apply length_zero_iff_nil in P1.
  - split; [|exact F]. destruct P as (P1 & P2 & P3 & P4 & P5 & P6). unfold parallel, retyped. cbn. rewrite map_length. auto 10.
Qed.
Lemma process_all_offsets_ranges prefix e e' : two_parallel e -> process_all_offsets prefix e = Ok e' -> deep_ranges e -> deep_ranges e'.
Proof.
  intros P H D. destruct (process_all_offsets_trimmed prefix e P) as (e2 & E & _ & _ & R & F). rewrite E in H. injection H as <-.
  inversion D as [? D1 D2 D3]; subst. constructor.
  - now rewrite R.
  - unfold ranges_ok. rewrite R. exact D2.
  - clear -D3 F. induction F as [|o o' l l' [H1 H2] F IH]; [constructor|]. inversion D3 as [|? ? D4 D5]; subst. constructor; [|now apply IH].
    inversion D4 as [? X1 X2 X3]; subst. constructor; [now rewrite H1|unfold ranges_ok; rewrite H1; exact X2|now rewrite H2].
Qed.
Lemma prepared_same' i e : two_parallel e -> same (prepared i e) (retyped i e).
Proof. intros [(P1 & _) _]. apply prepared_same. destruct (ids e); [left|right; discriminate]. now apply length_zero_iff_nil in P1. Qed.
Lemma bytelevel_same prefix trim e pair add : two_parallel e -> (forall p, pair = Some p -> two_parallel p) ->
  (pair <> None -> rangeable e) -> (forall p, pair = Some p -> rangeable p) ->
  exists r e1 p1, process (PByteLevel prefix trim) e pair add = Ok (Some r) /\
    (if trim then all_trimmed prefix (retyped 0 e) e1 else e1 = retyped 0 e) /\
    match pair, p1 with
    | Some p, Some q => if trim then all_trimmed prefix (retyped 1 p) q else q = retyped 1 p
    | None, None => True | _, _ => False end /\
    same r (with_pair e1 p1).
Proof.
  intros P Q R1 R2. cbn [process]. unfold bytelevel_process. rewrite prepare_encodings_ok. cbn [bind].
  assert (X : forall i x, two_parallel x -> exists x', (if trim then process_all_offsets prefix (prepared i x) else Ok (prepared i x)) = Ok x' /\
     (rangeable x -> deep_ranges x') /\ exists x1, (if trim then all_trimmed prefix (retyped i x) x1 else x1 = retyped i x) /\ same x' x1).
  { intros i x Px. destruct trim.
    - destruct (process_all_offsets_trimmed prefix _ (prepared_parallel i x Px)) as (x' & E & T & _). exists x'. split; [exact E|]. split.
      + intros R. eapply process_all_offsets_ranges; [|exact E|]; [now apply prepared_parallel|now apply prepared_ranges].
      + exists x'. split; [|apply same_refl]. eapply trimmed_same; [|exact T]. now apply prepared_same'.
    - exists (prepared i x). split; [reflexivity|]. split; [apply prepared_ranges|]. exists (retyped i x). split; [reflexivity|]. now apply prepared_same'. }
  destruct (X 0 e P) as (e' & E1 & D1 & e1 & T1 & S1). destruct pair as [p|].
  - destruct (X 1 p (Q p eq_refl)) as (p' & E2 & D2 & p1 & T2 & S2).
    assert (M : (if trim then mapR (process_all_offsets prefix) [prepared 0 e; prepared 1 p] else Ok [prepared 0 e; prepared 1 p]) = Ok [e'; p']).
    { destruct trim; [cbn [mapR]; now rewrite E1, E2|]. congruence. }
    rewrite M. cbn [bind].
    destruct (merges_same [p'] e' e1 [p1]) as (r & E & S0 & _).
    + apply D1, R1. discriminate.
    + constructor; [apply D2; now apply R2|constructor].
    + exact S1.
    + constructor; [exact S2|constructor].
    + rewrite E. cbn [bind]. exists r, e1, (Some p1). auto 10.
  - assert (M : (if trim then mapR (process_all_offsets prefix) [prepared 0 e] else Ok [prepared 0 e]) = Ok [e']).
    { destruct trim; [cbn [mapR]; now rewrite E1|]. congruence. }
    rewrite M. cbn [bind foldR]. exists e', e1, None. auto 10.
Qed.

(** ** Counting a template *)
Lemma parts_len toks e pair add tpl : Forall (available toks pair add) tpl ->
  fold_right (fun p n => enc_len p + n) 0 (flat_map (piece_parts toks e pair add) tpl) =
  uses false tpl * enc_len e + uses true tpl * pair_len pair + (if add then count_added tpl toks else 0).
Proof.
  assert (A : forall (l1 l2 : list Encoding), fold_right (fun p n => enc_len p + n) 0 (l1 ++ l2) = fold_right (fun p n => enc_len p + n) 0 l1 + fold_right (fun p n => enc_len p + n) 0 l2).
  { intros l1 l2. induction l1 as [|x l1 IH]; cbn [app fold_right]; lia. }
  unfold uses. intros F. induction F as [|p tpl H F IH]; [destruct add; reflexivity|]. cbn [flat_map]. rewrite A, IH.
  destruct p as [[|] ty|id ty]; cbn [piece_parts available filter count_added Bool.eqb] in *.
  - destruct pair as [q|]; [|exfalso; now apply H]. cbn [fold_right pair_len]. change (enc_len (retyped ty q)) with (enc_len q).
    unfold zlen. cbn [length]. destruct add; lia.
  - cbn [fold_right]. change (enc_len (retyped ty e)) with (enc_len e). unfold zlen. cbn [length]. destruct add; lia.
  - destruct add; [|cbn [fold_right]; lia]. destruct (aget str_eqb id toks) as [[i t]|]; cbn [fold_right fst snd]; [|lia].
    change (enc_len (special_piece i t ty)) with (zlen i). lia.
Qed.
Lemma foldR_joined_len l e r : foldR (fun acc p => merge_with false acc p) l e = Ok r -> enc_len r = fold_right (fun p n => enc_len p + n) 0 (e :: l).
Proof. intros H. now apply merges_len in H. Qed.
Lemma template_len single both toks e pair add r : process (PTemplate single both toks) e pair add = Ok (Some r) ->
  let tpl := template_of single both pair in
  enc_len r = uses false tpl * enc_len e + uses true tpl * pair_len pair + (if add then added_tokens (PTemplate single both toks) (is_pair pair) else 0).
Proof.
  intros H tpl. cbn [process added_tokens] in H |- *. unfold template_process in H. rewrite prepare_encodings_ok in H. cbn [bind] in H.
  change (match pair with None => single | Some _ => both end) with tpl in H.
  destruct (apply_template_ok toks e pair add tpl) as [A1 A2].
  destruct (Forall_dec _ (available_dec toks pair add) tpl) as [F|F]; [|rewrite (A2 F) in H; discriminate].
  rewrite (A1 F) in H. cbn [bind] in H.
  assert (S2 : Forall2 same (flat_map (template_part toks e pair add) tpl) (flat_map (piece_parts toks e pair add) tpl)) by (apply Forall2_flat_map, template_part_same).
  pose proof (parts_len toks e pair add tpl F) as L.
  assert (C : (if add then (if is_pair pair then count_added both toks else count_added single toks) else 0) = if add then count_added tpl toks else 0).
  { destruct add; [|reflexivity]. unfold tpl, template_of. now destruct pair. }
  rewrite C, <- L. clear C L A1 A2. destruct (flat_map (template_part toks e pair add) tpl) as [|x l]; [discriminate|].
  cbn [merge_encodings] in H. apply bind_Ok_inv in H as (r' & H & E). injection E as <-. rewrite (foldR_joined_len _ _ _ H).
  clear -S2. revert S2. generalize (x :: l) (flat_map (piece_parts toks e pair add) tpl). clear. intros l1 l2 S2.
  induction S2 as [|a b l l' H _ IH]; [reflexivity|]. cbn [fold_right]. now rewrite IH, (same_len _ _ H).
Qed.
Lemma template_adds single both toks : uses false single = 1 -> uses false both = 1 -> uses true both = 1 ->
  adds_exactly (PTemplate single both toks).
Proof.
  intros U1 U2 U3 e pair add r H. rewrite (template_len _ _ _ _ _ _ _ H). unfold template_of. destruct pair as [p|]; cbn [pair_len].
  - rewrite U2, U3. lia.
  - rewrite U1. lia.
Qed.

(** ** Sequences *)
Fixpoint run_all (l : list processor) (e : option Encoding) (pair : option Encoding) (add : bool) : res (option Encoding) :=
  match l with
  | [] => Ok e
  | q :: l' => match e with None => Panic | Some e => do r <- process q e pair add; run_all l' r pair add end
  end.
Lemma sequence_run l e pair add : process (PSequence l) e pair add = run_all l (Some e) pair add.
Proof.
  cbn [process]. generalize (Some e). induction l as [|q l IH]; intros x; [reflexivity|]. cbn [run_all]. destruct x as [x|]; [|reflexivity].
  destruct (process q x pair add) as [r| | | |]; cbn [bind]; try reflexivity. apply IH.
Qed.
Lemma run_all_app l1 l2 x pair add : run_all (l1 ++ l2) x pair add = do r <- run_all l1 x pair add; run_all l2 r pair add.
Proof.
  revert x. induction l1 as [|q l1 IH]; intros x; [reflexivity|]. cbn [app run_all]. destruct x as [x|]; [|reflexivity].
  destruct (process q x pair add) as [r| | | |]; cbn [bind]; try reflexivity. apply IH.
Qed.
Lemma run_all_none l pair add r : run_all l None pair add = Ok (Some r) -> False.
Proof. destruct l; discriminate. Qed.
Lemma sequence_len l : Forall adds_exactly l -> forall e pair add r, run_all l (Some e) pair add = Ok (Some r) ->
  enc_len r = enc_len e + zlen l * pair_len pair + (if add then added_tokens (PSequence l) (is_pair pair) else 0).
Proof.
  intros F. induction F as [|q l A F IH]; intros e pair add r H; cbn [run_all] in H.
  - injection H as <-. unfold zlen. cbn. destruct add; lia.
  - apply bind_Ok_inv in H as (x & Hx & H). destruct x as [x|]; [|now apply run_all_none in H].
    rewrite (IH _ _ _ _ H), (A _ _ _ _ Hx). unfold zlen. cbn [length]. cbn [added_tokens fold_right].
    rewrite Nat2Z.inj_succ, Z.mul_succ_l. destruct add; cbv iota; lia.
Qed.

(** ** The limit *)
Lemma count_added_nonneg tpl toks : 0 <= count_added tpl toks.
Proof. induction tpl as [|[b ty|id ty] tpl IH]; cbn; [lia|exact IH|]. destruct (aget str_eqb id toks); unfold zlen; lia. Qed.
Lemma added_nonneg : forall p b, 0 <= added_tokens p b.
Proof.
  fix IH 1. intros [cls sep|cls sep trim prefix|single both toks|prefix trim|l] b; cbn [added_tokens].
  - destruct b; lia.
  - destruct b; lia.
  - destruct b; apply count_added_nonneg.
  - lia.
  - induction l as [|q l IHl]; cbn [fold_right]; [lia|]. pose proof (IH q b). lia.
Qed.
Lemma post_truncate_limit proc t e pair add :
  post_truncate proc (Some t) e pair add = truncate_encodings e pair (tr_strategy t) (tr_max t - count_of proc (is_pair pair) add) (tr_stride t).
Proof.
  unfold post_truncate, count_of. change (match pair with Some _ => true | None => false end) with (is_pair pair).
  destruct proc as [p|]; cycle 1.
  { rewrite Z.ltb_irrefl, Bool.andb_false_r, Z.sub_0_r. reflexivity. }
  pose proof (added_nonneg p (is_pair pair)). destruct add; cbn [andb].
  - destruct (Z.ltb_spec 0 (added_tokens p (is_pair pair))); [reflexivity|]. replace (added_tokens p (is_pair pair)) with 0 by lia. now rewrite Z.sub_0_r.
  - now rewrite Z.sub_0_r.
Qed.
Lemma post_len proc pair add e1 p1 r : counts proc -> is_pair p1 = is_pair pair ->
  match proc with None => do r <- default_process e1 p1; Ok (Some r) | Some p => process p e1 p1 add end = Ok (Some r) ->
  enc_len r = enc_len e1 + pair_len p1 + count_of proc (is_pair pair) add.
Proof.
  intros C I H. unfold count_of. destruct proc as [p|].
  - rewrite <- I. exact (C e1 p1 add r H).
  - apply bind_Ok_inv in H as (x & H & E). injection E as <-. rewrite (default_len _ _ _ H). lia.
Qed.
Lemma post_truncated proc t e pair add e1 p1 r : counts proc -> is_pair p1 = is_pair pair ->
  truncate_encodings e pair (tr_strategy t) (tr_max t - count_of proc (is_pair pair) add) (tr_stride t) = Ok (e1, p1) ->
  post_process proc (Some t) None e pair add = Ok (Some r) ->
  enc_len r = enc_len e1 + pair_len p1 + count_of proc (is_pair pair) add.
Proof.
  intros C I T H. unfold post_process in H. rewrite post_truncate_limit, T in H. cbn [bind fst snd] in H.
  apply bind_Ok_inv in H as (x & H & E). injection E as ->. exact (post_len proc pair add e1 p1 r C I H).
Qed.

(** ** Lists of a template result *)
Lemma concat_lengths l : length (flat_map ids l) = list_sum (map (fun x => length (ids x)) l) /\
  length (flat_map words l) = list_sum (map (fun x => length (words x)) l).
Proof. split; induction l as [|x l IH]; [reflexivity| |reflexivity|]; cbn [flat_map map]; rewrite app_length, IH; reflexivity. Qed.
Definition five_parallel (e : Encoding) : Prop :=
  length (type_ids e) = length (ids e) /\ length (tokens e) = length (ids e) /\ length (offsets e) = length (ids e) /\
  length (special e) = length (ids e) /\ length (attention e) = length (ids e).
Lemma concat_five l : Forall five_parallel l -> five_parallel (concat_enc l).
Proof.
  intros F. induction F as [|x l (H1 & H2 & H3 & H4 & H5) F (I1 & I2 & I3 & I4 & I5)]; [repeat split|].
  unfold five_parallel, concat_enc in *. cbn [ids type_ids tokens offsets special attention flat_map] in *. rewrite !app_length. lia.
Qed.
Lemma parts_five toks e pair add tpl : parallel e -> (forall p, pair = Some p -> parallel p) ->
  (forall id t, In (id, t) toks -> length (snd t) = length (fst t)) -> Forall five_parallel (flat_map (piece_parts toks e pair add) tpl).
Proof.
  intros P Q T. apply Forall_flat_map'. intros [[|] ty|id ty]; cbn.
  - destruct pair as [q|]; constructor; [|constructor]. destruct (Q q eq_refl) as (Q1 & Q2 & Q3 & Q4 & Q5 & Q6). unfold five_parallel, retyped. cbn. now rewrite map_length.
  - constructor; [|constructor]. destruct P as (Q1 & Q2 & Q3 & Q4 & Q5 & Q6). unfold five_parallel, retyped. cbn. now rewrite map_length.
  - destruct add; [|constructor]. destruct (aget str_eqb id toks) as [[i t]|] eqn:E; constructor; [|constructor].
    apply (ag_in str_eqb str_eqb_eq) in E. specialize (T _ _ E). cbn in T. unfold five_parallel, special_piece. cbn. rewrite !map_length. auto.
Qed.
Lemma parts_words toks e pair add tpl : parallel e -> (forall p, pair = Some p -> parallel p) -> Forall (available toks pair add) tpl ->
  zlen (flat_map words (flat_map (piece_parts toks e pair add) tpl)) + (if add then count_added tpl toks else 0) =
  zlen (flat_map ids (flat_map (piece_parts toks e pair add) tpl)).
Proof.
  intros P Q F. induction F as [|p tpl H F IH]; [destruct add; reflexivity|]. cbn [flat_map]. rewrite !flat_map_app. unfold zlen in *. rewrite !app_length, !Nat2Z.inj_add.
  destruct p as [[|] ty|id ty]; cbn [piece_parts available count_added flat_map] in *.
  - destruct pair as [q|]; [|exfalso; now apply H]. destruct (Q q eq_refl) as (Q1 & Q2 & Q3 & Q4 & Q5 & Q6). cbn [flat_map retyped words ids]. rewrite !app_nil_r. destruct add; lia.
  - destruct P as (Q1 & Q2 & Q3 & Q4 & Q5 & Q6). cbn [retyped words ids]. rewrite !app_nil_r. destruct add; lia.
  - destruct add; [|cbn; lia]. destruct (aget str_eqb id toks) as [[i t]|]; cbn [flat_map special_piece words ids fst snd app length]; [|lia].
    rewrite !app_nil_r. unfold zlen. lia.
Qed.
Lemma template_words single both toks e pair add r : rangeable e -> (forall q, pair = Some q -> rangeable q) ->
  parallel e -> (forall p, pair = Some p -> parallel p) -> (forall id t, In (id, t) toks -> length (snd t) = length (fst t)) ->
  process (PTemplate single both toks) e pair add = Ok (Some r) ->
  five_parallel r /\ zlen (words r) = enc_len r - (if add then added_tokens (PTemplate single both toks) (is_pair pair) else 0).
Proof.
  intros R1 R2 P Q T H. destruct (template_cases single both toks e pair add R1 R2) as [A1 A2].
  destruct (Forall_dec _ (available_dec toks pair add) (template_of single both pair)) as [F|F]; [|rewrite (A2 F) in H; discriminate].
  specialize (A1 F). pose proof (parts_five toks e pair add (template_of single both pair) P Q T) as F5.
  pose proof (parts_words toks e pair add (template_of single both pair) P Q F) as W.
  set (tpl := template_of single both pair) in *. destruct (flat_map (piece_parts toks e pair add) tpl) as [|p l]; [rewrite A1 in H; discriminate|].
  destruct A1 as (r' & E & [S1 _] & _). rewrite E in H. injection H as ->. rewrite joined_flat in S1. split.
  - change (five_parallel (flat r)). rewrite S1. now apply concat_five.
  - change (zlen (words (flat r)) = zlen (ids (flat r)) - (if add then added_tokens (PTemplate single both toks) (is_pair pair) else 0)).
    rewrite S1. cbn [words ids concat_enc].
    assert (C : (if add then added_tokens (PTemplate single both toks) (is_pair pair) else 0) = if add then count_added tpl toks else 0).
    { destruct add; [|reflexivity]. unfold tpl, template_of. cbn. now destruct pair. }
    rewrite C. lia.
Qed.

(** ** Sequence ranges *)
Definition good_ranges (e : Encoding) : Prop :=
  (forall k l, In (k, l) (match seq_ranges e with Some m => m | None => [] end) -> interval l) /\
  NoDup (map fst (match seq_ranges e with Some m => m | None => [] end)).
Lemma merges_range k l2 : forall e r, foldR (fun acc p => merge_with false acc p) l2 e = Ok r -> Forall good_ranges l2 ->
  Forall (fun p => range_of p k = None) l2 -> range_of r k = range_of e k.
Proof.
  induction l2 as [|p l IH]; intros e r; cbn [foldR]; [intros [= ->]; reflexivity|].
  intros H G N. apply bind_Ok_inv in H as (m & H1 & H2). inversion G as [|? ? [G1 G2] G3]; inversion N as [|? ? N1 N2]; subst.
  rewrite (IH _ _ H2 G3 N2), (merge_with_ranges _ _ _ _ H1 G1 G2), N1. reflexivity.
Qed.
Lemma foldR_app {A S0} (f : S0 -> A -> res S0) l1 l2 : forall s, foldR f (l1 ++ l2) s = do s' <- foldR f l1 s; foldR f l2 s'.
Proof. induction l1 as [|x l1 IH]; intros s; [reflexivity|]. cbn [app foldR]. destruct (f s x); cbn [bind]; auto. Qed.
Lemma merges_range_at k e l1 x l2 r rg : foldR (fun acc p => merge_with false acc p) (l1 ++ x :: l2) e = Ok r ->
  Forall good_ranges (x :: l2) -> range_of x k = Some rg -> Forall (fun p => range_of p k = None) l2 ->
  range_of r k = Some (map (Z.add (enc_len e + fold_right (fun p n => enc_len p + n) 0 l1)) rg).
Proof.
  rewrite foldR_app. intros H G X N. apply bind_Ok_inv in H as (m & H1 & H2). cbn [foldR] in H2. apply bind_Ok_inv in H2 as (m2 & H2 & H3).
  inversion G as [|? ? [G1 G2] G3]; subst. rewrite (merges_range k l2 _ _ H3 G3 N), (merge_with_ranges _ _ _ _ H2 G1 G2), X.
  now rewrite (merges_len _ _ _ H1).
Qed.
Lemma fresh_ranges i ty e : fresh e -> seq_ranges (seq_part i ty e) = (if 0 <? enc_len e then Some [(i, zrange (length (ids e)) 0)] else seq_ranges e).
Proof.
  intros H. unfold seq_part, with_range. change (enc_len (set_type_ids (prepared i e) (repeat ty (length (ids e))))) with (zlen (ids (prepared i e))).
  rewrite prepared_ids. fold (enc_len e). destruct (0 <? enc_len e) eqn:L.
  - cbn [seq_ranges ids set_type_ids]. rewrite prepared_ids. unfold prepared, with_range. rewrite L. cbn. destruct H as [-> | ->]; cbn; rewrite Z.eqb_refl; reflexivity.
  - cbn [seq_ranges set_type_ids]. unfold prepared, with_range. now rewrite L.
Qed.
Lemma seq_part_good i ty e : fresh e -> good_ranges (seq_part i ty e).
Proof.
  intros H. unfold good_ranges. rewrite (fresh_ranges i ty e H). destruct (Z.ltb_spec 0 (enc_len e)) as [L|L].
  - split; [|repeat constructor; intros []]. intros k l [[= <- <-]|[]]. exists 0, (length (ids e)). unfold enc_len, zlen in L. split; [lia|]. split; [lia|reflexivity].
  - destruct H as [-> | ->]; split; try constructor; intros ? ? [].
Qed.
Lemma seq_part_range i ty e k : fresh e -> range_of (seq_part i ty e) k = (if ((0 <? enc_len e) && (i =? k))%bool then Some (zrange (length (ids e)) 0) else None).
Proof.
  intros H. unfold range_of. rewrite (fresh_ranges i ty e H). destruct (0 <? enc_len e); cbn.
  - rewrite (Z.eqb_sym k i). destruct (i =? k); reflexivity.
  - destruct H as [-> | ->]; reflexivity.
Qed.
Lemma prepared_range i e k : fresh e -> range_of (prepared i e) k = (if ((0 <? enc_len e) && (i =? k))%bool then Some (zrange (length (ids e)) 0) else None).
Proof.
  intros H. unfold range_of, prepared, with_range. destruct (0 <? enc_len e); cbn.
  - destruct H as [-> | ->]; cbn; rewrite (Z.eqb_sym k i); destruct (i =? k); reflexivity.
  - destruct H as [-> | ->]; reflexivity.
Qed.
Definition seq_no (b : bool) : Z := if b then 1 else 0.
Lemma template_part_good toks e pair add p : fresh e -> (forall q, pair = Some q -> fresh q) -> Forall good_ranges (template_part toks e pair add p).
Proof.
  intros R1 R2. destruct p as [[|] ty|id ty]; cbn.
  - destruct pair as [q|]; constructor; [apply seq_part_good; auto|constructor].
  - constructor; [now apply seq_part_good|constructor].
  - destruct add; [|constructor]. destruct (aget str_eqb id toks) as [[i t]|]; constructor; [|constructor].
    split; cbn; [intros ? ? []|constructor].
Qed.
Lemma template_part_other toks e pair add p b : fresh e -> (forall q, pair = Some q -> fresh q) -> (forall ty, p <> PSeq b ty) ->
  Forall (fun x => range_of x (seq_no b) = None) (template_part toks e pair add p).
Proof.
  intros R1 R2 N. destruct p as [[|] ty|id ty]; cbn.
  - destruct pair as [q|]; constructor; [|constructor]. destruct b; [now destruct (N ty)|]. rewrite seq_part_range by auto. cbn. now rewrite Bool.andb_false_r.
  - constructor; [|constructor]. destruct b; [|now destruct (N ty)]. rewrite seq_part_range by auto. cbn. now rewrite Bool.andb_false_r.
  - destruct add; [|constructor]. destruct (aget str_eqb id toks) as [[i t]|]; constructor; [reflexivity|constructor].
Qed.
Lemma sum_concat l : enc_len (concat_enc l) = fold_right (fun p n => enc_len p + n) 0 l.
Proof. induction l as [|x l IH]; [reflexivity|]. cbn [fold_right]. rewrite <- IH. unfold enc_len, concat_enc, zlen. cbn [ids flat_map]. rewrite app_length. lia. Qed.
Lemma same_sum l l' : Forall2 same l l' -> fold_right (fun p n => enc_len p + n) 0 l = fold_right (fun p n => enc_len p + n) 0 l'.
Proof. intros H. induction H as [|x y l l' S0 _ IH]; [reflexivity|]. cbn [fold_right]. now rewrite IH, (same_len _ _ S0). Qed.
Lemma template_range single both toks e pair add r pre b ty post src :
  fresh e -> (forall q, pair = Some q -> fresh q) ->
  process (PTemplate single both toks) e pair add = Ok (Some r) ->
  template_of single both pair = pre ++ PSeq b ty :: post -> (forall ty', ~ In (PSeq b ty') post) ->
  (if b then pair else Some e) = Some src -> 0 < enc_len src ->
  range_of r (seq_no b) = Some (zrange (length (ids src)) (enc_len (concat_enc (flat_map (piece_parts toks e pair add) pre)))).
Proof.
  intros R1 R2 H T N Src L. cbn [process] in H. unfold template_process in H. rewrite prepare_encodings_ok in H. cbn [bind] in H.
  change (match pair with None => single | Some _ => both end) with (template_of single both pair) in H. rewrite T in H.
  destruct (apply_template_ok toks e pair add (pre ++ PSeq b ty :: post)) as [A1 A2].
  destruct (Forall_dec _ (available_dec toks pair add) (pre ++ PSeq b ty :: post)) as [F|F]; [|rewrite (A2 F) in H; discriminate].
  rewrite (A1 F) in H. cbn [bind] in H. clear A1 A2. rewrite flat_map_app in H. cbn [flat_map] in H.
  assert (X : template_part toks e pair add (PSeq b ty) = [seq_part (seq_no b) ty src]).
  { destruct b; cbn; [now rewrite Src|now injection Src as ->]. }
  rewrite X in H. cbn [app] in H.
  assert (Fs : fresh src) by (destruct b; [now apply R2|now injection Src as <-]).
  assert (Rg : range_of (seq_part (seq_no b) ty src) (seq_no b) = Some (zrange (length (ids src)) 0)).
  { rewrite seq_part_range by exact Fs. rewrite Z.eqb_refl. now replace (0 <? enc_len src) with true by lia. }
  assert (Gp : Forall good_ranges (flat_map (template_part toks e pair add) post)) by (apply Forall_flat_map'; intros; now apply template_part_good).
  assert (Np : Forall (fun x => range_of x (seq_no b) = None) (flat_map (template_part toks e pair add) post)).
  { clear -R1 R2 N. induction post as [|p post IH]; [constructor|]. cbn [flat_map]. apply Forall_app. split.
    - apply template_part_other; auto. intros ty' ->. apply (N ty'). now left.
    - apply IH. intros ty' I. apply (N ty'). now right. }
  rewrite sum_concat, <- (same_sum _ _ (Forall2_flat_map same _ _ pre (template_part_same toks e pair add))).
  destruct (flat_map (template_part toks e pair add) pre) as [|x l]; cbn [app merge_encodings fold_right] in *.
  - apply bind_Ok_inv in H as (r' & H & E). injection E as <-. now rewrite (merges_range _ _ _ _ H Gp Np), Rg.
  - apply bind_Ok_inv in H as (r' & H & E). injection E as <-.
    rewrite (merges_range_at (seq_no b) x l _ _ r' _ H (Forall_cons _ (seq_part_good _ ty src Fs) Gp) Rg Np).
    rewrite zrange_map_add. now rewrite Z.add_0_r.
Qed.
Lemma process_all_offsets_seq prefix e e' : process_all_offsets prefix e = Ok e' -> seq_ranges e' = seq_ranges e.
Proof.
  unfold process_all_offsets, process_offsets. intros H. apply bind_Ok_inv in H as (e1 & H1 & H). apply bind_Ok_inv in H as (ov & H2 & H). injection H as <-.
  apply bind_Ok_inv in H1 as (o & _ & H1). injection H1 as <-. reflexivity.
Qed.
Lemma bytelevel_range prefix trim e p add r : fresh e -> fresh p -> 0 < enc_len e -> 0 < enc_len p ->
  process (PByteLevel prefix trim) e (Some p) add = Ok (Some r) ->
  range_of r 0 = Some (zrange (length (ids e)) 0) /\ range_of r 1 = Some (zrange (length (ids p)) (enc_len e)).
Proof.
  intros F1 F2 L1 L2 H. cbn [process] in H. apply bind_Ok_inv in H as (r' & H & E). injection E as <-.
  unfold bytelevel_process in H. rewrite prepare_encodings_ok in H. cbn [bind] in H. apply bind_Ok_inv in H as (encs & H1 & H).
  assert (X : exists e1 p1, encs = [e1; p1] /\ seq_ranges e1 = seq_ranges (prepared 0 e) /\ seq_ranges p1 = seq_ranges (prepared 1 p) /\ enc_len e1 = enc_len e).
  { destruct trim.
    - cbn [mapR] in H1. apply bind_Ok_inv in H1 as (e1 & E1 & H1). apply bind_Ok_inv in H1 as (l & H1 & E). injection E as <-.
      apply bind_Ok_inv in H1 as (p1 & E2 & H1). injection H1 as <-. exists e1, p1. split; [reflexivity|].
      rewrite (process_all_offsets_seq _ _ _ E1), (process_all_offsets_seq _ _ _ E2), (process_all_offsets_len _ _ _ E1). split; [reflexivity|]. split; [reflexivity|].
      unfold enc_len. now rewrite prepared_ids.
    - injection H1 as <-. exists (prepared 0 e), (prepared 1 p). do 3 (split; [reflexivity|]). unfold enc_len. now rewrite prepared_ids. }
  destruct X as (e1 & p1 & -> & S1 & S2 & Le). cbn [foldR] in H. rewrite bind_Ok_r in H.
  assert (Re : forall k, range_of e1 k = if (0 =? k)%Z then Some (zrange (length (ids e)) 0) else None).
  { intros k. unfold range_of. rewrite S1. fold (range_of (prepared 0 e) k). rewrite (prepared_range 0 e k F1). now replace (0 <? enc_len e) with true by lia. }
  assert (Rp : forall k, range_of p1 k = if (1 =? k)%Z then Some (zrange (length (ids p)) 0) else None).
  { intros k. unfold range_of. rewrite S2. fold (range_of (prepared 1 p) k). rewrite (prepared_range 1 p k F2). now replace (0 <? enc_len p) with true by lia. }
  assert (G : good_ranges p1).
  { unfold good_ranges. rewrite S2. unfold prepared, with_range. replace (0 <? enc_len p) with true by lia. cbn.
    assert (Y : aset Z.eqb 1 (zrange (length (ids p)) 0) match seq_ranges p with Some m => m | None => [] end = [(1, zrange (length (ids p)) 0)]) by (destruct F2 as [-> | ->]; reflexivity).
    rewrite Y. split; [|repeat constructor; intros []]. intros k l [[= <- <-]|[]]. exists 0, (length (ids p)). unfold enc_len, zlen in L2. split; [lia|]. split; [lia|reflexivity]. }
  destruct G as [G1 G2]. split.
  - rewrite (merge_with_ranges _ _ _ _ H G1 G2), Rp, Re. reflexivity.
  - rewrite (merge_with_ranges _ _ _ _ H G1 G2), Rp. cbn. rewrite zrange_map_add, Z.add_0_r. now rewrite Le.
Qed.
Lemma new_merge_ranges e p r : seq_ranges e = Some [] -> seq_ranges p = Some [] -> merge_with false e p = Ok r -> seq_ranges r = Some [].
Proof.
  intros E P. rewrite merge_with_eq. intros H. apply bind_Ok_inv in H as (p1 & _ & H). apply bind_Ok_inv in H as (p2 & _ & H).
  unfold merge_flat in H. rewrite E, P in H. cbn in H. now injection H as <-.
Qed.
Lemma bert_range cls sep e pair r : process (PBert cls sep) e pair true = Ok (Some r) -> seq_ranges r = Some [].
Proof.
  cbn. intros H. apply bind_Ok_inv in H as (x & H & E). injection E as <-. unfold bert_process, add_and_merge in H. cbn [negb] in H. destruct pair as [p|].
  - now apply new_merge_ranges in H.
  - now injection H as <-.
Qed.
Lemma roberta_range cls sep trim prefix e pair r : process (PRoberta cls sep trim prefix) e pair true = Ok (Some r) -> seq_ranges r = Some [].
Proof.
  cbn. intros H. unfold roberta_process in H. destruct trim; [|discriminate]. apply bind_Ok_inv in H as (e1 & He & H). apply bind_Ok_inv in H as (p1 & Hp & H).
  apply bind_Ok_inv in H as (x & H & E). injection E as <-. unfold add_and_merge in H. cbn [negb] in H. destruct p1 as [p|].
  - now apply new_merge_ranges in H.
  - now injection H as <-.
Qed.
