(** Proofs about the windows of long texts (C81). *)
From Verif Require Import Base BaseProofs EncodingModel EncodingSpec EncodingProofs ProcessorModel ProcessorSpec ProcessorProofs BpeModel PreTokenizedModel AddedVocabModel AddedVocabSpec PipelineModel PipelineProofs ReturnProofs WindowsSpec.
Open Scope nat_scope.

(** ** Windows *)
Lemma windows_seq m s L : s < m -> forall k a, L <= a + k * (m - s) + m -> (k = 0 \/ a + (k - 1) * (m - s) + m < L) ->
  windows m s L a (map (fun j => (a + j * (m - s), m)) (seq 0 (S k))).
Proof.
  intros Hs. induction k as [|k IH]; intros a H1 H2.
  - cbn. replace (a + 0) with a by lia. constructor. lia.
  - destruct H2 as [H2|H2]; [discriminate|]. replace (S k - 1) with k in H2 by lia. change (seq 0 (S (S k))) with (0 :: seq 1 (S k)). rewrite <- seq_shift, map_cons, map_map. replace (a + 0 * (m - s)) with a by lia.
    constructor; [nia|]. rewrite (map_ext _ (fun j => (a + (m - s) + j * (m - s), m))) by (intros j; f_equal; lia). apply IH; [lia|]. destruct k; [now left|right]. replace (S k - 1) with k by lia. lia.
Qed.
Lemma rejoin_windows {A} m s (l : list A) : s < m -> forall a ws, windows m s (length l) a ws -> rejoin s (map (at_window l) ws) = skipn a l.
Proof.
  intros Hs a ws H. induction H as [a H|a ws H Hw IH].
  - cbn [map rejoin concat]. unfold at_window, window. cbn [fst snd]. rewrite app_nil_r. apply firstn_all2. rewrite skipn_length. lia.
  - cbn [map rejoin]. assert (E : concat (map (skipn s) (map (at_window l) ws)) = skipn s (skipn (a + (m - s)) l)).
    { rewrite <- IH. destruct Hw as [b Hb|b ws Hb Hw]; cbn [map rejoin concat]; rewrite skipn_app; f_equal.
      - rewrite skipn_nil. reflexivity.
      - replace (s - length (at_window l (b, m))) with 0; [reflexivity|]. unfold at_window. rewrite window_length. cbn [fst snd]. lia. }
    rewrite E, skipn_add. unfold at_window, window. cbn [fst snd]. replace (a + (m - s) + s) with (a + m) by lia. rewrite <- (firstn_skipn m (skipn a l)) at 2. now rewrite skipn_add.
Qed.
Lemma rejoin_cut {A} m s (l : list A) ws : cut_to m s (length l) ws -> rejoin s (map (at_window l) ws) = l.
Proof.
  intros [[_ ->]|[H W]].
  - cbn. unfold at_window, window. cbn. rewrite app_nil_r. apply firstn_all.
  - rewrite (rejoin_windows (Z.to_nat m) s l) with (a := 0); [reflexivity|lia|exact W].
Qed.

(** ** Cutting one encoding *)
Section Field.
  Context {A : Type} (f : Encoding -> list A).
  Definition fparts (e : Encoding) : list (list A) := f e :: map f (overflowing e).
End Field.
Definition cut_parts (e e' : Encoding) (ws : list (nat * nat)) : Prop :=
  fparts ids e' = map (at_window (ids e)) ws /\ fparts tokens e' = map (at_window (tokens e)) ws.
Lemma whole_parts e : parallel e -> overflowing e = [] -> cut_parts e e [(0, length (ids e))].
Proof.
  intros (_ & P & _) O. unfold cut_parts, fparts. rewrite O. cbn. unfold at_window, window. cbn. rewrite <- P at 2. rewrite !firstn_all. auto.
Qed.
Lemma truncate_cut e m s e' b : parallel e -> overflowing e = [] -> (0 <= s)%Z -> truncate e m s = Ok (e', b) ->
  exists ws, cut_to m (Z.to_nat s) (length (ids e)) ws /\ cut_parts e e' ws.
Proof.
  intros P O Hs H. unfold truncate in H. destruct ((m <=? s) || (m =? 0))%Z eqn:E1.
  { injection H as <- _. exists [(0, length (ids e))]. split; [left; split; [lia|reflexivity]|now apply whole_parts]. }
  destruct (zlen (ids e) <=? m)%Z eqn:E2.
  { injection H as <- _. exists [(0, length (ids e))]. split; [left; split; [unfold zlen in E2; lia|reflexivity]|now apply whole_parts]. }
  fold (truncate e m s) in H. unfold zlen in E2.
  destruct (truncate_long e (Z.to_nat m) (Z.to_nat s) P ltac:(lia) ltac:(lia)) as (k & T & K0 & K1 & K2). rewrite !Z2Nat.id in T by lia.
  assert (H' : truncate e m s = Ok (e', b)). { unfold truncate. rewrite E1. unfold zlen at 1. rewrite E2. exact H. }
  rewrite H' in T. injection T as -> _. set (M := Z.to_nat m) in *. set (S0 := Z.to_nat s) in *.
  exists (map (fun j => (0 + j * (M - S0), M)) (seq 0 (S k))). split.
  - right. split; [lia|]. apply windows_seq; lia.
  - split; unfold fparts; cbn [enc_prefix ids tokens overflowing]; change (seq 0 (S k)) with (0 :: seq 1 k); rewrite <- seq_shift; cbn [map]; rewrite !map_map; reflexivity.
Qed.
Lemma ignoring_cut e m s e' : parallel e -> overflowing e = [] -> (0 <= s)%Z -> truncate_ignoring_error e m s = Ok e' ->
  exists ws, cut_to m (Z.to_nat s) (length (ids e)) ws /\ cut_parts e e' ws.
Proof. intros P O Hs H. apply bind_Ok_inv in H as ([x b] & H & E). injection E as <-. exact (truncate_cut e m s x b P O Hs H). Qed.
Lemma truncates_single e st M s r : parallel e -> overflowing e = [] -> (0 <= s)%Z -> truncate_encodings e None st M s = Ok r ->
  exists e' ws, r = (e', None) /\ cut_to M (Z.to_nat s) (length (ids e)) ws /\ cut_parts e e' ws.
Proof.
  intros P O Hs. unfold truncate_encodings.
  assert (Wh : forall m, (m = 0 \/ enc_len e < m \/ m <= s)%Z -> exists ws, cut_to m (Z.to_nat s) (length (ids e)) ws /\ cut_parts e e ws).
  { intros m Hm. exists [(0, length (ids e))]. split; [left; split; [unfold enc_len, zlen in Hm; lia|reflexivity]|now apply whole_parts]. }
  destruct (M =? 0)%Z eqn:E0. { intros H. injection H as <-. destruct (Wh M) as (ws & C & Q); [lia|]. exists e, ws. auto. }
  rewrite Z.add_0_r. destruct (enc_len e <? M)%Z eqn:E1. { intros H. injection H as <-. destruct (Wh M) as (ws & C & Q); [lia|]. exists e, ws. auto. }
  assert (L0 : (0 <= enc_len e)%Z) by (unfold enc_len, zlen; lia). destruct st.
  - rewrite longest_first_closed. intros H. apply bind_Ok_inv in H as (e' & H & E). injection E as <-. destruct (ignoring_cut _ _ _ _ P O Hs H) as (ws & C & Q). exists e', ws. split; [reflexivity|].
    destruct (Z.eq_dec (enc_len e) 0) as [Z0|Z0].
    + split; [|exact Q]. unfold enc_len, zlen in *. assert (Lz : length (ids e) = 0) by lia. rewrite Lz in *. destruct C as [[_ ->]|[C _]]; [left; split; [lia|reflexivity]|lia].
    + replace (enc_len e - Z.max 0 (Z.of_nat (Z.to_nat (enc_len e - M)) - Z.max 0 (0 - enc_len e + 1)))%Z with M in C by lia. auto.
  - destruct (enc_len e - M <? enc_len e)%Z; [|discriminate]. intros H. apply bind_Ok_inv in H as (e' & H & E). injection E as <-. replace (enc_len e - (enc_len e - M))%Z with M in H by lia.
    destruct (ignoring_cut _ _ _ _ P O Hs H) as (ws & C & Q). exists e', ws. auto.
  - discriminate.
Qed.
Lemma truncates_pair e p st M s r : parallel e -> overflowing e = [] -> parallel p -> overflowing p = [] -> (0 <= s)%Z -> truncate_encodings e (Some p) st M s = Ok r ->
  exists e' p' ws1 ws2, r = (e', Some p') /\ pair_cut st M (Z.to_nat s) (length (ids e)) (length (ids p)) ws1 ws2 /\ cut_parts e e' ws1 /\ cut_parts p p' ws2.
Proof.
  intros P O P' O' Hs. unfold truncate_encodings.
  assert (Wh : (M = 0 \/ enc_len e + enc_len p < M)%Z -> exists ws1 ws2, pair_cut st M (Z.to_nat s) (length (ids e)) (length (ids p)) ws1 ws2 /\ cut_parts e e ws1 /\ cut_parts p p ws2).
  { intros Hm. exists [(0, length (ids e))], [(0, length (ids p))]. split; [|split; now apply whole_parts]. unfold enc_len, zlen in Hm.
    destruct st; cbn [pair_cut].
    - split; left; (split; [lia|reflexivity]).
    - split; [|reflexivity]. left. split; [lia|reflexivity].
    - split; [reflexivity|]. left. split; [lia|reflexivity]. }
  destruct (M =? 0)%Z eqn:E0. { intros H. injection H as <-. destruct Wh as (ws1 & ws2 & K); [lia|]. exists e, p, ws1, ws2. auto. }
  destruct (enc_len e + enc_len p <? M)%Z eqn:E1. { intros H. injection H as <-. destruct Wh as (ws1 & ws2 & K); [lia|]. exists e, p, ws1, ws2. auto. }
  destruct st.
  - rewrite longest_first_closed. intros H. apply bind_Ok_inv in H as (e' & H1 & H). apply bind_Ok_inv in H as (p' & H2 & H). injection H as <-.
    destruct (ignoring_cut _ _ _ _ P O Hs H1) as (ws1 & C1 & Q1). destruct (ignoring_cut _ _ _ _ P' O' Hs H2) as (ws2 & C2 & Q2). exists e', p', ws1, ws2. split; [reflexivity|]. split; [|split; assumption]. cbn [pair_cut]. unfold enc_len, zlen in *. split.
    + replace (Z.of_nat (length (ids e)) + Z.of_nat (length (ids p)) - M)%Z with (Z.of_nat (Z.to_nat (Z.of_nat (length (ids e)) + Z.of_nat (length (ids p)) - M))) by lia. exact C1.
    + replace (M - Z.of_nat (length (ids e)))%Z with (Z.of_nat (length (ids p)) - Z.of_nat (Z.to_nat (Z.of_nat (length (ids e)) + Z.of_nat (length (ids p)) - M)))%Z by lia. exact C2.
  - destruct (_ <? enc_len e)%Z; [|discriminate]. intros H. apply bind_Ok_inv in H as (e' & H & E). injection E as <-.
    destruct (ignoring_cut _ _ _ _ P O Hs H) as (ws & C & Q). exists e', p, ws, [(0, length (ids p))]. split; [reflexivity|]. split; [split; [|reflexivity]|split; [exact Q|now apply whole_parts]].
    replace (M - Z.of_nat (length (ids p)))%Z with (enc_len e - (enc_len e + enc_len p - M))%Z by (unfold enc_len, zlen; lia). exact C.
  - destruct (_ <? enc_len p)%Z; [|discriminate]. intros H. apply bind_Ok_inv in H as (p' & H & E). injection E as <-.
    destruct (ignoring_cut _ _ _ _ P' O' Hs H) as (ws & C & Q). exists e, p', [(0, length (ids e))], ws. split; [reflexivity|]. split; [split; [reflexivity|]|split; [now apply whole_parts|exact Q]].
    replace (M - Z.of_nat (length (ids e)))%Z with (enc_len p - (enc_len e + enc_len p - M))%Z by (unfold enc_len, zlen; lia). exact C.
Qed.

(** ** Merging and post-processing, for one attribute *)
Definition combos {A} (x y : list (list A)) : list (list A) :=
  match x, y with
  | x0 :: xs, y0 :: ys => (x0 ++ y0) :: flat_map (fun o => map (app o) (y0 :: ys)) xs ++ map (app x0) ys
  | _, _ => []
  end.
Lemma combos_pairs {A B C} (F : B -> list A) (G : C -> list A) x y : combos (map F x) (map G y) = map (fun p => F (fst p) ++ G (snd p)) (all_pairs x y).
Proof.
  destruct x as [|x0 x]; [reflexivity|]. destruct y as [|y0 y]; [reflexivity|]. cbn [map combos all_pairs]. f_equal. rewrite map_app. f_equal.
  - induction x as [|a x IH]; [reflexivity|]. cbn [map flat_map]. rewrite map_app, IH. f_equal. cbn [map]. f_equal. rewrite !map_map. reflexivity.
  - rewrite !map_map. reflexivity.
Qed.
Lemma combos_left {A} (x : list A) y : y <> [] -> combos [x] y = map (app x) y.
Proof. destruct y; [congruence|]. reflexivity. Qed.
Lemma combos_right {A} x (y : list A) : combos x [y] = map (fun w => w ++ y) x.
Proof. destruct x as [|x0 x]; [reflexivity|]. cbn. f_equal. rewrite app_nil_r. induction x as [|a x IH]; [reflexivity|]. cbn [flat_map map app]. rewrite IH. reflexivity. Qed.
Definition joined_parts {A} (ls : list (list (list A))) : list (list A) := match ls with [] => [] | x :: xs => fold_left combos xs x end.
Definition ones {A} (l : list (list A)) : list (list (list A)) := map (fun x => [x]) l.
Lemma fold_ones {A} (l : list (list A)) : forall P, fold_left combos (ones l) P = map (fun w => w ++ concat l) P.
Proof.
  induction l as [|x l IH]; intros P; cbn [ones map fold_left concat].
  - rewrite <- (map_id P) at 1. apply map_ext. intros w. now rewrite app_nil_r.
  - fold (ones l). rewrite IH, combos_right, map_map. apply map_ext. intros w. now rewrite app_assoc.
Qed.
Lemma joined_lead {A} (a : list (list A)) P rest : P <> [] -> joined_parts (ones a ++ P :: rest) = fold_left combos rest (map (app (concat a)) P).
Proof.
  intros Ne. destruct a as [|x a]; cbn [ones map app joined_parts concat].
  - f_equal. rewrite <- (map_id P) at 1. reflexivity.
  - fold (ones a). rewrite fold_left_app, fold_ones. cbn [map fold_left]. f_equal. now rewrite combos_left.
Qed.
Lemma joined_single {A} (a b : list (list A)) P : P <> [] -> joined_parts (ones a ++ P :: ones b) = map (fun w => concat a ++ w ++ concat b) P.
Proof. intros Ne. rewrite joined_lead, fold_ones, map_map by exact Ne. apply map_ext. intros w. now rewrite app_assoc. Qed.
Lemma joined_pair {A} (a b c : list (list A)) P Q : P <> [] -> Q <> [] -> joined_parts (ones a ++ P :: ones b ++ Q :: ones c) = combos (map (fun w => concat a ++ w ++ concat b) P) (map (fun w => w ++ concat c) Q).
Proof.
  intros Np Nq. rewrite joined_lead by exact Np. rewrite fold_left_app, fold_ones, map_map. cbn [fold_left]. rewrite fold_ones.
  rewrite (map_ext (fun x => (concat a ++ x) ++ concat b) (fun w => concat a ++ w ++ concat b)) by (intros w; now rewrite app_assoc).
  rewrite <- (map_id Q) at 1. rewrite !combos_pairs, map_map. apply map_ext. intros p. cbn [fst snd]. now rewrite <- !app_assoc.
Qed.

Section Process.
  Context {A : Type} (f : Encoding -> list A) (g : post_token -> A) (h : list Z * list str -> list A).
  Hypothesis f_append : forall e p d, f (enc_append e p d) = f e ++ f p.
  Hypothesis f_flat : forall e, f (flat e) = f e.
  Hypothesis f_over : forall e l, f (set_overflowing e l) = f e.
  Hypothesis f_offs : forall e o, f (set_offsets e o) = f e.
  Hypothesis f_types : forall e o, f (set_type_ids e o) = f e.
  Hypothesis f_new : forall i ty t off sp att w, f (new_encoding i ty t off sp att w) = h (i, t).
  Hypothesis f_bert : forall c s e, f (bert_add c s e) = g c :: f e ++ [g s].
  Hypothesis f_bert2 : forall s e, f (bert_pair_add s e) = f e ++ [g s].
  Hypothesis f_rob : forall c s e, f (roberta_add c s e) = g c :: f e ++ [g s].
  Hypothesis f_rob2 : forall s e, f (roberta_pair_add s e) = g s :: f e ++ [g s].
  Notation fp := (fparts f).

  Lemma merge_parts e p r : merge_with false e p = Ok r -> fp r = combos (fp e) (fp p).
  Proof.
    intros H. pose proof (merge_with_flat _ _ _ _ H) as F. pose proof (merge_with_overflow _ _ _ _ H) as O. unfold fparts. cbn [combos]. f_equal.
    - rewrite <- (f_flat r), F. apply f_append.
    - apply (f_equal (map f)) in O. rewrite map_map in O. rewrite (map_ext (fun x => f (flat x)) f) in O by exact f_flat. rewrite O. unfold over_spec. rewrite map_app. f_equal.
      + induction (overflowing e) as [|o l IH]; [reflexivity|]. rewrite map_cons. cbn [flat_map]. rewrite map_app, IH. cbn [map]. rewrite f_append, !map_map. f_equal. f_equal. apply map_ext. intros q. apply f_append.
      + rewrite !map_map. apply map_ext. intros q. apply f_append.
  Qed.
  Lemma merges_parts l : forall e r, foldR (fun acc p => merge_with false acc p) l e = Ok r -> fp r = joined_parts (map fp (e :: l)).
  Proof.
    induction l as [|p l IH]; intros e r H; cbn [foldR] in H; [injection H as <-; reflexivity|]. apply bind_Ok_inv in H as (x & Hx & H). rewrite (IH x r H). cbn [map joined_parts fold_left]. f_equal. now apply merge_parts.
  Qed.
  Lemma default_single e r : default_process e None = Ok r -> fp r = fp e.
  Proof. intros H. injection H as <-. reflexivity. Qed.
  Lemma default_pair e p r : default_process e (Some p) = Ok r -> fp r = combos (fp e) (fp p).
  Proof. exact (merge_parts e p r). Qed.
  Lemma trim_parts b e r : process_all_offsets b e = Ok r -> fp r = fp e.
  Proof.
    intros H. apply bind_Ok_inv in H as (x & Hx & H). apply bind_Ok_inv in H as (l & Hl & H). injection H as <-. apply bind_Ok_inv in Hx as (o & _ & Hx). injection Hx as <-.
    unfold fparts. rewrite f_over, f_offs. cbn [set_overflowing set_offsets overflowing] in *. f_equal. apply mapR_Ok_Forall2 in Hl. induction Hl as [|y z l l' Hy _ IH]; [reflexivity|].
    cbn [map]. f_equal; [|exact IH]. apply bind_Ok_inv in Hy as (o' & _ & Hy). injection Hy as <-. apply f_offs.
  Qed.
  Lemma range_parts i e : fp (with_range i e) = fp e.
  Proof. unfold fparts. now rewrite with_range_over, <- (f_flat (with_range i e)), with_range_flat, f_flat. Qed.
  Lemma prepare_parts i e r : prepare i e = Ok r -> fp r = fp e.
  Proof.
    unfold prepare. rewrite set_sequence_ids_ok. cbn [bind]. intros H. apply bind_Ok_inv in H as (l & Hl & H). injection H as <-. rewrite (mapR_ok _ (with_range i)) in Hl by (intros; apply set_sequence_ids_ok). injection Hl as <-.
    assert (E : fp (set_overflowing (with_range i e) (map (with_range i) (overflowing (with_range i e)))) = fp e).
    { unfold fparts. rewrite f_over. cbn [set_overflowing overflowing]. rewrite with_range_over, map_map, <- (f_flat (with_range i e)), with_range_flat, f_flat. f_equal. apply map_ext. intros o. now rewrite <- (f_flat (with_range i o)), with_range_flat, f_flat. }
    destruct (0 <? _)%Z; [|exact E]. rewrite <- E. unfold fparts. rewrite f_types. reflexivity.
  Qed.
  Lemma prepares_parts e pair l : prepare_encodings e pair = Ok l -> map fp l = match pair with Some p => [fp e; fp p] | None => [fp e] end.
  Proof.
    intros H. apply bind_Ok_inv in H as (x & Hx & H). destruct pair as [p|].
    - apply bind_Ok_inv in H as (y & Hy & H). injection H as <-. cbn [map]. now rewrite (prepare_parts _ _ _ Hx), (prepare_parts _ _ _ Hy).
    - injection H as <-. cbn [map]. now rewrite (prepare_parts _ _ _ Hx).
  Qed.
  Lemma bytes_parts b t e pair r : bytelevel_process b t e pair = Ok r -> fp r = match pair with Some p => combos (fp e) (fp p) | None => fp e end.
  Proof.
    intros H. apply bind_Ok_inv in H as (encs & He & H). apply prepares_parts in He. apply bind_Ok_inv in H as (l & Hl & H).
    assert (E : map fp l = map fp encs). { destruct t; [|injection Hl as <-; reflexivity]. apply mapR_Ok_Forall2 in Hl. clear -Hl f_over f_offs. induction Hl as [|y z l l' Hy _ IH]; [reflexivity|]. cbn [map]. f_equal; [exact (trim_parts _ _ _ Hy)|exact IH]. }
    destruct l as [|x l]; [discriminate H|]. rewrite (merges_parts _ _ _ H), E, He. destruct pair; reflexivity.
  Qed.

  (** Templates. *)
  Fixpoint hs (toks : special_tokens) (l : list (str * Z)) : list (list A) :=
    match l with [] => [] | (k, _) :: l' => match aget str_eqb k toks with Some x => h x :: hs toks l' | None => hs toks l' end end.
  Definition hs_if (add : bool) toks l := if add then hs toks l else [].
  Lemma specials_parts toks encs add l : forall ll, mapR (apply_piece toks encs add) (map as_special l) = Ok ll -> map fp (concat ll) = ones (hs_if add toks l).
  Proof.
    induction l as [|[k ty] l IH]; intros ll H; [injection H as <-; destruct add; reflexivity|]. cbn [map as_special fst snd] in H. rewrite mapR_cons in H. apply bind_Ok_inv in H as (x & Hx & H). apply bind_Ok_inv in H as (xs & Hxs & H). injection H as <-.
    specialize (IH xs Hxs). cbn [concat]. rewrite map_app, IH. change (apply_piece toks encs add (PSpecial k ty) = Ok x) in Hx. unfold apply_piece in Hx. destruct add; [|injection Hx as <-; reflexivity]. unfold hs_if. cbn [hs]. destruct (aget str_eqb k toks) as [[i t]|]; [|discriminate Hx]. injection Hx as <-.
    cbn [map app]. unfold ones. cbn [map]. f_equal. unfold fparts. rewrite f_new. reflexivity.
  Qed.
  Lemma seq_piece (toks : special_tokens) (encs : list Encoding) (add b : bool) (ty : Z) (x : list Encoding) (P : list (list A)) : zindex (map fp encs) (if b then 1 else 0)%Z = Ok P -> apply_piece toks encs add (PSeq b ty) = Ok x -> map fp x = [P].
  Proof.
    cbn [apply_piece]. intros Z0 H. apply bind_Ok_inv in H as (e & He & H). apply bind_Ok_inv in H as (y & Hy & H). injection H as <-. rewrite set_sequence_ids_ok in Hy. injection Hy as <-. cbn [map]. rewrite range_parts.
    assert (E : P = fp e). { destruct b; destruct encs as [|e0 [|e1 encs]]; cbn in He, Z0; try discriminate He; injection He as <-; injection Z0 as <-; reflexivity. }
    rewrite E. unfold fparts. now rewrite f_types.
  Qed.
  Lemma mapR_app_inv {B C} (k : B -> res C) l l' : forall r, mapR k (l ++ l') = Ok r -> exists x y, mapR k l = Ok x /\ mapR k l' = Ok y /\ r = x ++ y.
  Proof.
    induction l as [|b l IH]; intros r H; [exists [], r; auto|]. cbn [app] in H. rewrite mapR_cons in H. apply bind_Ok_inv in H as (x & Hx & H). apply bind_Ok_inv in H as (xs & Hxs & H). injection H as <-.
    destruct (IH xs Hxs) as (y & z & H1 & H2 & ->). exists (x :: y), z. rewrite mapR_cons, Hx. cbn [bind]. rewrite H1. cbn. auto.
  Qed.
  Lemma template_single toks e add a ty b both r : template_process (map as_special a ++ PSeq false ty :: map as_special b) both toks e None add = Ok (Some r) ->
    fp r = map (fun w => concat (hs_if add toks a) ++ w ++ concat (hs_if add toks b)) (fp e).
  Proof.
    intros H. apply bind_Ok_inv in H as (encs & He & H). apply bind_Ok_inv in H as (l & Hl & H). apply prepares_parts in He. apply bind_Ok_inv in Hl as (ll & Hl & E). injection E as <-.
    apply mapR_app_inv in Hl as (x & y & Hx & Hy & ->). rewrite mapR_cons in Hy. apply bind_Ok_inv in Hy as (z & Hz & Hy). apply bind_Ok_inv in Hy as (t & Ht & Hy). injection Hy as <-.
    assert (Q : map fp (concat (x ++ z :: t)) = ones (hs_if add toks a) ++ fp e :: ones (hs_if add toks b)).
    { rewrite concat_app, map_app. cbn [concat]. rewrite map_app, (specials_parts _ _ _ _ _ Hx), (specials_parts _ _ _ _ _ Ht). rewrite (seq_piece _ _ _ false _ _ (fp e)) with (2 := Hz); [reflexivity|]. rewrite He. reflexivity. }
    destruct (concat (x ++ z :: t)) as [|e0 l]; [discriminate H|]. cbn [merge_encodings] in H. apply bind_Ok_inv in H as (r' & Hr & H). injection H as <-. rewrite (merges_parts _ _ _ Hr), Q. apply joined_single. discriminate.
  Qed.
  Lemma template_pair toks e p add single a ty b ty' c r : template_process single (map as_special a ++ PSeq false ty :: map as_special b ++ PSeq true ty' :: map as_special c) toks e (Some p) add = Ok (Some r) ->
    fp r = combos (map (fun w => concat (hs_if add toks a) ++ w ++ concat (hs_if add toks b)) (fp e)) (map (fun w => w ++ concat (hs_if add toks c)) (fp p)).
  Proof.
    intros H. apply bind_Ok_inv in H as (encs & He & H). apply bind_Ok_inv in H as (l & Hl & H). apply prepares_parts in He. apply bind_Ok_inv in Hl as (ll & Hl & E). injection E as <-.
    apply mapR_app_inv in Hl as (x & y & Hx & Hy & ->). rewrite mapR_cons in Hy. apply bind_Ok_inv in Hy as (z & Hz & Hy). apply bind_Ok_inv in Hy as (t & Ht & Hy). injection Hy as <-.
    apply mapR_app_inv in Ht as (x2 & y2 & Hx2 & Hy2 & ->). rewrite mapR_cons in Hy2. apply bind_Ok_inv in Hy2 as (z2 & Hz2 & Hy2). apply bind_Ok_inv in Hy2 as (t2 & Ht2 & Hy2). injection Hy2 as <-.
    assert (Q : map fp (concat (x ++ z :: x2 ++ z2 :: t2)) = ones (hs_if add toks a) ++ fp e :: ones (hs_if add toks b) ++ fp p :: ones (hs_if add toks c)).
    { rewrite concat_app, map_app. cbn [concat]. rewrite map_app, concat_app, map_app. cbn [concat]. rewrite map_app, (specials_parts _ _ _ _ _ Hx), (specials_parts _ _ _ _ _ Hx2), (specials_parts _ _ _ _ _ Ht2).
      rewrite (seq_piece _ _ _ false _ _ (fp e)) with (2 := Hz); [|rewrite He; reflexivity]. rewrite (seq_piece _ _ _ true _ _ (fp p)) with (2 := Hz2); [|rewrite He; reflexivity]. reflexivity. }
    destruct (concat (x ++ z :: x2 ++ z2 :: t2)) as [|e0 l]; [discriminate H|]. cbn [merge_encodings] in H. apply bind_Ok_inv in H as (r' & Hr & H). injection H as <-. rewrite (merges_parts _ _ _ Hr), Q. apply joined_pair; discriminate.
  Qed.

  (** All post-processors. *)
  Hypothesis h_nothing : h nothing = [].
  Hypothesis h_one : forall t, h (one t) = [g t].
  Hypothesis h_two : forall t u, h (two t u) = [g t; g u].
  Hypothesis h_app : forall i t x, h (i ++ fst x, t ++ snd x) = h (i, t) ++ h x.
  Lemma h_specials toks l : h (specials toks l) = concat (hs toks l).
  Proof.
    induction l as [|[k ty] l IH]; [exact h_nothing|]. cbn [specials hs]. destruct (aget str_eqb k toks) as [[i t]|]; [|exact IH]. rewrite h_app, IH. reflexivity.
  Qed.
  Lemma h_if add toks l : h (given_if add (specials toks l)) = concat (hs_if add toks l).
  Proof. destruct add; [apply h_specials|exact h_nothing]. Qed.
  Lemma same_parts (l : list (list A)) : l = map (fun w => [] ++ w ++ []) l.
  Proof. rewrite <- (map_id l) at 1. apply map_ext. intros w. now rewrite app_nil_r. Qed.
  Definition run_processor (po : option processor) (e : Encoding) (pair : option Encoding) (add : bool) : res (option Encoding) :=
    match po with None => do r <- default_process e pair; Ok (Some r) | Some p => process p e pair add end.
  Lemma single_parts po add B C e r : single_frame add po B C -> run_processor po e None add = Ok (Some r) -> fp r = map (fun w => h B ++ w ++ h C) (fp e).
  Proof.
    intros F H. destruct F; cbn [run_processor process] in H.
    - injection H as <-. rewrite h_nothing. apply same_parts.
    - apply bind_Ok_inv in H as (x & Hx & H). injection H as <-. rewrite (bytes_parts _ _ _ _ _ Hx), h_nothing. apply same_parts.
    - apply bind_Ok_inv in H as (x & Hx & H). injection H as <-. unfold bert_process in Hx. destruct add; cbn [negb given_if] in *.
      + injection Hx as <-. rewrite !h_one. unfold fparts. rewrite f_over, f_bert. cbn [set_overflowing overflowing map]. f_equal. rewrite !map_map. apply map_ext. intros o. apply f_bert.
      + injection Hx as <-. rewrite !h_nothing. apply same_parts.
    - unfold roberta_process in H. destruct trim; [|destruct add; discriminate H]. apply bind_Ok_inv in H as (e1 & He & H). cbn [bind] in H. apply bind_Ok_inv in H as (x & Hx & H). injection H as <-. rewrite <- (trim_parts _ _ _ He). destruct add; cbn [negb given_if] in *.
      + injection Hx as <-. rewrite !h_one. unfold fparts. rewrite f_over, f_rob. cbn [set_overflowing overflowing map]. f_equal. rewrite !map_map. apply map_ext. intros o. apply f_rob.
      + injection Hx as <-. rewrite !h_nothing. apply same_parts.
    - rewrite !h_if. exact (template_single _ _ _ _ _ _ _ _ H).
  Qed.
  Lemma framed_parts F e L R0 : (forall o, f (F o) = L ++ f o ++ R0) -> fp (set_overflowing (F e) (map F (overflowing e))) = map (fun w => L ++ w ++ R0) (fp e).
  Proof. intros HF. unfold fparts. rewrite f_over, HF. cbn [set_overflowing overflowing map]. f_equal. rewrite !map_map. apply map_ext. exact HF. Qed.
  Lemma pair_parts po add B M C e p r : pair_frame add po B M C -> run_processor po e (Some p) add = Ok (Some r) ->
    exists M1 M2, h M = M1 ++ M2 /\ fp r = combos (map (fun w => h B ++ w ++ M1) (fp e)) (map (fun w => M2 ++ w ++ h C) (fp p)).
  Proof.
    intros F H. destruct F; cbn [run_processor process] in H.
    - apply bind_Ok_inv in H as (x & Hx & H). injection H as <-. rewrite h_nothing. exists [], []. split; [reflexivity|]. rewrite <- !same_parts. exact (default_pair _ _ _ Hx).
    - apply bind_Ok_inv in H as (x & Hx & H). injection H as <-. rewrite h_nothing. exists [], []. split; [reflexivity|]. rewrite <- !same_parts. exact (bytes_parts _ _ _ _ _ Hx).
    - apply bind_Ok_inv in H as (x & Hx & H). injection H as <-. unfold bert_process in Hx. destruct add; cbn [negb given_if] in *.
      + rewrite !h_one. exists [g sep], []. split; [reflexivity|]. unfold add_and_merge in Hx. rewrite (merge_parts _ _ _ Hx).
        rewrite (framed_parts (bert_add cls sep) e [g cls] [g sep] (f_bert cls sep)). rewrite (framed_parts (bert_pair_add sep) p [] [g sep] (f_bert2 sep)). reflexivity.
      + rewrite h_nothing. exists [], []. split; [reflexivity|]. rewrite <- !same_parts. exact (default_pair _ _ _ Hx).
    - unfold roberta_process in H. destruct trim; [|destruct add; discriminate H]. apply bind_Ok_inv in H as (e1 & He & H). apply bind_Ok_inv in H as (p1 & Hp & H). apply bind_Ok_inv in Hp as (p2 & Hp & E). injection E as <-.
      apply bind_Ok_inv in H as (x & Hx & H). injection H as <-. rewrite <- (trim_parts _ _ _ He), <- (trim_parts _ _ _ Hp). destruct add; cbn [negb given_if] in *.
      + rewrite !h_one, h_two. exists [g sep], [g sep]. split; [reflexivity|]. unfold add_and_merge in Hx. rewrite (merge_parts _ _ _ Hx).
        rewrite (framed_parts (roberta_add cls sep) e1 [g cls] [g sep] (f_rob cls sep)). rewrite (framed_parts (roberta_pair_add sep) p2 [g sep] [g sep] (f_rob2 sep)). reflexivity.
      + rewrite !h_nothing. exists [], []. split; [reflexivity|]. rewrite <- !same_parts. exact (default_pair _ _ _ Hx).
    - rewrite !h_if. exists (concat (hs_if add toks b)), []. split; [now rewrite app_nil_r|]. rewrite (template_pair _ _ _ _ _ _ _ _ _ _ _ H). f_equal.
  Qed.
End Process.

(** ** Together *)

Lemma count_specials toks l rest : count_added (map as_special l ++ rest) toks = (Z.of_nat (length (fst (specials toks l))) + count_added rest toks)%Z.
Proof.
  induction l as [|[k ty] l IH]; [reflexivity|]. cbn [map app as_special fst snd count_added specials]. rewrite IH. destruct (aget str_eqb k toks) as [[i tk]|]; cbn [fst]; [rewrite app_length; unfold zlen; cbn [fst]; lia|lia].
Qed.
Lemma count_all toks l : count_added (map as_special l) toks = Z.of_nat (length (fst (specials toks l))).
Proof. rewrite <- (app_nil_r (map as_special l)). rewrite count_specials. cbn. lia. Qed.
Lemma room_single add po B C M : single_frame add po B C ->
  room M [B; C] = (let n := match po with None => 0 | Some p => added_tokens p false end in if (add && (0 <? n))%bool then M - n else M)%Z.
Proof.
  unfold room. cbn [fold_right]. intros F. destruct F; cbn [added_tokens nothing fst length andb Z.ltb]; try (destruct add; cbn; lia).
  rewrite count_specials. cbn [count_added]. rewrite count_all.
  destruct add; cbn [given_if andb fst nothing length]; [|lia]. destruct (0 <? _)%Z eqn:E0; lia.
Qed.
Lemma room_pair add po B Mid C M : pair_frame add po B Mid C ->
  room M [B; Mid; C] = (let n := match po with None => 0 | Some p => added_tokens p true end in if (add && (0 <? n))%bool then M - n else M)%Z.
Proof.
  unfold room. cbn [fold_right]. intros F. destruct F; cbn [added_tokens nothing fst length andb Z.ltb]; try (destruct add; cbn; lia).
  rewrite count_specials. cbn [count_added]. rewrite count_specials. cbn [count_added]. rewrite count_all.
  destruct add; cbn [given_if andb fst nothing length]; [|lia]. destruct (0 <? _)%Z eqn:E0; lia.
Qed.
Lemma ids_single po add B C e r : single_frame add po B C -> run_processor po e None add = Ok (Some r) -> fparts ids r = map (fun w => fst B ++ w ++ fst C) (fparts ids e).
Proof. apply (single_parts ids pt_id fst); reflexivity. Qed.
Lemma tokens_single po add B C e r : single_frame add po B C -> run_processor po e None add = Ok (Some r) -> fparts tokens r = map (fun w => snd B ++ w ++ snd C) (fparts tokens e).
Proof. apply (single_parts tokens pt_value snd); reflexivity. Qed.
Lemma ids_pair po add B M C e p r : pair_frame add po B M C -> run_processor po e (Some p) add = Ok (Some r) ->
  exists M1 M2, fst M = M1 ++ M2 /\ fparts ids r = combos (map (fun w => fst B ++ w ++ M1) (fparts ids e)) (map (fun w => M2 ++ w ++ fst C) (fparts ids p)).
Proof. apply (pair_parts ids pt_id fst); reflexivity. Qed.
Lemma tokens_pair po add B M C e p r : pair_frame add po B M C -> run_processor po e (Some p) add = Ok (Some r) ->
  exists M1 M2, snd M = M1 ++ M2 /\ fparts tokens r = combos (map (fun w => snd B ++ w ++ M1) (fparts tokens e)) (map (fun w => M2 ++ w ++ snd C) (fparts tokens p)).
Proof. apply (pair_parts tokens pt_value snd); reflexivity. Qed.

(** Padding at the end of every part. *)
Definition pads_of (pa : option pad_params) (r : option Encoding) : res (option Encoding) :=
  match pa with
  | None => Ok r
  | Some d =>
      match r with
      | None => Panic
      | Some r => do l <- pad_encodings [r] (pd_strategy d) (pd_dir d) (pd_id d) (pd_type d) (pd_token d); match l with [x] => Ok (Some x) | _ => Panic end
      end
  end.
Lemma Forall2_mapped {X Y} (Q : X -> Y -> Prop) (F : X -> Y) (l : list X) : (forall x, Q x (F x)) -> Forall2 Q l (map F l).
Proof. intros H. induction l; constructor; auto. Qed.
Lemma pads_parts pa r r' : pads_right pa -> pads_of pa (Some r) = Ok (Some r') ->
  Forall2 (fun a b => reads pa r' b (ids a, tokens a)) (r :: overflowing r) (r' :: overflowing r').
Proof.
  intros D. unfold pads_of. destruct pa as [d|].
  - rewrite (D d eq_refl). rewrite (pad_encodings_right [r] (pd_strategy d) _ _ _ _ ltac:(discriminate) eq_refl). cbn [map bind]. intros E. injection E as <-.
    set (n := match pd_strategy d with BatchLongest => _ | Fixed n => n | OtherStrategy => 0%Z end).
    assert (En : n = match pd_strategy d with Fixed m => m | BatchLongest => Z.of_nat (length (ids (pad_right_by (set_overflowing r (map (fun o => pad_right_by o (Z.to_nat (n - zlen (ids o))) (pd_id d) (pd_type d) (pd_token d)) (overflowing r))) (Z.to_nat (n - zlen (ids r))) (pd_id d) (pd_type d) (pd_token d)))) | OtherStrategy => 0%Z end).
    { unfold n at 1. destruct (pd_strategy d) eqn:Es; try reflexivity. cbn [pad_right_by ids set_overflowing]. rewrite app_length, repeat_length. unfold n, batch_longest, enc_len, zlen. cbn [fold_left]. destruct (0 <? Z.of_nat (length (ids r)))%Z eqn:E0; lia. }
    assert (P : forall o, reads (Some d) (pad_right_by (set_overflowing r (map (fun o => pad_right_by o (Z.to_nat (n - zlen (ids o))) (pd_id d) (pd_type d) (pd_token d)) (overflowing r))) (Z.to_nat (n - zlen (ids r))) (pd_id d) (pd_type d) (pd_token d)) (pad_right_by o (Z.to_nat (n - zlen (ids o))) (pd_id d) (pd_type d) (pd_token d)) (ids o, tokens o)).
    { intros o. unfold reads, missing. rewrite <- En. cbn [fst snd padded pad_right_by ids tokens]. split; reflexivity. }
    constructor; [exact (P r)|]. exact (Forall2_mapped _ _ _ P).
  - intros E. injection E as <-. assert (G : forall l : list Encoding, Forall2 (fun a b => reads None r b (ids a, tokens a)) l l).
    { induction l; constructor; [|assumption]. unfold reads. cbn. now rewrite !app_nil_r. } apply G.
Qed.
Lemma parts_read {W} pa r (X : W -> list Z * list str) (l : list Encoding) : forall ws l',
  map ids l = map (fun w => fst (X w)) ws -> map tokens l = map (fun w => snd (X w)) ws -> Forall2 (fun a b => reads pa r b (ids a, tokens a)) l l' -> Forall2 (fun w b => reads pa r b (X w)) ws l'.
Proof.
  induction l as [|e l IH]; intros ws l' H1 H2 H; destruct ws as [|w ws]; try discriminate; inversion H; subst; [constructor|].
  cbn in H1, H2. injection H1 as E1 H1. injection H2 as E2 H2. constructor; [|now apply IH]. rewrite E1, E2, <- surjective_pairing in *. rewrite surjective_pairing with (p := X w). assumption.
Qed.

(** A negative stride. *)
Lemma negative_parts o size s : (s < 0 < size)%Z -> forall fuel prev k, (0 <= k)%Z -> (zlen (ids o) <= size * (k + Z.of_nat fuel))%Z ->
  exists ws, overflow_parts fuel prev o size k s = Ok ws /\ Forall (fun w => ids w = []) ws.
Proof.
  intros Hs. induction fuel as [|n IH]; intros prev k Hk H; cbn [overflow_parts].
  - replace (size * k <? zlen (ids o))%Z with false by nia. eauto.
  - destruct (size * k <? zlen (ids o))%Z eqn:E; [|eauto]. match goal with |- context [overflow_parts n ?w _ _ _ _] => destruct (IH w (k + 1)%Z ltac:(lia) ltac:(nia)) as (ws & -> & F) end.
    cbn [bind]. eexists. split; [reflexivity|]. constructor; [|exact F]. cbn [ids]. unfold get_current_part. replace (s <? 0)%Z with true by lia. now rewrite !orb_true_r.
Qed.
Lemma negative_cut e m s : parallel e -> (s < 0)%Z -> (0 < m < Z.of_nat (length (ids e)))%Z ->
  exists e', truncate e m s = Ok (e', false) /\ ids e' = firstn (Z.to_nat m) (ids e) /\ Forall (fun w => ids w = []) (overflowing e').
Proof.
  intros (P1 & P2 & P3 & P4 & P5 & P6) Hs Hm. rewrite <- (Z2Nat.id m) in * by lia. set (M := Z.to_nat m) in *. clearbody M. rewrite Nat2Z.id.
  unfold truncate. replace ((Z.of_nat M <=? s) || (Z.of_nat M =? 0))%Z with false by lia. replace (zlen (ids e) <=? Z.of_nat M)%Z with false by (unfold zlen; lia).
  rewrite !zslice_prefix, !zslice_suffix by lia. cbn [bind].
  match goal with |- context [overflow_parts ?f ?p ?o ?z 0 s] => destruct (negative_parts o z s ltac:(lia) f p 0 ltac:(lia)) as (ws & -> & F) end.
  - cbn [ids]. unfold zlen. nia.
  - cbn [bind]. eexists. split; [reflexivity|]. split; [reflexivity|exact F].
Qed.

Section Encode.
  Context (ss si : list io_pair -> list io_pair).
  Lemma encodes_single t ot x add M st s B C e0 r :
    tk_trunc t = Some (Trunc M st s) -> (0 <= s)%Z -> pads_right (tk_padding t) -> single_frame add (tk_processor t) B C ->
    encode_sequence ss si t 0 ot x = Ok e0 -> tk_encode ss si t ot (ISingle x) add = Ok (Some r) ->
    exists ws, cut_to (room M [B; C]) (Z.to_nat s) (length (ids e0)) ws /\
      Forall2 (fun w part => reads (tk_padding t) r part (join2 [B; piece_of e0 w; C])) ws (r :: overflowing r).
  Proof.
    intros Ht Hs D F E H. cbn [tk_encode] in H. rewrite E in H. cbn [bind] in H. unfold post_process in H. apply bind_Ok_inv in H as (ep & H1 & H). apply bind_Ok_inv in H as (ro & H2 & H3).
    rewrite Ht in H1. assert (H0 : truncate_encodings e0 None st (room M [B; C]) s = Ok ep) by (rewrite (room_single _ _ _ _ M F); exact H1).
    destruct (truncates_single _ _ _ _ _ (sequence_parallel ss si _ _ _ _ _ E) (proj1 (sequence_plain ss si _ _ _ _ _ E)) Hs H0) as (e' & ws & -> & Cut & Ci & Ct). cbn [fst snd] in H2.
    destruct ro as [r1|]; [|destruct (tk_padding t); discriminate H3]. exists ws. split; [exact Cut|].
    refine (parts_read _ _ (fun w => join2 [B; piece_of e0 w; C]) (r1 :: overflowing r1) ws _ _ _ (pads_parts _ _ _ D H3)).
    - change (map ids (r1 :: overflowing r1)) with (fparts ids r1). rewrite (ids_single _ _ _ _ _ _ F H2), Ci, map_map. apply map_ext. intros w. cbn. now rewrite app_nil_r.
    - change (map tokens (r1 :: overflowing r1)) with (fparts tokens r1). rewrite (tokens_single _ _ _ _ _ _ F H2), Ct, map_map. apply map_ext. intros w. cbn. now rewrite app_nil_r.
  Qed.
  Lemma encodes_pair t ot x y add M st s B Mid C e1 e2 r :
    tk_trunc t = Some (Trunc M st s) -> (0 <= s)%Z -> pads_right (tk_padding t) -> pair_frame add (tk_processor t) B Mid C ->
    encode_sequence ss si t 0 ot x = Ok e1 -> encode_sequence ss si t 1 ot y = Ok e2 -> tk_encode ss si t ot (IDual x y) add = Ok (Some r) ->
    exists ws1 ws2, pair_cut st (room M [B; Mid; C]) (Z.to_nat s) (length (ids e1)) (length (ids e2)) ws1 ws2 /\
      Forall2 (fun w part => reads (tk_padding t) r part (join2 [B; piece_of e1 (fst w); Mid; piece_of e2 (snd w); C])) (all_pairs ws1 ws2) (r :: overflowing r).
  Proof.
    intros Ht Hs D F E E' H. cbn [tk_encode] in H. rewrite E in H. cbn [bind] in H. rewrite E' in H. cbn [bind] in H. unfold post_process in H. apply bind_Ok_inv in H as (ep & H1 & H). apply bind_Ok_inv in H as (ro & H2 & H3).
    rewrite Ht in H1. assert (H0 : truncate_encodings e1 (Some e2) st (room M [B; Mid; C]) s = Ok ep) by (rewrite (room_pair _ _ _ _ _ M F); exact H1).
    destruct (truncates_pair _ _ _ _ _ _ (sequence_parallel ss si _ _ _ _ _ E) (proj1 (sequence_plain ss si _ _ _ _ _ E)) (sequence_parallel ss si _ _ _ _ _ E') (proj1 (sequence_plain ss si _ _ _ _ _ E')) Hs H0) as (a & b & ws1 & ws2 & -> & Cut & (Ci & Ct) & Ci' & Ct'). cbn [fst snd] in H2.
    destruct ro as [r1|]; [|destruct (tk_padding t); discriminate H3]. exists ws1, ws2. split; [exact Cut|].
    refine (parts_read _ _ (fun w => join2 [B; piece_of e1 (fst w); Mid; piece_of e2 (snd w); C]) (r1 :: overflowing r1) (all_pairs ws1 ws2) _ _ _ (pads_parts _ _ _ D H3)).
    - change (map ids (r1 :: overflowing r1)) with (fparts ids r1). destruct (ids_pair _ _ _ _ _ _ _ _ F H2) as (M1 & M2 & EM & ->). rewrite Ci, Ci', !map_map, combos_pairs. apply map_ext. intros [w w']. cbn. now rewrite app_nil_r, EM, <- !app_assoc.
    - change (map tokens (r1 :: overflowing r1)) with (fparts tokens r1). destruct (tokens_pair _ _ _ _ _ _ _ _ F H2) as (M1 & M2 & EM & ->). rewrite Ct, Ct', !map_map, combos_pairs. apply map_ext. intros [w w']. cbn. now rewrite app_nil_r, EM, <- !app_assoc.
  Qed.

  Lemma encodes_negative t ot x add M s e0 :
    tk_trunc t = Some (Trunc M LongestFirst s) -> (s < 0)%Z -> tk_processor t = None -> tk_padding t = None ->
    encode_sequence ss si t 0 ot x = Ok e0 -> (0 < M < Z.of_nat (length (ids e0)))%Z ->
    exists r, tk_encode ss si t ot (ISingle x) add = Ok (Some r) /\ flat_map ids (r :: overflowing r) = firstn (Z.to_nat M) (ids e0).
  Proof.
    intros Ht Hs Hp Hd E HM. destruct (negative_cut e0 M s (sequence_parallel ss si _ _ _ _ _ E) Hs HM) as (e' & T & I & Em). exists e'. split.
    - cbn [tk_encode]. rewrite E. cbn [bind]. unfold post_process. rewrite Ht, Hp, Hd. cbn [post_truncate tr_strategy tr_max tr_stride]. replace (if (add && (0 <? 0))%bool%Z then M - 0 else M)%Z with M by (destruct add; reflexivity).
      unfold truncate_encodings. replace (M =? 0)%Z with false by lia. rewrite Z.add_0_r. unfold enc_len, zlen. replace (Z.of_nat (length (ids e0)) <? M)%Z with false by lia. rewrite longest_first_closed.
      replace (Z.of_nat (length (ids e0)) - Z.max 0 (Z.of_nat (Z.to_nat (Z.of_nat (length (ids e0)) - M)) - Z.max 0 (0 - Z.of_nat (length (ids e0)) + 1)))%Z with M by lia. unfold truncate_ignoring_error. rewrite T. reflexivity.
    - cbn [flat_map]. rewrite I. rewrite <- (app_nil_r (firstn _ _)) at 2. f_equal. clear -Em. induction Em as [|o l H _ IH]; [reflexivity|]. cbn [flat_map]. now rewrite H, IH.
  Qed.
End Encode.
