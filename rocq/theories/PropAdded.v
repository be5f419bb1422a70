(** Properties C19 to C21: added tokens. *)
From Verif Require Import Base BaseProofs BpeModel AddedVocabModel AddedVocabSpec AddedVocabProofs AddedFindProofs.
Open Scope Z_scope.

(** A two-token model and some added tokens. *)
Definition av_v : vocab := [([97%N], 0); ([98%N], 1)].
Definition av_vr : vocab_r := [(0, [97%N]); (1, [98%N])].
Definition av_m : base_model := vocab_model av_v av_vr.
Definition tk (s : str) : added_token := AT s false false false false.
Definition t_pad : added_token := tk [91; 80; 93]%N.
Definition t_cls : added_token := tk [91; 67; 93]%N.
Definition av_pat (t : added_token) : option str := Some (at_content t).
Definition av_comp (_ : str) : bool := true.
Definition av_calls : list add_call :=
  [AddTok [t_pad; tk [97%N]; t_pad; tk []]; AddSpecial [t_cls; t_pad; tk [98%N]]].

Lemma av_ok : base_ok av_m.
Proof.
  assert (E : forall t i, bm_t2i av_m t = Some i -> (t = [97%N] /\ i = 0) \/ (t = [98%N] /\ i = 1)).
  { cbn. intros t i. destruct (str_eqb t [97%N]) eqn:E1.
    - intros [= <-]. apply str_eqb_eq in E1. auto.
    - destruct (str_eqb t [98%N]) eqn:E2; [|discriminate]. intros [= <-]. apply str_eqb_eq in E2. auto. }
  split.
  - intros t i H. apply E in H as [[-> ->]|[-> ->]]; cbn; unfold zlen; cbn; lia.
  - intros t i. split.
    + intros H. apply E in H as [[-> ->]|[-> ->]]; reflexivity.
    + cbn. unfold vrget. cbn. destruct (Z.eqb_spec i 0) as [->|]; [now intros [= <-]|].
      destruct (Z.eqb_spec i 1) as [->|]; [now intros [= <-]|discriminate].
Qed.

Definition av_st : added_vocab :=
  match add_history av_m av_pat av_comp new_added_vocab av_calls with Ok (av, _) => av | _ => new_added_vocab end.
Example av_history : exists av,
  add_history av_m av_pat av_comp new_added_vocab av_calls = Ok (av, [1; 1]) /\
  av_map av = [([91; 80; 93]%N, 2); ([91; 67; 93]%N, 3)].
Proof. exists av_st. vm_compute. split; reflexivity. Qed.

(** A token with an id keeps it whatever is added later; the model's own tokens
    keep theirs. *)
Theorem C19_known_tokens_keep_ids : forall m pattern compiles cs cs' av ns av' ns' t i,
  base_ok m ->
  add_history m pattern compiles new_added_vocab cs = Ok (av, ns) ->
  add_history m pattern compiles av cs' = Ok (av', ns') ->
  av_token_to_id m av t = Some i -> av_token_to_id m av' t = Some i.
Proof. exact added_stable. Qed.
Print Assumptions C19_known_tokens_keep_ids.

Theorem C19_model_tokens_keep_ids : forall m pattern compiles cs av ns t i,
  base_ok m -> add_history m pattern compiles new_added_vocab cs = Ok (av, ns) ->
  bm_t2i m t = Some i -> av_token_to_id m av t = Some i.
Proof. exact model_ids_kept. Qed.
Print Assumptions C19_model_tokens_keep_ids.

(** The id of an added token is not the model's. *)
Theorem C19_ids_fresh : forall m pattern compiles cs av ns t i,
  base_ok m -> add_history m pattern compiles new_added_vocab cs = Ok (av, ns) ->
  av_token_to_id m av t = Some i -> bm_t2i m t = None ->
  bm_size m <= i < bm_size m + zlen (av_map av) /\ bm_i2t m i = None.
Proof. exact added_fresh. Qed.
Print Assumptions C19_ids_fresh.

(** The two lookups are inverse on all tokens; in particular ids are unique. *)
Theorem C19_lookups_inverse : forall m pattern compiles cs av ns,
  base_ok m -> add_history m pattern compiles new_added_vocab cs = Ok (av, ns) ->
  forall t i, av_token_to_id m av t = Some i <-> av_id_to_token m av i = Some t.
Proof. exact added_inverse. Qed.
Print Assumptions C19_lookups_inverse.

(** The count returned by a call is the number of distinct non-empty tokens that
    had no id; afterwards these, and no others, have gained one. *)
Theorem C19_count : forall m pattern compiles cs c av ns av' n,
  base_ok m -> add_history m pattern compiles new_added_vocab cs = Ok (av, ns) ->
  add_step m pattern compiles av c = Ok (av', n) ->
  exists news, new_contents m av (call_tokens c) news /\ n = zlen news /\
    (forall u, av_token_to_id m av' u <> None <-> av_token_to_id m av u <> None \/ In u news).
Proof. exact added_step. Qed.
Print Assumptions C19_count.

(** A new token is searched for from then on: its pattern is in the set that goes
    with its normalization flag. *)
Theorem C19_new_tokens_have_patterns : forall m pattern compiles cs c av ns av' n u,
  base_ok m -> add_history m pattern compiles new_added_vocab cs = Ok (av, ns) ->
  add_step m pattern compiles av c = Ok (av', n) ->
  In u (map at_content (call_tokens c)) -> u <> [] -> av_token_to_id m av u = None ->
  exists t p i, at_content t = u /\ pattern t = Some p /\ av_token_to_id m av' u = Some i /\
    In (p, i) (if at_norm t then av_norm av' else av_nnorm av').
Proof. exact added_patterns. Qed.
Print Assumptions C19_new_tokens_have_patterns.

(** No call aborts if the patterns of all tokens exist and compile ... *)
Theorem C19_no_abort_partial : forall m pattern compiles cs,
  base_ok m ->
  (forall c t, In c cs -> In t (call_tokens c) -> patterns_ok pattern compiles t) ->
  exists av ns, add_history m pattern compiles new_added_vocab cs = Ok (av, ns).
Proof. exact added_total. Qed.
Print Assumptions C19_no_abort_partial.

(** ... and a new token whose pattern does not compile ends the process.  (Go's
    regexp package rejects every pattern that is not valid UTF-8, and QuoteMeta
    copies such bytes.) *)
Theorem C19_abort_refuted : forall m pattern compiles t p,
  base_ok m -> at_content t <> [] -> bm_t2i m (at_content t) = None ->
  pattern t = Some p -> compiles p = false ->
  add_step m pattern compiles new_added_vocab (AddTok [t]) = Fatal.
Proof. exact bad_pattern_aborts. Qed.
Print Assumptions C19_abort_refuted.

(** C20.  Reading the model's vocabulary alone changes nothing. *)
Theorem C20_without_added : forall s, snd (get_vocab false s) = s /\ fst (get_vocab false s) = vs_vocab s.
Proof. exact get_vocab_false. Qed.
Print Assumptions C20_without_added.

(** Lookups are not changed by either form, and the map returned is the
    tokenizer's lookup. *)
Theorem C20_lookups_unchanged : forall s b t,
  NoDup (map fst (av_map (vs_added s))) ->
  vs_token_to_id (snd (get_vocab b s)) t = vs_token_to_id s t.
Proof. exact get_vocab_token_to_id. Qed.
Print Assumptions C20_lookups_unchanged.

Theorem C20_id_lookups_unchanged : forall s b i,
  vs_id_to_token (snd (get_vocab b s)) i = vs_id_to_token s i.
Proof. exact get_vocab_id_to_token. Qed.
Print Assumptions C20_id_lookups_unchanged.

Theorem C20_contents : forall s,
  NoDup (map fst (av_map (vs_added s))) -> forall t,
  vget t (fst (get_vocab true s)) = vs_token_to_id s t.
Proof. exact get_vocab_contents. Qed.
Print Assumptions C20_contents.

(** But reading it with the added tokens, in any state reached by adding tokens,
    enlarges both reported sizes by the number of added tokens ... *)
Theorem C20_size_refuted : forall v vr pattern compiles cs av ns,
  base_ok (vocab_model v vr) ->
  add_history (vocab_model v vr) pattern compiles new_added_vocab cs = Ok (av, ns) ->
  let s := VS v vr av in let s' := snd (get_vocab true s) in
  get_vocab_size false s' = get_vocab_size false s + zlen (av_map av) /\
  get_vocab_size true s' = get_vocab_size true s + zlen (av_map av).
Proof. exact get_vocab_grows. Qed.
Print Assumptions C20_size_refuted.

(** ... and shifts the id of the next added token by as much. *)
Theorem C20_next_id_refuted : forall v vr pattern compiles cs av ns t,
  base_ok (vocab_model v vr) ->
  add_history (vocab_model v vr) pattern compiles new_added_vocab cs = Ok (av, ns) ->
  at_content t <> [] -> av_token_to_id (vocab_model v vr) av (at_content t) = None ->
  forall s1 n1 s2 n2,
  vs_add_tokens pattern compiles [t] (VS v vr av) = Ok (s1, n1) ->
  vs_add_tokens pattern compiles [t] (snd (get_vocab true (VS v vr av))) = Ok (s2, n2) ->
  vs_token_to_id s1 (at_content t) = Some (zlen v + zlen (av_map av)) /\
  vs_token_to_id s2 (at_content t) = Some (zlen v + zlen (av_map av) + zlen (av_map av)).
Proof. exact get_vocab_shifts_ids. Qed.
Print Assumptions C20_next_id_refuted.
Example C20_ex :
  add_history av_m av_pat av_comp new_added_vocab av_calls = Ok (av_st, [1; 1]) /\
  get_vocab_size true (VS av_v av_vr av_st) = 4 /\
  get_vocab_size true (snd (get_vocab true (VS av_v av_vr av_st))) = 6 /\
  match vs_add_tokens av_pat av_comp [tk [120%N]] (snd (get_vocab true (VS av_v av_vr av_st))) with
  | Ok (s, _) => vs_token_to_id s [120%N] = Some 6
  | _ => False
  end.
Proof. vm_compute. repeat split. Qed.

(** C21.  The pieces are consecutive and cover the text. *)
Theorem C21_pieces_cover : forall sort_start sort_id,
  sorts start_key sort_start -> sorts id_key sort_id ->
  forall total ids found, 0 < total -> matches_ok total found ->
  pieces 0 total (find_matches sort_start sort_id total ids found).
Proof. exact find_pieces. Qed.
Print Assumptions C21_pieces_cover.

(** Labelled pieces are occurrences of the labelling token's pattern. *)
Theorem C21_labels_are_occurrences : forall sort_start sort_id,
  sorts start_key sort_start -> sorts id_key sort_id ->
  forall total ids found t r,
  In (Some t, r) (find_matches sort_start sort_id total ids found) ->
  exists i, occurs found i r /\ t = nth i ids 0.
Proof. exact find_labelled. Qed.
Print Assumptions C21_labels_are_occurrences.

(** An occurrence is extracted unless it begins before the end of an extracted
    occurrence of the same or an earlier pattern. *)
Theorem C21_complete_partial : forall sort_start sort_id,
  sorts start_key sort_start -> sorts id_key sort_id ->
  forall total ids found j s, total <> 0 -> matches_ok total found -> occurs found j s ->
  In (Some (nth j ids 0), s) (find_matches sort_start sort_id total ids found) \/
  exists i r, (i <= j)%nat /\ occurs found i r /\ fst s < snd r /\
    In (Some (nth i ids 0), r) (find_matches sort_start sort_id total ids found).
Proof. exact find_complete. Qed.
Print Assumptions C21_complete_partial.

(** With a single pattern every occurrence is extracted. *)
Theorem C21_single_pattern_complete : forall sort_start sort_id,
  sorts start_key sort_start -> sorts id_key sort_id ->
  forall total ids l r, total <> 0 -> ordered_from 0 total l -> In r l ->
  In (Some (nth 0 ids 0), r) (find_matches sort_start sort_id total ids [l]).
Proof. exact find_single. Qed.
Print Assumptions C21_single_pattern_complete.

(** An occurrence of a later pattern in front of one of an earlier pattern is
    lost, although the two are disjoint. *)
Theorem C21_complete_refuted : forall sort_start sort_id,
  sorts start_key sort_start -> sorts id_key sort_id ->
  forall total i0 i1 a b c d, 0 <= c < d -> d <= a < b -> b <= total ->
  find_matches sort_start sort_id total [i0; i1] [[(a, b)]; [(c, d)]] =
    (None, (0, a)) :: (Some i0, (a, b)) :: (if b =? total then [] else [(None, (b, total))]).
Proof. exact find_swallows. Qed.
Print Assumptions C21_complete_refuted.

(** "[C] x [P]" with [P] registered first, and in the other order. *)
Example C21_ex :
  sorts start_key (isort start_key) /\ sorts id_key (isort id_key) /\
  matches_ok 9 [[(6, 9)]; [(0, 3)]] /\
  find_matches (isort start_key) (isort id_key) 9 [2; 3] [[(6, 9)]; [(0, 3)]] =
    [(None, (0, 6)); (Some 2, (6, 9))] /\
  find_matches (isort start_key) (isort id_key) 9 [3; 2] [[(0, 3)]; [(6, 9)]] =
    [(Some 3, (0, 3)); (None, (3, 6)); (Some 2, (6, 9))].
Proof.
  split; [apply isort_sorts|]. split; [apply isort_sorts|].
  split; [repeat constructor; cbn; lia|]. split; reflexivity.
Qed.
