(** Property C17: BPE merge tables on file. *)
From Verif Require Import Base BpeModel BpeSaveModel BpeSaveSpec BpeSaveProofs PropBpe.
Open Scope Z_scope.

(** Reading back what Save wrote gives every merge its result and, as rank, the
    number of merges that ranked lower before. *)
Theorem C17_round_trip_partial : forall v vr t sorted,
  consistent v vr t -> separable vr t -> sorting t sorted ->
  Forall (fun e => plain_line (save_line vr e)) t ->
  exists t', read_merges v (save_merges vr sorted) = Ok t' /\
    forall c1 c2, lookup_merge t' c1 c2 =
      option_map (fun p => (position t (fst p), snd p)) (lookup_merge t c1 c2).
Proof. exact round_trip. Qed.
Print Assumptions C17_round_trip_partial.

(** If the ranks were 0, ..., n-1 they are exactly the same. *)
Theorem C17_same_ranks_partial : forall v vr t sorted,
  consistent v vr t -> separable vr t -> sorting t sorted ->
  Forall (fun e => plain_line (save_line vr e)) t ->
  Permutation (map rank_of t) (map Z.of_nat (seq 0 (length t))) ->
  exists t', read_merges v (save_merges vr sorted) = Ok t' /\
    forall c1 c2, lookup_merge t' c1 c2 = lookup_merge t c1 c2.
Proof. exact round_trip_dense. Qed.
Print Assumptions C17_same_ranks_partial.

(** In every case the reloaded model tokenizes every string as before. *)
Theorem C17_same_results_partial : forall b sorted,
  consistent (b_vocab b) (b_vocab_r b) (b_merges b) -> separable (b_vocab_r b) (b_merges b) ->
  sorting (b_merges b) sorted ->
  Forall (fun e => plain_line (save_line (b_vocab_r b) e)) (b_merges b) ->
  exists t', read_merges (b_vocab b) (save_merges (b_vocab_r b) sorted) = Ok t' /\
    forall s, bpe_tokenize (with_merges b t') s = bpe_tokenize b s.
Proof. exact round_trip_results. Qed.
Print Assumptions C17_same_results_partial.

(** A model meeting the hypotheses, with the merges out of order in the table. *)
Definition sv_merges : merge_table := [((2, 3), (1, 5)); ((1, 2), (0, 4))].
Definition sv_bpe : bpe := Bpe ex_vocab (build_vocab_r ex_vocab) sv_merges (Some s_unk) None None.
Example C17_ex :
  consistent ex_vocab (b_vocab_r sv_bpe) sv_merges /\ separable (b_vocab_r sv_bpe) sv_merges /\
  sorting sv_merges ex_merges /\
  Forall (fun e => plain_line (save_line (b_vocab_r sv_bpe) e)) sv_merges /\
  save_merges (b_vocab_r sv_bpe) ex_merges = [97; 32; 98; 10; 98; 32; 99; 10]%N /\
  read_merges ex_vocab [97; 32; 98; 10; 98; 32; 99; 10]%N = Ok ex_merges.
Proof.
  split; [|split; [|split; [|split; [|split]]]].
  - split; [|split].
    + repeat (apply NoDup_cons; [cbn; intuition congruence|]). apply NoDup_nil.
    + repeat (apply NoDup_cons; [cbn; intuition congruence|]). apply NoDup_nil.
    + intros c1 c2 rank new [E|[E|[]]]; injection E as <- <- <- <-.
      * exists s_b, s_c'. vm_compute. repeat split.
      * exists s_a, s_b. vm_compute. repeat split.
  - intros c1 c2 rank new x [E|[E|[]]] H; injection E as <- <- <- <-;
      vm_compute in H; destruct H as [[= <-]|[= <-]]; split; intros [K|[]]; discriminate K.
  - split; [apply perm_swap|]. repeat constructor; vm_compute; discriminate.
  - repeat constructor; vm_compute; congruence.
  - reflexivity.
  - reflexivity.
Qed.

(** Only the order of the ranks matters to tokenization. *)
Theorem C17_rank_order_suffices : forall b t',
  same_order (b_merges b) t' -> forall s, bpe_tokenize (with_merges b t') s = bpe_tokenize b s.
Proof. exact tokenize_same_order. Qed.
Print Assumptions C17_rank_order_suffices.
Example C17_order_ex : same_order ex_merges [((1, 2), (10, 4)); ((2, 3), (70, 5))].
Proof.
  split.
  - intros c1 c2. cbn. destruct (pair_eqb (c1, c2) (1, 2)); [reflexivity|].
    destruct (pair_eqb (c1, c2) (2, 3)); reflexivity.
  - intros c1 c2 d1 d2 r n s m r' n' s' m'. cbn.
    destruct (pair_eqb (c1, c2) (1, 2)), (pair_eqb (c1, c2) (2, 3)),
      (pair_eqb (d1, d2) (1, 2)), (pair_eqb (d1, d2) (2, 3));
      intros [= <- <-] [= <- <-] [= <- <-] [= <- <-]; lia.
Qed.

(** Building from lines succeeds exactly when no line is malformed and every
    concatenation is known; otherwise it is an error. *)
Theorem C17_create_outcome : forall v lines,
  (Forall (fun l => ~ malformed l /\ ~ dangling v l) lines /\ exists t, create_merges v lines = Ok t) \/
  (~ Forall (fun l => ~ malformed l /\ ~ dangling v l) lines /\ create_merges v lines = Err).
Proof. exact create_merges_total. Qed.
Print Assumptions C17_create_outcome.

Theorem C17_create_rejects : forall v lines line,
  In line lines -> malformed line \/ dangling v line -> create_merges v lines = Err.
Proof. exact create_rejects. Qed.
Print Assumptions C17_create_rejects.
Example C17_create_rejects_ex :
  create_merges ex_vocab [[97; 32; 98]; [97; 98]]%N = Err /\
  create_merges ex_vocab [[97; 32; 98; 32; 99]]%N = Err /\
  create_merges ex_vocab [[97; 32; 99]]%N = Err.
Proof. repeat split. Qed.

(** The rank of a pair is the number of merges given by earlier lines (for a
    repeated pair, by those before its last line). *)
Theorem C17_create_ranks : forall v lines t,
  create_merges v lines = Ok t ->
  exists acc, accepts v lines acc /\
    forall c1 c2 r new, lookup_merge t c1 c2 = Some (r, new) <->
      exists i, last_at acc (c1, c2) i new /\ r = Z.of_nat i.
Proof. exact create_merges_ok. Qed.
Print Assumptions C17_create_ranks.

(** When every line gives a merge and no pair is repeated, line i has rank i. *)
Theorem C17_create_line_order : forall v lines es,
  Forall2 (fun l (e : (Z * Z) * Z) => exists x y, two_tokens l x y /\ vget x v = Some (fst (fst e)) /\
     vget y v = Some (snd (fst e)) /\ vget (x ++ y)%list v = Some (snd e)) lines es ->
  NoDup (map fst es) ->
  exists t, create_merges v lines = Ok t /\
    forall i c1 c2 n, nth_error es i = Some ((c1, c2), n) ->
      lookup_merge t c1 c2 = Some (Z.of_nat i, n).
Proof. exact create_line_order. Qed.
Print Assumptions C17_create_line_order.
(** Line 2 names an unknown token and is skipped; the pair (a, b) comes twice. *)
Example C17_create_ex :
  create_merges ex_vocab [[97; 32; 98]; [120; 32; 98]; [98; 32; 99]; [97; 32; 98]]%N =
    Ok [((1, 2), (2, 4)); ((2, 3), (1, 5))].
Proof. reflexivity. Qed.

(** A merge with "#version" in its line does not survive. *)
Theorem C17_version_refuted : forall v vr t sorted t' c1 c2 rank new,
  consistent v vr t -> separable vr t -> sorting t sorted ->
  Forall (fun e => zlen (save_line vr e) < 65536 /\ last (save_line vr e) 0%N <> CR) t ->
  In ((c1, c2), (rank, new)) t ->
  contains version_mark (save_line vr ((c1, c2), (rank, new))) = true ->
  read_merges v (save_merges vr sorted) = Ok t' ->
  lookup_merge t' c1 c2 = None.
Proof. exact version_lost. Qed.
Print Assumptions C17_version_refuted.
Definition ver_vocab : vocab := [(version_mark, 0); ([97]%N, 1); ((version_mark ++ [97%N])%list, 2)].
Example C17_version_ex :
  let t := [((0, 1), (0, 2))] in
  consistent ver_vocab (build_vocab_r ver_vocab) t /\ separable (build_vocab_r ver_vocab) t /\
  read_merges ver_vocab (save_merges (build_vocab_r ver_vocab) t) = Ok [].
Proof.
  split; [|split].
  - split; [|split].
    + repeat (apply NoDup_cons; [cbn; intuition congruence|]). apply NoDup_nil.
    + repeat (apply NoDup_cons; [cbn; intuition congruence|]). apply NoDup_nil.
    + intros c1 c2 rank new [E|[]]; injection E as <- <- <- <-.
      exists version_mark, [97%N]. vm_compute. repeat split.
  - intros c1 c2 rank new x [E|[]] H; injection E as <- <- <- <-;
      vm_compute in H; destruct H as [[= <-]|[= <-]]; split; intros K; repeat (destruct K as [K|K]; [discriminate K|]); exact K.
  - reflexivity.
Qed.

(** A line of 64 KiB or more makes the saved file unreadable. *)
Theorem C17_long_line_refuted : forall v vr t sorted e,
  consistent v vr t -> separable vr t -> sorting t sorted ->
  In e t -> 65536 <= zlen (save_line vr e) ->
  read_merges v (save_merges vr sorted) = Err.
Proof. exact long_line_fails. Qed.
Print Assumptions C17_long_line_refuted.
