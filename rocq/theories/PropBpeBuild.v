(** C90: BPE models have the settings they were built with. *)
From Coq Require Import QArith Permutation.
From Verif Require Import Base BaseProofs BpeModel BpeTokProofs BpeSaveModel WordPieceTrainSpec BpeBuildModel BpeBuildSpec BpeBuildProofs.
Open Scope Z_scope.
Open Scope list_scope.

(** After any calls of the builder, with models built in between or not: a built model has the settings
    last given, or the defaults; its tables are those of the files last given if files were given at
    all, otherwise the ones last given; its tokens are found by their ids. *)
Theorem C90_built_partial : forall vocab_of_file text_of_file order, (forall v, Permutation (order v) v) ->
  forall ops b, snd (bb_build vocab_of_file text_of_file order (bb_run vocab_of_file text_of_file order ops)) = Ok b ->
  exists v m, tables_of vocab_of_file text_of_file ops v m /\ has_settings ops v m b /\ reverses v (b_vocab_r (bt_bpe b)).
Proof. intros vf tf order HO ops b H. exact (proj2 (built_ok vf tf order HO ops b H)). Qed.
Print Assumptions C90_built_partial.

(** Building fails exactly if the dropout is a number that is no probability above 0, or the files
    cannot be read; it gives a model if the dropout is a probability and there are tables. *)
Theorem C90_errors_partial : forall vocab_of_file text_of_file order, (forall v, Permutation (order v) v) ->
  forall ops, let built := snd (bb_build vocab_of_file text_of_file order (bb_run vocab_of_file text_of_file order ops)) in
  let accepted := forall p, last_set g_dropout None ops = Some p -> probability p \/ p = NaN in
  (built = Err <->
    (exists p, last_set g_dropout None ops = Some p /\ ~ probability p /\ p <> NaN) \/
    (accepted /\ exists vf mf, last_set g_files None ops = Some (vf, mf) /\
      (vocab_of_file vf = Err \/ exists v, vocab_of_file vf = Ok v /\ (text_of_file mf = Err \/ exists s, text_of_file mf = Ok s /\ read_merges v s = Err)))) /\
  ((exists b, built = Ok b) <-> accepted /\ exists v m, tables_of vocab_of_file text_of_file ops v m).
Proof.
  intros vf tf order HO ops. cbv zeta. split; [exact (errs vf tf order ops)|]. split.
  - intros (b & H). destruct (built_ok vf tf order HO ops b H) as (A & v & m & T & _). split; [exact A|now exists v, m].
  - intros (A & v & m & T). exact (builds vf tf order ops v m A T).
Qed.
Print Assumptions C90_errors_partial.

(** The constructors make the models that a new builder makes. *)
Theorem C90_constructors : forall vocab_of_file text_of_file order,
  let made ops := snd (bb_build vocab_of_file text_of_file order (bb_run vocab_of_file text_of_file order ops)) in
  (forall v m, new_bpe vocab_of_file text_of_file order v m = made [BTables v m]) /\
  (forall vf mf, new_bpe_from_files vocab_of_file text_of_file order vf mf = made [BFiles vf mf]) /\
  (forall v lines dropout unk prefix suffix m, create_merges v lines = Ok m ->
    bpe_make vocab_of_file text_of_file order v lines dropout unk prefix suffix =
      made (BTables v m :: given BDropout dropout ++ given BUnk unk ++ given BPrefix prefix ++ given BSuffix suffix)) /\
  (forall v lines dropout unk prefix suffix, create_merges v lines = Err ->
    bpe_make vocab_of_file text_of_file order v lines dropout unk prefix suffix = Err).
Proof.
  intros vf tf order. cbv zeta. split; [reflexivity|]. split; [reflexivity|]. split.
  - intros v lines d u p s m E. unfold bpe_make. rewrite E. cbn [bind]. destruct d, u, p, s; reflexivity.
  - intros v lines d u p s E. unfold bpe_make. now rewrite E.
Qed.
Print Assumptions C90_constructors.

(** Refuted: the tables last given are those of the model.  Once files were given, giving a
    vocabulary and merges has no effect, whatever they are. *)
Theorem C90_tables_refuted : forall vocab_of_file text_of_file order ops v m, last_set g_files None ops <> None ->
  let made ops := snd (bb_build vocab_of_file text_of_file order (bb_run vocab_of_file text_of_file order ops)) in
  made (ops ++ [BTables v m]) = made ops.
Proof. intros vf tf order ops v m H. exact (files_win vf tf order ops v m H). Qed.
Print Assumptions C90_tables_refuted.

(** Refuted: the dropout of a model is a probability.  NaN is accepted, whatever else is given. *)
Theorem C90_dropout_refuted : forall vocab_of_file text_of_file order, (forall v, Permutation (order v) v) ->
  forall ops v m, tables_of vocab_of_file text_of_file ops v m ->
  exists b, snd (bb_build vocab_of_file text_of_file order (bb_run vocab_of_file text_of_file order (ops ++ [BDropout NaN]))) = Ok b /\
    bt_dropout b = Some NaN /\ ~ probability NaN.
Proof.
  intros vf tf order HO ops v m T. assert (T' : tables_of vf tf (ops ++ [BDropout NaN]) v m) by (unfold tables_of in *; now rewrite !last_set_snoc).
  destruct (builds vf tf order (ops ++ [BDropout NaN]) v m) as (b & E); [|exact T'|].
  - intros p H. rewrite last_set_snoc in H. injection H as <-. now right.
  - exists b. split; [exact E|]. destruct (built_ok vf tf order HO _ b E) as (_ & v' & m' & _ & (_ & _ & _ & _ & _ & D & _) & _). rewrite last_set_snoc in D. split; [exact D|intros []].
Qed.
Print Assumptions C90_dropout_refuted.

(** * Examples *)

(** A file system with the vocabulary {"a": 0, "b": 1, "ab": 2} as "v" and the merges "a b" as "m". *)
Definition bb_v : vocab := [([97]%N, 0); ([98]%N, 1); ([97; 98]%N, 2)].
Definition bb_vf (f : str) : res vocab := if str_eqb f [118]%N then Ok bb_v else Err.
Definition bb_tf (f : str) : res str := if str_eqb f [109]%N then Ok [97; 32; 98; 10]%N else Err.
Local Notation made ops := (snd (bb_build bb_vf bb_tf (fun v => v) (bb_run bb_vf bb_tf (fun v => v) ops))).
Example C90_built_meets :
  made [BUnk [97]%N; BFiles [118]%N [109]%N; BBuild; BCache 0; BTables [([120]%N, 7)] []; BDropout (Num (1 # 2)); BUnk [98]%N] =
    Ok (Built (Bpe bb_v [(0, [97]%N); (1, [98]%N); (2, [97; 98]%N)] [((0, 1), (0, 2))] (Some [98]%N) None None) None (Some (Num (1 # 2)))) /\
  made [BFiles [120]%N [109]%N; BBuild; BTables [([120]%N, 7)] []] = Err /\
  made [BTables [([120]%N, 7)] []; BDropout (Num 0)] = Err /\ made [BDropout (Inf false)] = Err /\
  made [BTables [([120]%N, 7)] []; BDropout (Num 1); BSuffix [33]%N] = Ok (Built (Bpe [([120]%N, 7)] [(7, [120]%N)] [] None None (Some [33]%N)) (Some 10000) (Some (Num 1))).
Proof. repeat split; vm_compute; reflexivity. Qed.
Example C90_refuted_meets : last_set g_files None [BFiles [118]%N [109]%N] <> None /\ tables_of bb_vf bb_tf [BFiles [118]%N [109]%N] bb_v [((0, 1), (0, 2))] /\
  tables_of bb_vf bb_tf [BTables bb_v []] bb_v [] /\ create_merges bb_v [[97; 32; 98]%N] = Ok [((0, 1), (0, 2))] /\ create_merges bb_v [[97]%N] = Err.
Proof.
  split; [discriminate|]. split; [split; [reflexivity|exists [97; 32; 98; 10]%N; split; reflexivity]|]. repeat split.
Qed.
