(** C79: Unigram models have the settings they were built with, and can be saved and loaded. *)
From Coq Require Import String QArith.
From Verif Require Import Base BaseProofs Utf8Model Utf8Proofs NormalizedProofs NormalizedInvProofs BpeModel UnigramModel WordPieceTrainSpec ConfigModel UnigramSaveModel UnigramSaveSpec UnigramSaveProofs.
Open Scope Z_scope.
Open Scope list_scope.

(** Each setting of the model is the last one given, or the default; building fails exactly if the
    unknown id is past the vocabulary. *)
Theorem C79_builder : forall ops,
  ub_build (fold_left ub_set ops ub_new) =
    match last_set u_unk None ops with
    | Some i => if zlen (last_set u_vocab [] ops) <=? i then Err
                else Ok (UG (last_set u_vocab [] ops) (Some i) (last_set u_bytes false ops) (last_set u_fuse true ops))
    | None => Ok (UG (last_set u_vocab [] ops) None (last_set u_bytes false ops) (last_set u_fuse true ops))
    end.
Proof. intros ops. rewrite ub_all. unfold ub_build, ug_build. cbn [ub_new ub_vocab ub_unk ub_bytes ub_fuse]. now destruct (last_set u_unk None ops). Qed.
Print Assumptions C79_builder.
Example C79_builder_meets : ub_build (fold_left ub_set [UUnk 5; UVocab [([97]%N, -1 # 1); ([98]%N, -2 # 1)]; UUnk 1; UFuse false] ub_new) =
  Ok (UG [([97]%N, -1 # 1); ([98]%N, -2 # 1)] (Some 1) false false).
Proof. reflexivity. Qed.

(** Refuted: the unknown id is the id of a token.  Negative ids are accepted for every vocabulary, and
    no token has them. *)
Theorem C79_negative_refuted : forall ops i, i < 0 ->
  exists u, ub_build (fold_left ub_set (ops ++ [UUnk i]) ub_new) = Ok u /\ ug_unk u = Some i /\ ug_id_to_token u i = None /\
    forall t, ug_token_to_id u t <> Some i.
Proof. intros ops i Hi. rewrite fold_left_app. cbn [fold_left]. apply negative_unk. exact Hi. Qed.
Print Assumptions C79_negative_refuted.

(** The file tells the vocabulary, the unknown id and the byte fallback, if the tokens are UTF-8;
    models that differ in one of them have different files. *)
Theorem C79_saved_partial : forall u v, Forall (fun p => valid_utf8 (fst p)) (ug_vocab u) -> Forall (fun p => valid_utf8 (fst p)) (ug_vocab v) ->
  file_says u (saved_file u) /\ (saved_file u = saved_file v <-> same_but_fuse u v).
Proof.
  intros u v Vu Vv. split.
  { repeat (split; [reflexivity|]). unfold saved_file. change (JArr (map saved_entry (ug_vocab u)) = JArr (map (fun p => JObj [(key "token", JStr (fst p)); (key "score", JNum (snd p))]) (ug_vocab u))).
    f_equal. apply map_ext_Forall. eapply Forall_impl; [|exact Vu]. intros p Hp. unfold saved_entry, json_text. now rewrite (runes_valid_id _ Hp). }
  revert u v Vu Vv. intros [vu uu bu fu] [vv uv bv fv] Vu Vv. unfold saved_file, same_but_fuse. cbn [ug_vocab ug_unk ug_bytes] in *. split.
  - intros H. injection H as -> Hu Hv. split; [|split; [|reflexivity]].
    + clear Hu. revert vv Vv Hv. induction vu as [|[s q] vu IH]; intros [|[t r] vv] Vv Hv; cbn [map] in Hv; try discriminate Hv; [reflexivity|].
      injection Hv as Es Eq Hv. apply Forall_cons_iff in Vu as [V1 Vu]. apply Forall_cons_iff in Vv as [V2 Vv]. cbn [fst] in *.
      rewrite (runes_valid_id s V1), (runes_valid_id t V2) in Es. subst. f_equal. exact (IH Vu vv Vv Hv).
    + destruct uu, uv; try discriminate Hu; congruence.
  - intros (-> & -> & ->). reflexivity.
Qed.
Print Assumptions C79_saved_partial.
(** A model with an unknown token, and the entries of its file. *)
Definition us_a : @unigram Q := UG [([97]%N, -1 # 1); ([60; 117; 62]%N, -2 # 1)] (Some 1) false true.
Example C79_saved_meets : Forall (fun p => valid_utf8 (fst p)) (ug_vocab us_a) /\
  fget "vocab" (saved_file us_a) = JArr [JObj [(key "token", JStr [97]%N); (key "score", JNum (-1 # 1))]; JObj [(key "token", JStr [60; 117; 62]%N); (key "score", JNum (-2 # 1))]].
Proof.
  split; [|reflexivity]. constructor; [exists [97]%N; split; [constructor; [left; reflexivity|constructor]|reflexivity]|].
  constructor; [exists [60; 117; 62]%N; split; [repeat (constructor; [left; reflexivity|]); constructor|reflexivity]|constructor].
Qed.

(** Refuted: other tokens are written as U+FFFD, so models of different vocabularies have the same file. *)
Theorem C79_text_refuted : exists u v s, saved_file u = saved_file v /\ ug_token_to_id u s = Some 0 /\ ug_token_to_id v s = None.
Proof.
  exists (UG [([255]%N, -1 # 1)] None false true), (UG [([254]%N, -1 # 1)] None false true), [255]%N. split; [reflexivity|]. split; reflexivity.
Qed.
Print Assumptions C79_text_refuted.

(** Refuted: whether unknown tokens are joined is not written, though it decides how texts are cut. *)
Theorem C79_fuse_refuted : exists u v s, saved_file u = saved_file v /\
  let cut := fun m => ug_tokenize (fun x y => negb (Qle_bool y x)) (-1000000 # 1) 0%Q Qplus (fun n => Z.of_nat n # 10) (fun x => x - 10)%Q m s in
  cut u = Ok [Tok 1 [98; 98]%N (0, 2)] /\ cut v = Ok [Tok 1 [98]%N (0, 1); Tok 1 [98]%N (1, 2)].
Proof. exists us_a, (UG (ug_vocab us_a) (ug_unk us_a) (ug_bytes us_a) false), [98; 98]%N. split; [reflexivity|]. split; vm_compute; reflexivity. Qed.
Print Assumptions C79_fuse_refuted.

(** Refuted: the file can be loaded again.  Entries are written as objects, and the loader wants
    lists of two: it panics for every vocabulary but the empty one. *)
Theorem C79_load_refuted : forall order to32 u dec, ug_vocab u <> [] -> create_model order to32 (Some (saved_file u)) dec = Panic.
Proof. intros order to32 u dec. apply load_panics. Qed.
Print Assumptions C79_load_refuted.
Example C79_load_meets : ug_vocab us_a <> [] /\ saved_file us_a <> [] /\ saved_name None = key "tokenizer-vocab.json".
Proof. split; [discriminate|]. split; [discriminate|reflexivity]. Qed.
