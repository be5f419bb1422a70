(** What is asked of building BPE models (C90). *)
From Coq Require Import QArith.
From Verif Require Import Base BpeModel BpeSaveModel WordPieceTrainSpec BpeBuildModel.
Open Scope list_scope.

(** The settings that the calls of a builder give. *)
Definition g_files (o : bb_op) := match o with BFiles a b => Some (Some (a, b)) | _ => None end.
Definition g_tables (o : bb_op) := match o with BTables v m => Some (v, m) | _ => None end.
Definition g_cache (o : bb_op) := match o with BCache n => Some n | _ => None end.
Definition g_dropout (o : bb_op) := match o with BDropout p => Some (Some p) | _ => None end.
Definition g_unk (o : bb_op) := match o with BUnk s => Some (Some s) | _ => None end.
Definition g_prefix (o : bb_op) := match o with BPrefix s => Some (Some s) | _ => None end.
Definition g_suffix (o : bb_op) := match o with BSuffix s => Some (Some s) | _ => None end.

(** The dropouts that are a probability above 0. *)
Definition probability (p : f32) : Prop := match p with Num q => (0 < q <= 1)%Q | _ => False end.

(** A model with the settings last given, or the defaults, and these tables. *)
Definition has_settings (ops : list bb_op) (v : vocab) (m : merge_table) (b : built) : Prop :=
  b_vocab (bt_bpe b) = v /\ b_merges (bt_bpe b) = m /\
  b_unk (bt_bpe b) = last_set g_unk None ops /\ b_prefix (bt_bpe b) = last_set g_prefix None ops /\ b_suffix (bt_bpe b) = last_set g_suffix None ops /\
  bt_dropout b = last_set g_dropout None ops /\
  bt_cache b = (if (last_set g_cache 10000 ops =? 0)%Z then None else Some (last_set g_cache 10000 ops))%Z.
(** A reverse vocabulary: it has a token for exactly the ids of the vocabulary, and a token of that id. *)
Definition reverses (v : vocab) (vr : vocab_r) : Prop :=
  (forall i s, vrget i vr = Some s -> In (s, i) v) /\ (forall s i, In (s, i) v -> exists s', vrget i vr = Some s').

Section Given.
  Variable vocab_of_file : str -> res vocab.
  Variable text_of_file : str -> res str.
  (** The two files can be read and hold these tables; a merges file is read as in C12. *)
  Definition files_read (vf mf : str) (v : vocab) (m : merge_table) : Prop :=
    vocab_of_file vf = Ok v /\ exists s, text_of_file mf = Ok s /\ read_merges v s = Ok m.
  (** The tables of the files last given if files were given, otherwise the tables last given. *)
  Definition tables_of (ops : list bb_op) (v : vocab) (m : merge_table) : Prop :=
    match last_set g_files None ops with
    | Some (vf, mf) => files_read vf mf v m
    | None => last_set g_tables ([], []) ops = (v, m)
    end.
End Given.

(** The calls that give these settings. *)
Definition given {A} (call : A -> bb_op) (x : option A) : list bb_op := match x with Some a => [call a] | None => [] end.
