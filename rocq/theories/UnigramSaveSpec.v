(** What is asked of building and saving Unigram models (C79). *)
From Coq Require Import String QArith.
From Verif Require Import Base UnigramModel ConfigModel UnigramSaveModel.

(** The fields of the builder. *)
Definition u_vocab (o : ub_op) := match o with UVocab v => Some v | _ => None end.
Definition u_unk (o : ub_op) := match o with UUnk i => Some (Some i) | _ => None end.
Definition u_bytes (o : ub_op) := match o with UBytes b => Some b | _ => None end.
Definition u_fuse (o : ub_op) := match o with UFuse b => Some b | _ => None end.

(** Two models that agree but for the joining of unknown tokens. *)
Definition same_but_fuse (u v : @unigram Q) : Prop := ug_vocab u = ug_vocab v /\ ug_unk u = ug_unk v /\ ug_bytes u = ug_bytes v.

(** What the file of a model says. *)
Definition file_says (u : @unigram Q) (f : conf) : Prop :=
  fget "type" f = JStr (key "Unigram") /\ fget "byte_fallback" f = JBool (ug_bytes u) /\
  fget "unk_id" f = match ug_unk u with Some i => JNum (i # 1) | None => JNull end /\
  fget "vocab" f = JArr (map (fun p => JObj [(key "token", JStr (fst p)); (key "score", JNum (snd p))]) (ug_vocab u)).
