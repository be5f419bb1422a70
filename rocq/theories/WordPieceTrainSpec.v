(** Specification side of WordPiece training and of the builders (C68, C69). *)
From Verif Require Import Base BpeModel TrainerModel DecoderSpec WordPieceTrainModel.
Open Scope Z_scope.

(** The byte occurs in none of these texts: words of the corpus, initial alphabet. *)
Definition foreign (b : N) (cf : tcfg) (wc : list (str * Z)) : Prop :=
  (forall w n, In (w, n) wc -> ~ In b w) /\ (forall c, In c (tc_initial cf) -> ~ In b c).

(** [s] occurs in [w], but not at the beginning: it is a run of its later characters. *)
Definition later_in (w s : str) : Prop :=
  exists c before run after, characters w (c :: before ++ run ++ after) /\ s = concat run.

(** The last value that a list of settings gives to a field; [d] if there is none. *)
Fixpoint last_set {A B} (field : A -> option B) (d : B) (ops : list A) : B :=
  match ops with
  | [] => d
  | o :: ops' => last_set field (match field o with Some x => x | None => d end) ops'
  end.

(** The fields of the trainer settings. *)
Definition f_min (o : tset) := match o with SetMin n => Some n | _ => None end.
Definition f_size (o : tset) := match o with SetSize n => Some n | _ => None end.
Definition f_special (o : tset) := match o with SetSpecial l => Some l | _ => None end.
Definition f_limit (o : tset) := match o with SetLimit n => Some (Some n) | _ => None end.
Definition f_initial (o : tset) := match o with SetInitial l => Some l | _ => None end.
Definition f_prefix (o : tset) := match o with SetPrefix p => Some (Some p) | _ => None end.
Definition f_suffix (o : tset) := match o with SetSuffix p => Some (Some p) | _ => None end.

(** The fields of the model builder. *)
Definition g_files (o : wset) := match o with WFiles f => Some f | _ => None end.
Definition g_vocab (o : wset) := match o with WVocab v => Some v | _ => None end.
Definition g_unk (o : wset) := match o with WUnk u => Some u | _ => None end.
Definition g_prefix (o : wset) := match o with WPrefix p => Some p | _ => None end.
Definition g_max (o : wset) := match o with WMax n => Some n | _ => None end.

(** Settings made on one builder, one after the other. *)
Fixpoint chain (h : tconfigs) (b : nat) (ops : list tset) : tconfigs * nat :=
  match ops with
  | [] => (h, b)
  | o :: ops' => let '(h', b') := wtb_set h b o in chain h' b' ops'
  end.

(** The text of an address: "0x" and hexadecimal digits. *)
Definition is_address (a : str) : Prop :=
  exists ds, a = (48 :: 120 :: ds)%N /\ Forall (fun c => 48 <= c <= 57 \/ 97 <= c <= 102)%N ds.
