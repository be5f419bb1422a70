(** Vocabulary for the statements about pre-tokenized strings. *)
From Verif Require Import Base Utf8Model NormalizedModel NormalizedSpec BpeModel PreTokenizedModel.
Open Scope Z_scope.

(** The text of a piece and of all pieces; the tokens attached. *)
Definition sp_text (sp : split) : str := ns_norm (sp_ns sp).
Definition text_of (l : list split) : str := concat (map sp_text l).
Definition has_toks (sp : split) : bool := match sp_toks sp with Some _ => true | None => false end.
Definition toks_in (sp : split) : list token := match sp_toks sp with Some t => t | None => [] end.
Definition all_toks (p : pretok) : list token := flat_map toks_in (pt_splits p).

(** [a] is obtained from [b] by leaving out elements. *)
Inductive subseq {A} : list A -> list A -> Prop :=
| subseq_nil : subseq [] []
| subseq_keep x a b : subseq a b -> subseq (x :: a) (x :: b)
| subseq_skip x a b : subseq a b -> subseq a (x :: b).

(** What a split function makes of piece number [i]: tokenized pieces are left alone. *)
Definition produced (f : nat -> ns -> res (list split)) (x : nat * split) (l : list split) : Prop :=
  if has_toks (snd x) then l = [snd x] else f (fst x) (sp_ns (snd x)) = Ok l.

(** A split function that keeps the text; one that attaches no tokens. *)
Definition keeps_text (f : nat -> ns -> res (list split)) : Prop :=
  forall i n l, f i n = Ok l -> text_of l = ns_norm n.
Definition plain (f : nat -> ns -> res (list split)) : Prop :=
  forall i n l, f i n = Ok l -> Forall (fun sp => has_toks sp = false) l.

(** Histories of the two steps used in encoding. *)
Inductive pt_op := DoSplit (f : nat -> ns -> res (list split)) | DoTokenize (f : ns -> res (option (list token))).
Definition run_pt_op (p : pretok) (o : pt_op) : res pretok :=
  match o with DoSplit f => pt_split f p | DoTokenize f => pt_tokenize f p end.

(** A piece that lies in the original text, with tokens on non-empty parts of its text. *)
Definition placed (orig : str) (sp : split) : Prop :=
  wf (sp_ns sp) /\ ordered (ns_al (sp_ns sp)) /\
  0 <= ns_shift (sp_ns sp) /\ ns_shift (sp_ns sp) + zlen (ns_orig (sp_ns sp)) <= zlen orig.
Definition good_token (n : ns) (t : token) : Prop :=
  0 <= fst (t_off t) /\ fst (t_off t) < snd (t_off t) /\ snd (t_off t) <= zlen (ns_norm n).
Definition good_pieces (p : pretok) : Prop :=
  Forall (fun sp => placed (pt_orig p) sp /\ Forall (good_token (sp_ns sp)) (toks_in sp)) (pt_splits p).

(** The word number of each token. *)
Definition word_numbers (p : pretok) (wordIdx : Z) : list Z :=
  flat_map (fun x => repeat (if wordIdx =? -1 then Z.of_nat (fst x) else wordIdx) (length (toks_in (snd x))))
    (combine (seq 0 (length (pt_splits p))) (pt_splits p)).

(** Each token with its piece. *)
Definition located (p : pretok) : list (ns * token) :=
  flat_map (fun sp => map (pair (sp_ns sp)) (toks_in sp)) (pt_splits p).
