(** What reading a text back from its windows is (C82). *)
From Verif Require Import Base EncodingModel PipelineModel ProcessorModel WindowsSpec.
Open Scope Z_scope.

(** The tokenizer without truncation. *)
Definition untruncated (t : tokenizer) : tokenizer :=
  Tkz (tk_raw t) (tk_normalized t) (tk_normalizer t) (tk_pre t) (tk_model t) (tk_processor t) None (tk_padding t).
(** The ids of a part that decoding takes a token for. *)
Definition visible (name : Z -> option str) (e : Encoding) : list Z :=
  filter (fun i => match name i with Some _ => true | None => false end) (ids e).
(** The ids of all parts, without what each shares with the one before. *)
Definition reassembled (name : Z -> option str) (stride : Z) (r : Encoding) : list Z :=
  rejoin (Z.to_nat stride) (map (visible name) (r :: overflowing r)).
(** Special tokens and padding are not shown. *)
Definition hidden_around (name : Z -> option str) (before after : list Z * list str) (pa : option pad_params) : Prop :=
  Forall (fun i => name i = None) (fst before ++ fst after) /\ forall d, pa = Some d -> name (pd_id d) = None.
