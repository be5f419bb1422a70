(** What a text consists of: added tokens and words, and the tokens made of them (C84). *)
From Verif Require Import Base Utf8Model NormalizedModel NormalizedSpec EncodingModel BpeModel AddedVocabModel PreTokenizedModel
  PreTokenizerModel PreTokenizerSpec PipelineModel PipelineSpec TokensSpec.
Open Scope Z_scope.

(** An item is an added token, with its id and its text, or a word (without an id). *)
Definition item : Type := option Z * str.

Section Items.
  Variable sort_start sort_id : list io_pair -> list io_pair.
  Variable t : tokenizer.
  (** How a text is cut into words. *)
  Variable cut : list N -> list (list N).

  (** An added token stays, other text is cut into words. *)
  Definition cut_item (x : item) : list item :=
    match fst x with
    | Some _ => [x]
    | None => map (fun g => (None, encode g)) (cut (runes (snd x)))
    end.
  (** A part of the text as it was given: an added token, or text that is normalized, in which
      further added tokens are then found, and the rest of which is cut into words. *)
  Definition part_items (x : item) (its : list item) : Prop :=
    match fst x with
    | Some _ => its = [x]
    | None => exists n m, wf n /\ untouched n /\ ns_norm n = snd x /\ apply_normalizer (tk_normalizer t) n = Ok m /\
        its = match ns_norm m with [] => [] | y => flat_map cut_item (cut_added sort_start sort_id (tk_normalized t) y) end
    end.
  Definition text_items (s : str) (its : list item) : Prop :=
    exists l, Forall2 part_items (match s with [] => [] | _ => cut_added sort_start sort_id (tk_raw t) s end) l /\ its = concat l.
End Items.

(** The tokens of an item, each an id and a text: the added token itself, or what the model
    makes of the word, which is something. *)
Definition item_tokens (f : str -> res (option (list token))) (x : item) (rows : list (Z * str)) : Prop :=
  match fst x with
  | Some id => rows = [(id, snd x)]
  | None => exists ts, ts <> [] /\ f (snd x) = Ok (Some ts) /\ rows = map (fun t => (t_id t, t_value t)) ts
  end.

(** A tokenizer that cuts text as [cut] does: with a pre-tokenizer documented to do that, or
    with none and without a cut. *)
Definition cuts_as (u : unicode) (t : tokenizer) (cut : list N -> list (list N)) : Prop :=
  match tk_pre t with
  | None => forall rs, cut rs = [rs]
  | Some f => exists pre, f = pre_tokenize u pre /\ documented u pre = Some cut
  end.

(** The encoding of a text consists of these tokens: ids, texts, numbers of the items as words. *)
Definition consists_of (e : Encoding) (rows : list (list (Z * str))) : Prop :=
  ids e = map fst (concat rows) /\ tokens e = map snd (concat rows) /\ words e = run_numbers 0 rows.

(** A text with a token, which has an id, in front of each part but the first. *)
Definition written (p : str) (ps : list (str * Z * str)) : str := p ++ flat_map (fun q => fst (fst q) ++ snd q) ps.
(** What stands between the special tokens of a text, given as its first part and the tokens with
    what follows each of them. *)
Definition between (q : str * list (str * Z * str)) : list str := fst q :: map snd (snd q).
(** Its items before it is normalized: the tokens and the parts that are not empty. *)
Definition plain_item (q : str) : list item := match q with [] => [] | _ => [(None, q)] end.
Definition written_items (p : str) (ps : list (str * Z * str)) : list item :=
  plain_item p ++ flat_map (fun q => (Some (snd (fst q)), fst (fst q)) :: plain_item (snd q)) ps.
(** The tokens come in the order of the list [l]: some of the first, then some of the second, ... *)
Definition in_order (l : list (str * Z)) (ps : list (str * Z * str)) : Prop :=
  exists ns, length ns = length l /\ map fst ps = flat_map (fun x => repeat (fst x) (snd x)) (combine l ns).
(** None of the tokens is in the text. *)
Definition free_of (l : list str) (s : str) : Prop := forall t a z, In t l -> s <> a ++ t ++ z.
(** A token between two characters that are not in it otherwise, as [<s>] is. *)
Definition enclosed (o c : N) (t : str) : Prop := exists b, t = o :: b ++ [c] /\ ~ In o b /\ ~ In c b.
(** A token in brackets: [[], anything without brackets, []]. *)
Definition bracketed : str -> Prop := enclosed 91 93.
