(** The words of an input and how they are put together again (C74). *)
From Verif Require Import Base Utf8Model NormalizedModel NormalizedSpec EncodingModel BpeModel WordPieceModel WordPieceSpec AddedVocabModel PreTokenizedModel PreTokenizedSpec
  PreTokenizerModel PreTokenizerSpec BertNormSpec PipelineModel PipelineSpec TokensSpec RoundTripSpec.
Open Scope Z_scope.

Section Words.
  Variable sort_start sort_id : list io_pair -> list io_pair.
  Variable t : tokenizer.
  (** How a text is cut into words. *)
  Variable cut : list N -> list (list N).

  (** A part without added tokens is normalized; added tokens found now are taken out, and the
      rest is cut. *)
  Definition part_words (w : str) (ws : list str) : Prop :=
    exists n m, wf n /\ untouched n /\ ns_norm n = w /\ apply_normalizer (tk_normalizer t) n = Ok m /\
      ws = match ns_norm m with
           | [] => []
           | x => flat_map (fun y => map encode (cut (runes y))) (not_added (cut_added sort_start sort_id (tk_normalized t) x))
           end.
  Definition text_words (s : str) (ws : list str) : Prop :=
    exists l, Forall2 part_words (match s with [] => [] | _ => not_added (cut_added sort_start sort_id (tk_raw t) s) end) l /\ ws = concat l.
  Definition input_words (x : encode_input) (ws : list str) : Prop := exists l, Forall2 text_words (encode_texts x) l /\ ws = concat l.

  (** The added tokens found in a text are not shown. *)
  Definition added_hidden (name : Z -> option str) : Prop :=
    forall set s id w, set = tk_raw t \/ set = tk_normalized t -> In (Some id, w) (cut_added sort_start sort_id set s) -> name id = None.
End Words.

(** A word the model knows: not too long, and cut greedily into pieces of the vocabulary. *)
Definition known (wp : wordpiece) (w : str) : Prop :=
  zlen (runes w) <= wp_max wp /\ exists ps, greedy (wp_vocab wp) (wp_prefix wp) true (runes w) ps.
(** What is seen of a word: itself, or the unknown token. *)
Definition seen_as (wp : wordpiece) (w x : str) : Prop := known wp w /\ x = w \/ ~ known wp w /\ x = wp_unk wp.
(** Tokens made for words: the unknown token, a beginning of a word, or the prefix and a part. *)
Definition piece_of (wp : wordpiece) (w v : str) : Prop :=
  v = wp_unk wp \/ exists a y z, w = a ++ y ++ z /\ y <> [] /\ (a = [] /\ v = y \/ a <> [] /\ v = wp_prefix wp ++ y).

(** The words with single spaces between them. *)
Fixpoint spaced_out (ws : list str) : str :=
  match ws with
  | [] => []
  | [w] => w
  | w :: ws' => w ++ 32%N :: spaced_out ws'
  end.
(** The same, but no space in front of [. ? ! ,]. *)
Definition stops : list str := [[46]; [63]; [33]; [44]]%N.
Definition tidy (ws : list str) : str :=
  match ws with
  | [] => []
  | w :: ws' => w ++ concat (map (fun w => if in_dec (list_eq_dec N.eq_dec) w stops then w else 32%N :: w) ws')
  end.
Definition put_together (clean : bool) (ws : list str) : str := if clean then tidy ws else spaced_out ws.
(** Words that cleaning up leaves alone but for the space in front of [. ? ! ,]: no spaces, and
    they do not begin with one of these or with [n't 'm 's 've 're]. *)
Definition contractions : list str := [[110; 39; 116]; [39; 109]; [39; 115]; [39; 118; 101]; [39; 114; 101]]%N.
Definition neat (w : str) : Prop :=
  ~ In 32%N w /\ (In w stops \/ forall b z, In b (stops ++ contractions) -> w <> b ++ z).

(** ** BERT *)

(** Texts that the normalizer of BERT turns into what it should: no character is dropped and none
    is of extension A, the lower case takes as many bytes, and where accents are taken off the text
    begins neither with a Chinese character nor with an accent of its own. *)
Definition bert_reads (cc mn : N -> bool) (lower : str -> str) (handles lowercase strip : bool) (s : str) : Prop :=
  let t := encode (if handles then spaced (runes s) else runes s) in
  let t2 := if lowercase then lower t else t in
  Forall (fun c => dropped cc c = false /\ (handles = true -> extension_a c = false)) (runes s) /\
  clean t2 /\ length t2 = length t /\
  (strip = true -> (handles = true -> next_is chinese (runes s) = false) /\ next_is mn (runes t2) = false).
(** The words of a text: cut at white space, punctuation apart. *)
Definition bert_words (u : unicode) (s : str) : list str := map encode (bert_pieces u (runes s)).
(** The words BERT knows with the pieces of a vocabulary: at most 100 characters, cut greedily
    into pieces, where all but the first begin with ##. *)
Definition bert_knows (v : vocab) (w : str) : Prop := zlen (runes w) <= 100 /\ exists ps, greedy v [35; 35]%N true (runes w) ps.
(** What is seen of a word: itself, or [UNK] with its brackets. *)
Definition bert_sees (v : vocab) (w x : str) : Prop := bert_knows v w /\ x = w \/ ~ bert_knows v w /\ x = [91; 85; 78; 75; 93]%N.
