(** The ids BERT gives to a text with special tokens in it (C84). *)
From Verif Require Import Base Utf8Model EncodingModel BpeModel WordPieceSpec PreTokenizerModel PreTokenizerSpec BertNormSpec WordsSpec.
Open Scope Z_scope.

(** The ids of a word: those of the pieces of which it consists, each the longest possible, or
    that of [UNK]. *)
Definition word_ids (v : vocab) (w : str) (l : list Z) : Prop :=
  (exists ps, zlen (runes w) <= 100 /\ greedy v [35; 35]%N true (runes w) ps /\ l = map fst ps) \/
  (~ bert_knows v w /\ exists unk, vget [91; 85; 78; 75; 93]%N v = Some unk /\ l = [unk]).
(** The ids of a text without special tokens: it is normalized and cut into words. *)
Definition plain_ids (u : unicode) (mn : N -> bool) (lower : str -> str) (uncased : bool) (v : vocab) (s : str) (l : list Z) : Prop :=
  exists ls, Forall2 (word_ids v) (bert_words u (bert_text true uncased true mn lower (runes s))) ls /\ l = concat ls.
(** The ids of a text with special tokens: a token has its own id. *)
Definition special_ids (u : unicode) (mn : N -> bool) (lower : str -> str) (uncased : bool) (v : vocab) (p : str) (ps : list (str * Z * str)) (l : list Z) : Prop :=
  exists l0 ls, plain_ids u mn lower uncased v p l0 /\
    Forall2 (fun q l => exists k, plain_ids u mn lower uncased v (snd q) k /\ l = snd (fst q) :: k) ps ls /\ l = l0 ++ concat ls.
(** The ids with [CLS] in front and [SEP] behind, where they are asked for. *)
Definition in_frame (add : bool) (cls sep : Z) (l : list Z) : list Z := if add then cls :: l ++ [sep] else l.
(** Two texts. *)
Definition in_pair_frame (add : bool) (cls sep : Z) (l k : list Z) : list Z := if add then cls :: l ++ sep :: k ++ [sep] else l ++ k.
