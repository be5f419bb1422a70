(** What is shown of a text with special tokens when they are not skipped (C74). *)
From Verif Require Import Base Utf8Model.

(** The words of the parts with the special tokens between them. *)
Definition with_specials (words : str -> list str) (p : str) (ps : list (str * Z * str)) : list str :=
  words p ++ flat_map (fun q => fst (fst q) :: words (snd q)) ps.
(** [CLS] in front and [SEP] behind, where they are asked for. *)
Definition cls_token : str := [91; 67; 76; 83; 93]%N.
Definition sep_token : str := [91; 83; 69; 80; 93]%N.
Definition words_in_frame (add : bool) (l : list str) : list str := if add then cls_token :: l ++ [sep_token] else l.
(** Two texts. *)
Definition words_in_pair_frame (add : bool) (l k : list str) : list str := if add then cls_token :: l ++ sep_token :: k ++ [sep_token] else l ++ k.
