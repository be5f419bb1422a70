(** Specification of the text that comes back from the metaspace pre-tokenizer (C34). *)
From Verif Require Import Base Utf8Model PreTokenizerModel.

(** White space: tabulator, line feed, form feed, carriage return, space. *)
Definition white (c : N) : bool := ((c =? 9) || (c =? 10) || (c =? 12) || (c =? 13) || (c =? 32))%N.
(** Every white-space character as a space. *)
Definition blanked (rs : list N) : list N := map (fun c => if white c then 32%N else c) rs.

(** With a prepend scheme a leading white-space character is taken for the added one and is
    lost. *)
Definition after_metaspace (prepend : bool) (rs : list N) : list N :=
  match rs with
  | c :: rest => if prepend && white c then blanked rest else blanked rs
  | [] => []
  end.

(** Whether a scheme prepends; this is also the AddPrefixSpace of the decoder
    (metaspace.go:48-57). *)
Definition prepends (scheme : prepend_scheme) : bool := match scheme with Never => false | _ => true end.
