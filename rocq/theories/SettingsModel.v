(** Model of the settings of added tokens: /repo/added-vocabulary.go:94-120. *)
From Verif Require Import Base AddedVocabModel PretrainedModel.
Open Scope list_scope.

(** added-vocabulary.go:94-120.  The setters work on a copy of the token (a value receiver) and return
    it; which one is called with what is an [at_option], as for the options of [NewAddedToken]. *)
Definition at_set (t : added_token) (o : at_option) : added_token :=
  match t, o with
  | AT c s l r n, WithSingleWord b => AT c b l r n
  | AT c s l r n, WithLStrip b => AT c s b r n
  | AT c s l r n, WithRStrip b => AT c s l b n
  | AT c s l r n, WithNormalized b => AT c s l r b
  end.

(** [t.SetX(b).SetY(c)...]. *)
Definition at_sets (t : added_token) (os : list at_option) : added_token := fold_left at_set os t.
