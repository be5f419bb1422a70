(** The settings of added tokens (C93). *)
From Verif Require Import Base AddedVocabModel PretrainedModel SettingsModel SettingsSpec.
Open Scope list_scope.

Lemma last_cons says before o os b :
  last_said says (match says o with Some x => x | None => before end) os b -> last_said says before (o :: os) b.
Proof.
  intros [(l & o' & r & -> & S & F)|[F ->]]; [left; now exists (o :: l), o', r|]. destruct (says o) as [x|] eqn:E.
  - left. now exists [], o, os.
  - right. split; [now constructor|reflexivity].
Qed.
Section Fold.
Variable step : added_token -> at_option -> added_token.
Variable get : added_token -> bool.
Variable says : at_option -> option bool.
Hypothesis Hstep : forall t o, get (step t o) = match says o with Some x => x | None => get t end.
Lemma fold_last os : forall t, last_said says (get t) os (get (fold_left step os t)).
Proof.
  induction os as [|o os IH]; intros t; [right; split; [constructor|reflexivity]|]. cbn [fold_left]. apply last_cons. rewrite <- Hstep. apply IH.
Qed.
End Fold.
Lemma fold_content (step : added_token -> at_option -> added_token) : (forall t o, at_content (step t o) = at_content t) -> forall os t, at_content (fold_left step os t) = at_content t.
Proof. intros H os. induction os as [|o os IH]; intros t; [reflexivity|]. cbn [fold_left]. now rewrite IH, H. Qed.
