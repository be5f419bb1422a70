(** C93: the settings of an added token. *)
From Verif Require Import Base Utf8Model AddedVocabModel PretrainedModel SettingsModel SettingsSpec SettingsProofs.
Open Scope list_scope.

(** A new token has the given content, and of each kind the last setting given; without one it is not a
    single word, strips nothing, and is normalized if and only if it is not special. *)
Theorem C93_new : forall s special os, let t := new_added_token s special os in
  at_content t = s /\
  last_said says_single false os (at_single t) /\ last_said says_lstrip false os (at_lstrip t) /\
  last_said says_rstrip false os (at_rstrip t) /\ last_said says_normalized (negb special) os (at_norm t).
Proof.
  intros s special os. cbv zeta. unfold new_added_token. set (t0 := AT s false false false (negb special)).
  split; [apply (fold_content at_apply); now intros t []|]. repeat split.
  - apply (fold_last at_apply at_single says_single); now intros t [].
  - apply (fold_last at_apply at_lstrip says_lstrip); now intros t [].
  - apply (fold_last at_apply at_rstrip says_rstrip); now intros t [].
  - apply (fold_last at_apply at_norm says_normalized); now intros t [].
Qed.
Print Assumptions C93_new.

(** The setters, called one after the other on any token, keep its content and every kind of setting
    that is not given; of the others the last one given holds. *)
Theorem C93_set : forall t os,
  at_content (at_sets t os) = at_content t /\
  last_said says_single (at_single t) os (at_single (at_sets t os)) /\ last_said says_lstrip (at_lstrip t) os (at_lstrip (at_sets t os)) /\
  last_said says_rstrip (at_rstrip t) os (at_rstrip (at_sets t os)) /\ last_said says_normalized (at_norm t) os (at_norm (at_sets t os)).
Proof.
  intros t os. unfold at_sets. split; [apply (fold_content at_set); now intros [] []|]. repeat split.
  - apply (fold_last at_set at_single says_single); now intros [] [].
  - apply (fold_last at_set at_lstrip says_lstrip); now intros [] [].
  - apply (fold_last at_set at_rstrip says_rstrip); now intros [] [].
  - apply (fold_last at_set at_norm says_normalized); now intros [] [].
Qed.
Print Assumptions C93_set.

(** It makes no difference whether settings are given when the token is made or afterwards. *)
Theorem C93_either_way : forall s special os os', at_sets (new_added_token s special os) os' = new_added_token s special (os ++ os').
Proof.
  intros s special os os'. unfold new_added_token, at_sets. rewrite fold_left_app. generalize (fold_left at_apply os (AT s false false false (negb special))).
  induction os' as [|o os' IH]; intros t; [reflexivity|]. cbn [fold_left]. rewrite <- IH. f_equal. now destruct t, o.
Qed.
Print Assumptions C93_either_way.

(** "<mask>", special, given a left strip twice: the second one holds, and asking for a normalized token
    afterwards overrules that special tokens are not. *)
Example C93_example :
  new_added_token ([60; 109; 97; 115; 107; 62]%N) true [WithLStrip false; WithLStrip true] = AT ([60; 109; 97; 115; 107; 62]%N) false true false false /\
  at_sets (new_added_token ([60; 109; 97; 115; 107; 62]%N) true [WithLStrip false; WithLStrip true]) [WithNormalized true] = AT ([60; 109; 97; 115; 107; 62]%N) false true false true.
Proof. split; reflexivity. Qed.
