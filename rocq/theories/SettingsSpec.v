(** What is asked of the settings of added tokens (C93). *)
From Verif Require Import Base PretrainedModel.
Open Scope list_scope.

(** A setting of each of the four kinds. *)
Definition says_single (o : at_option) := match o with WithSingleWord b => Some b | _ => None end.
Definition says_lstrip (o : at_option) := match o with WithLStrip b => Some b | _ => None end.
Definition says_rstrip (o : at_option) := match o with WithRStrip b => Some b | _ => None end.
Definition says_normalized (o : at_option) := match o with WithNormalized b => Some b | _ => None end.

(** [b] is the last setting of its kind, or the value from before if there is none. *)
Definition last_said (says : at_option -> option bool) (before : bool) (os : list at_option) (b : bool) : Prop :=
  (exists l o r, os = l ++ o :: r /\ says o = Some b /\ Forall (fun x => says x = None) r) \/
  (Forall (fun x => says x = None) os /\ b = before).
