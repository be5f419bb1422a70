(** What a trained byte-level tokenizer is (C78). *)
From Verif Require Import Base Utf8Model BpeModel AddedVocabModel PreTokenizerSpec TrainerModel DecoderModel.
Open Scope Z_scope.

(** Settings for byte-level training: all byte characters are in the initial alphabet; no limit,
    prefix and suffix. *)
Definition byte_settings (cf : tcfg) : Prop :=
  tc_prefix cf = None /\ tc_suffix cf = None /\ tc_limit cf = None /\ forall k, (k < 256)%N -> In (byte_char k) (tc_initial cf).
(** The special tokens of the settings: none twice, none in the initial alphabet or written in a
    word of the corpus. *)
Definition special_settings (cf : tcfg) (wc : list (str * Z)) (specials : list added_token) : Prop :=
  tc_special cf = map at_content specials /\ NoDup (tc_special cf) /\
  Forall (fun s => s <> [] /\ valid_utf8 s /\ ~ In s (tc_initial cf) /\ forall w n a z, In (w, n) wc -> w <> a ++ s ++ z) (tc_special cf).
(** The [k] ids from [n] on. *)
Definition ids_from (n : Z) (k : nat) : list Z := map (fun i => n + Z.of_nat i) (seq 0 k).
(** None of the tokens is written in a text. *)
Definition free_of (l : list str) (s : str) : Prop := forall t a z, In t l -> s <> a ++ t ++ z.
