(** Vocabulary for the statements about Unicode normalization. *)
From Verif Require Import Base Utf8Model NormalizedModel NormalizedSpec UnicodeNormModel.
Local Open Scope Z_scope.

(** Text of Unicode characters other than NUL. *)
Definition plain (cs : list N) : Prop := Forall scalar cs /\ Forall (fun c => c <> 0%N) cs.

(** A text cut into groups of characters, each with the segments it becomes. *)
Definition groups := list (list N * list (list N)).
Definition source (gs : groups) : list N := concat (map fst gs).
Definition segments (gs : groups) : list (list N) := concat (map snd gs).
Definition outcome (gs : groups) : list N := concat (segments gs).
Definition groups_ok (gs : groups) : Prop :=
  Forall (fun g => fst g <> [] /\ snd g <> [] /\ Forall (fun seg => seg <> [] /\ Forall scalar seg) (snd g)) gs.

(** What the library is trusted to do with a text, [nf] being the Unicode normal forms
    (UAX 15): IsNormalString decides whether it is its own normal form; iterating over it with
    a decomposing form cuts it into groups whose segments make up the normal form.  A group is
    a character with the marks behind it; it makes one segment, or more for a character such
    as a ligature.  (Not for texts with more than 30 marks in a row: the iterator puts a
    combining grapheme joiner between them.) *)
Definition library_at (L : norm_lib) (nf : form -> list N -> list N) (cs : list N) : Prop :=
  (forall f, f <> OtherForm -> is_normal L f (encode cs) = true <-> nf f cs = cs) /\
  (forall f, f = NFD \/ f = NFKD -> exists gs,
     groups_ok gs /\ source gs = cs /\ iter L f (encode cs) = segments gs /\ outcome gs = nf f cs).

(** For each byte of the outcome the bytes of the group it comes from. *)
Fixpoint owners (gs : groups) (pos : Z) : list (Z * Z) :=
  match gs with
  | [] => []
  | g :: gs' =>
      let w := zlen (encode (fst g)) in
      repeat (pos, pos + w) (length (encode (concat (snd g)))) ++ owners gs' (pos + w)
  end.
Definition within (p q : Z * Z) : Prop := fst q <= fst p /\ snd p <= snd q.

(** The decomposing form that belongs to a form. *)
Definition decomposing (f : form) : form := match f with NFC | NFD => NFD | _ => NFKD end.
