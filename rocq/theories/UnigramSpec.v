(** Specification of unigram segmentation, written without the lattice. *)
From Verif Require Import Base Utf8Model BpeModel UnigramModel.
Open Scope Z_scope.

(** What is used of float64 arithmetic (true of values that are neither NaN nor +Inf):
    [lt] is a strict weak order with least element [bot], and adding a constant is monotone
    and keeps [bot]. *)
Record score_laws {S : Type} (lt : S -> S -> bool) (bot : S) (plus : S -> S -> S) : Prop := {
  law_irrefl : forall a, lt a a = false;
  law_trans : forall a b c, lt a b = true -> lt b c = true -> lt a c = true;
  law_weak : forall a b c, lt b a = false -> lt c b = false -> lt c a = false;
  law_bot : forall a, lt a bot = false;
  law_mono : forall a b x, lt b a = false -> lt (plus b x) (plus a x) = false;
  law_plus_bot : forall x, lt bot (plus bot x) = false;
}.

Section Spec.
  Context {S : Type}.
  Variable lt : S -> S -> bool.
  Variables zero : S.
  Variable plus : S -> S -> S.
  Variable bonus : nat -> S.
  Variable penal : S -> S.

  (** Token [t] has id [k] and score [sc]: the last entry with that text counts. *)
  Definition entry (voc : list (str * S)) (t : str) (k : nat) (sc : S) : Prop :=
    nth_error voc k = Some (t, sc) /\ forall m, (k < m)%nat -> nth_error (map fst voc) m <> Some t.

  (** A segment: a vocabulary token or an unknown character. *)
  Inductive seg := Known (t : str) (k : nat) (sc : S) | Unknown (t : str).
  Definition seg_text (g : seg) : str := match g with Known t _ _ => t | Unknown t => t end.
  Definition seg_id (unk : option Z) (g : seg) : option Z :=
    match g with Known _ k _ => Some (Z.of_nat k) | Unknown _ => unk end.

  (** What may be taken from the front of [rest]: a token of at most 20 bytes, or, if
      there is an unknown token, a character that is not itself a token. *)
  Definition allowed (u : unigram (S := S)) (rest : str) (g : seg) : Prop :=
    match g with
    | Known t k sc => entry (ug_vocab u) t k sc /\ (1 <= length t <= 20)%nat
    | Unknown t => ug_unk u <> None /\ t <> [] /\ ~ In t (map fst (ug_vocab u)) /\
        length t = length (encode_rune (fst (decode_rune rest)))
    end.

  Inductive segmentation (u : unigram (S := S)) : str -> list seg -> Prop :=
  | seg_end : segmentation u [] []
  | seg_cons g rest gs : allowed u (seg_text g ++ rest) g -> segmentation u rest gs ->
      segmentation u (seg_text g ++ rest) (g :: gs).

  (** The score of a segmentation, added up from the left as the program does. *)
  Definition add_seg (u : unigram (S := S)) (a : S) (g : seg) : S :=
    match g with
    | Known t _ sc => plus (plus a sc) (bonus (length t))
    | Unknown _ => plus a (penal (min_score lt zero (ug_vocab u)))
    end.
  Definition total (u : unigram (S := S)) (gs : list seg) : S := fold_left (add_seg u) gs zero.

  (** Runs of segments with the unknown id are joined. *)
  Fixpoint fused (unk : Z) (run : list str) (gs : list seg) : list str :=
    match gs with
    | [] => match run with [] => [] | _ => [concat run] end
    | g :: gs' =>
        if match seg_id (Some unk) g with Some i => i =? unk | None => false end
        then fused unk (run ++ [seg_text g]) gs'
        else match run with [] => [] | _ => [concat run] end ++ seg_text g :: fused unk [] gs'
    end.

  (** The texts of the tokens made from a segmentation. *)
  Definition texts (u : unigram (S := S)) (gs : list seg) : list str :=
    match ug_unk u with
    | Some unk => if ug_fuse u then fused unk [] gs else map seg_text gs
    | None => map seg_text gs
    end.
End Spec.

(** Exact arithmetic: scores in hundredths, [None] is -Inf. *)
Definition zlt (a b : option Z) : bool :=
  match a, b with
  | _, None => false
  | None, Some _ => true
  | Some x, Some y => x <? y
  end.
Definition zplus (a b : option Z) : option Z :=
  match a, b with Some x, Some y => Some (x + y) | _, _ => None end.
Definition zbonus (len : nat) : option Z := Some (10 * Z.of_nat len).
Definition zpenal (x : option Z) : option Z := zplus x (Some (-1000)).

(** The plain sum of the scores of a segmentation: no bonus. *)
Definition plain_score (unk_score : Z) (g : seg (S := option Z)) : Z :=
  match g with Known _ _ (Some z) => z | Known _ _ None => 0 | Unknown _ => unk_score end.
Definition plain_total (unk_score : Z) (gs : list (seg (S := option Z))) : Z :=
  fold_right (fun g a => plain_score unk_score g + a) 0 gs.
