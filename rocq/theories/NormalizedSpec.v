(** Vocabulary for the statements about normalized strings. *)
From Verif Require Import Base Utf8Model PatternModel NormalizedModel.
Local Open Scope Z_scope.

(** [p] is a range of a text of [total] bytes. *)
Definition inside (total : Z) (p : Z * Z) : Prop := 0 <= fst p /\ fst p <= snd p /\ snd p <= total.

(** One original range per normalized byte, all of them inside the original text, and
    one (allocated) normalized range per original byte. *)
Definition wf (n : ns) : Prop :=
  length (ns_al n) = length (ns_norm n) /\
  Forall (inside (zlen (ns_orig n))) (ns_al n) /\
  length (ns_ao n) = length (ns_orig n) /\
  Forall (fun a => (a < length (ns_cells n))%nat) (ns_ao n).

(** The claim of property C25 alone. *)
Definition aligned (n : ns) : Prop :=
  length (ns_al n) = length (ns_norm n) /\ Forall (inside (zlen (ns_orig n))) (ns_al n).

(** Alignments follow the order of the text. *)
Definition ple (p q : Z * Z) : Prop := fst p <= fst q /\ snd p <= snd q.
Definition ordered (l : list (Z * Z)) : Prop :=
  forall i j p q, (i <= j)%nat -> nth_error l i = Some p -> nth_error l j = Some q -> ple p q.

(** [part s e l]: elements [s] to [e] of a list. *)
Definition part {A} (s e : Z) (l : list A) : list A :=
  firstn (Z.to_nat (e - s)) (skipn (Z.to_nat s) l).

(** Items whose texts are valid UTF-8 (the public entry points pass string(rune)). *)
Definition valid_items (items : list (str * Z)) : Prop := Forall (fun it => valid_utf8 (fst it)) items.
Definition items_text (items : list (str * Z)) : str := concat (map fst items).

(** Number of characters an item list takes from the iterator. *)
Definition consumed (items : list (str * Z)) : Z :=
  fold_right (fun it k => (if 0 <? snd it then 0 else 1 - snd it) + k) 0 items.

(** ** Operation histories *)
Inductive op :=
| OTransformRange (r : range) (items : list (str * Z)) (initial : Z)
| OTransform (items : list (str * Z)) (initial : Z)
| ONfd (segs : str -> list (list N))
| ONfc (is_nfc : str -> bool) (segs : str -> list (list N))
| ONfkc (is_nfkc : str -> bool) (segs : str -> list (list N))
| OFilter (f : N -> bool)
| OPrepend (s : str)
| OAppend (s : str)
| OMap (f : N -> N)
| OForEach (f : N -> N)
| OCase (f : str -> str)
| OClear
| OStrip (sp : N -> bool) (l r : bool)
| OReplace (p : pattern) (content : str).

Definition run_op (o : op) (n : ns) : res ns :=
  match o with
  | OTransformRange r items initial => transform_range n r items initial
  | OTransform items initial => transform n items initial
  | ONfd segs => nfd segs n
  | ONfc i segs => nfc i segs n
  | ONfkc i segs => nfkc i segs n
  | OFilter f => ns_filter f n
  | OPrepend s => ns_prepend s n
  | OAppend s => ns_append s n
  | OMap f => ns_map f n
  | OForEach f => Ok (ns_for_each f n)
  | OCase f => Ok (case_map f n)
  | OClear => ns_clear n
  | OStrip sp l r => lrstrip sp l r n
  | OReplace p c => ns_replace p c n
  end.
Definition run_ops (os : list op) (n : ns) : res ns := foldR (fun n o => run_op o n) os n.

(** Operations that replace the text without touching the alignments keep its length;
    explicit item lists are UTF-8. *)
Definition op_ok (o : op) : Prop :=
  match o with
  | OTransformRange _ items _ | OTransform items _ => valid_items items
  | OForEach f => forall s, length (encode (map f (runes s))) = length s
  | OCase f => forall s, length (f s) = length s
  | _ => True
  end.

(** ** Splitting *)

(** Maximal groups of neighbours [x], [y] with [join x y]. *)
Fixpoint group (join : bool -> bool -> bool) (l : list offsets_match) : list (list offsets_match) :=
  match l with
  | [] => []
  | x :: l' =>
      match group join l' with
      | (y :: g) :: gs => if join (snd x) (snd y) then (x :: y :: g) :: gs else [x] :: (y :: g) :: gs
      | gs => [x] :: gs
      end
  end.
(** From the start of the first to the end of the last. *)
Definition span (g : list offsets_match) : Z * Z :=
  (fst (fst (hd ((0, 0), false) g)), snd (fst (last g ((0, 0), false)))).

(** Which neighbours stay together ([x] before [y], [true] marks a delimiter). *)
Definition joins (b : behavior) (x y : bool) : bool :=
  match b with
  | Isolated | Removed => false
  | MergedWithPrevious => negb x && y
  | MergedWithNext => x && negb y
  | Contiguous => Bool.eqb x y
  end.

(** The documented ranges of the pieces. *)
Definition piece_ranges (b : behavior) (ms : list offsets_match) : list (Z * Z) :=
  match b with
  | Removed => map fst (filter (fun m => negb (snd m)) ms)
  | _ => map span (group (joins b) ms)
  end.

(** A position where a character starts (or the end of the text). *)
Definition boundary (s : str) (i : Z) : Prop :=
  i = 0 \/ i = zlen s \/ exists b, 0 <= i /\ nth_error s (Z.to_nat i) = Some b /\ rune_start b = true.

(** ** Exact alignments of a per-character transformation *)

(** Character [r] becomes the first text (replacing it) followed by the others (added). *)
Definition expansion : Type := (N * (str * list str))%type.
Definition exp_out (x : expansion) : str := fst (snd x) ++ concat (snd (snd x)).
Definition exp_items (x : expansion) : list (str * Z) :=
  (fst (snd x), 0) :: map (fun s => (s, 1)) (snd (snd x)).
(** The whole output; NUL characters are excluded (the code counts them as 0 bytes). *)
Definition exp_text (xs : list expansion) : str := concat (map exp_out xs).
Definition exp_ok (x : expansion) : Prop :=
  fst x <> 0%N /\ valid_utf8 (fst (snd x)) /\ Forall valid_utf8 (snd (snd x)).
(** Each output byte is aligned with the bytes of its character... *)
Fixpoint exp_al (xs : list expansion) (pos : Z) : list (Z * Z) :=
  match xs with
  | [] => []
  | x :: xs' =>
      let w := zlen (encode_rune (fst x)) in
      repeat (pos, pos + w) (length (exp_out x)) ++ exp_al xs' (pos + w)
  end.
(** ... and each byte of a character with the bytes of its output. *)
Fixpoint exp_ao (xs : list expansion) (pos : Z) : list (Z * Z) :=
  match xs with
  | [] => []
  | x :: xs' =>
      let k := zlen (exp_out x) in
      repeat (pos, pos + k) (length (encode_rune (fst x))) ++ exp_ao xs' (pos + k)
  end.

(** Characters left as they are. *)
Definition same (rs : list N) : list expansion := map (fun r => (r, (encode_rune r, []))) rs.

(** Exact alignments when single-byte characters are dropped ([None]) or replaced
    ([Some s]): each output byte on the position of its character; each character on
    its output, a dropped one on the empty range there. *)
Notation edit := (N * option str)%type (only parsing).
Definition edit_text (es : list edit) : str :=
  concat (map (fun e => match snd e with Some s => s | None => [] end) es).
Fixpoint edit_al (es : list edit) (pos : Z) : list (Z * Z) :=
  match es with
  | [] => []
  | (_, Some s) :: es' => repeat (pos, pos + 1) (length s) ++ edit_al es' (pos + 1)
  | (_, None) :: es' => edit_al es' (pos + 1)
  end.
Fixpoint edit_ao (es : list edit) (out : Z) : list (Z * Z) :=
  match es with
  | [] => []
  | (_, Some s) :: es' => (out, out + zlen s) :: edit_ao es' (out + zlen s)
  | (_, None) :: es' => (out, out) :: edit_ao es' out
  end.
(** Keeping the characters satisfying [f]; keeping [mid] between [pre] and [post]. *)
Definition keep_if (f : N -> bool) (rs : list N) : list edit :=
  map (fun r => (r, if f r then Some [r] else None)) rs.
Definition keep_mid (pre mid post : list N) : list edit :=
  map (fun r => (r, None)) pre ++ map (fun r => (r, Some [r])) mid ++ map (fun r => (r, None)) post.
(** The change list of such an edit: what a kept character becomes and how many
    characters after it are dropped; and the number of dropped leading characters. *)
Fixpoint edit_items (es : list edit) : list (str * Z) * Z :=
  match es with
  | [] => ([], 0)
  | (_, o) :: es' =>
      let '(items, removed) := edit_items es' in
      match o with
      | Some s => ((s, - removed) :: items, 0)
      | None => (items, removed + 1)
      end
  end.
(** Single-byte characters other than NUL. *)
Definition single_byte (r : N) : Prop := (0 < r < 128)%N.

(** ** Documented texts *)
Fixpoint drop_while (f : N -> bool) (rs : list N) : list N :=
  match rs with [] => [] | r :: rs' => if f r then drop_while f rs' else rs end.
(** The text without the characters satisfying [sp] at its left or right end. *)
Definition stripped (sp : N -> bool) (l r : bool) (rs : list N) : list N :=
  let rs1 := if l then drop_while sp rs else rs in
  if r then rev (drop_while sp (rev rs1)) else rs1.
(** The text with every matched range replaced. *)
Definition replaced (s : str) (content : str) (ms : list offsets_match) : str :=
  concat (map (fun m : offsets_match => if snd m then content else part (fst (fst m)) (snd (fst m)) s) ms).

(** Non-empty ranges cut between characters. *)
Definition cut (s : str) (m : offsets_match) : Prop :=
  fst (fst m) < snd (fst m) /\ boundary s (fst (fst m)) /\ boundary s (snd (fst m)).

(** The matches of the pattern (given as [find] by the regexp engine or by the user) are
    non-empty and fall between characters. *)
Definition between_chars (s : str) (p : pattern) : Prop :=
  match p with
  | PString _ find | PRegexp find | PInvert (PString _ find) | PInvert (PRegexp find) =>
      Forall (fun m => cut s (m, true)) (find s)
  | POther find => Forall (cut s) (find s)
  | _ => True
  end.
