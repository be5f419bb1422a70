(** What the windows of a long text are (C81). *)
From Verif Require Import Base EncodingModel EncodingSpec BpeModel ProcessorModel PipelineModel.
Open Scope nat_scope.

(** [L] tokens in windows of [m], each sharing its first [s] with the one before; a window is its
    start and length.  The last one reaches the end. *)
Inductive windows (m s L : nat) : nat -> list (nat * nat) -> Prop :=
| last_window a : L <= a + m -> windows m s L a [(a, m)]
| next_window a ws : a + m < L -> windows m s L (a + (m - s)) ws -> windows m s L a ((a, m) :: ws).
(** All in one if they fit, or if the windows would not be longer than what they share. *)
Definition cut_to (m : Z) (s L : nat) (ws : list (nat * nat)) : Prop :=
  ((Z.of_nat L <= m \/ m <= Z.of_nat s)%Z /\ ws = [(0, L)]) \/
  ((Z.of_nat s < m < Z.of_nat L)%Z /\ windows (Z.to_nat m) s L 0 ws).
Definition at_window {A} (l : list A) (w : nat * nat) : list A := window (fst w) (snd w) l.
(** The first part, then each other one without what it shares. *)
Definition rejoin {A} (s : nat) (parts : list (list A)) : list A :=
  match parts with [] => [] | p :: ps => p ++ concat (map (skipn s) ps) end.

(** What is around the text: ids and tokens. *)
Definition nothing : list Z * list str := ([], []).
Definition one (t : post_token) : list Z * list str := ([pt_id t], [pt_value t]).
Definition two (t u : post_token) : list Z * list str := ([pt_id t; pt_id u], [pt_value t; pt_value u]).
Definition as_special (p : str * Z) : piece := PSpecial (fst p) (snd p).
Fixpoint specials (toks : special_tokens) (l : list (str * Z)) : list Z * list str :=
  match l with
  | [] => nothing
  | (k, _) :: l' =>
      let r := specials toks l' in
      match aget str_eqb k toks with Some (i, t) => (i ++ fst r, t ++ snd r) | None => r end
  end.
Definition given_if (add : bool) (x : list Z * list str) := if add then x else nothing.
Inductive single_frame (add : bool) : option processor -> list Z * list str -> list Z * list str -> Prop :=
| SF_none : single_frame add None nothing nothing
| SF_bytes prefix trim : single_frame add (Some (PByteLevel prefix trim)) nothing nothing
| SF_bert cls sep : single_frame add (Some (PBert cls sep)) (given_if add (one cls)) (given_if add (one sep))
| SF_roberta cls sep trim prefix : single_frame add (Some (PRoberta cls sep trim prefix)) (given_if add (one cls)) (given_if add (one sep))
| SF_template a ty b both toks :
    single_frame add (Some (PTemplate (map as_special a ++ PSeq false ty :: map as_special b) both toks)) (given_if add (specials toks a)) (given_if add (specials toks b)).
Inductive pair_frame (add : bool) : option processor -> list Z * list str -> list Z * list str -> list Z * list str -> Prop :=
| PF_none : pair_frame add None nothing nothing nothing
| PF_bytes prefix trim : pair_frame add (Some (PByteLevel prefix trim)) nothing nothing nothing
| PF_bert cls sep : pair_frame add (Some (PBert cls sep)) (given_if add (one cls)) (given_if add (one sep)) (given_if add (one sep))
| PF_roberta cls sep trim prefix : pair_frame add (Some (PRoberta cls sep trim prefix)) (given_if add (one cls)) (given_if add (two sep sep)) (given_if add (one sep))
| PF_template single a ty b ty' c toks :
    pair_frame add (Some (PTemplate single (map as_special a ++ PSeq false ty :: map as_special b ++ PSeq true ty' :: map as_special c) toks))
      (given_if add (specials toks a)) (given_if add (specials toks b)) (given_if add (specials toks c)).

(** All pairs of windows of two texts, the first windows first. *)
Definition all_pairs {A B} (x : list A) (y : list B) : list (A * B) :=
  match x, y with
  | x0 :: xs, y0 :: ys => (x0, y0) :: flat_map (fun a => map (pair a) (y0 :: ys)) xs ++ map (pair x0) ys
  | _, _ => []
  end.

(** The padding of a tokenizer: [k] times the padding token. *)
Definition padded (pa : option pad_params) (k : nat) : list Z * list str :=
  match pa with Some d => (repeat (pd_id d) k, repeat (pd_token d) k) | None => nothing end.
(** How many make [n] tokens up to the length that is set, or to that of the encoding [r] itself. *)
Definition missing (pa : option pad_params) (r : Encoding) (n : nat) : nat :=
  match pa with
  | Some d => Z.to_nat (match pd_strategy d with Fixed m => m | BatchLongest => Z.of_nat (length (ids r)) | OtherStrategy => 0 end - Z.of_nat n)
  | None => 0
  end.
(** A part of [r] with these ids and tokens, and padding at the end. *)
Definition reads (pa : option pad_params) (r e : Encoding) (x : list Z * list str) : Prop :=
  ids e = fst x ++ fst (padded pa (missing pa r (length (fst x)))) /\ tokens e = snd x ++ snd (padded pa (missing pa r (length (fst x)))).
Definition join2 (l : list (list Z * list str)) : list Z * list str := (flat_map fst l, flat_map snd l).
Definition piece_of (e : Encoding) (w : nat * nat) : list Z * list str := (at_window (ids e) w, at_window (tokens e) w).
(** Padding goes to the end. *)
Definition pads_right (pa : option pad_params) : Prop := forall d, pa = Some d -> pd_dir d = PRight.

(** How the two texts of a pair are cut.  With [LongestFirst], of the [k] tokens too many the first
    text loses those taken while it is the longer one, and the second one loses [k]. *)
Definition pair_cut (st : trunc_strategy) (m : Z) (s L1 L2 : nat) (ws1 ws2 : list (nat * nat)) : Prop :=
  match st with
  | OnlyFirst => cut_to (m - Z.of_nat L2) s L1 ws1 /\ ws2 = [(0, L2)]
  | OnlySecond => ws1 = [(0, L1)] /\ cut_to (m - Z.of_nat L1) s L2 ws2
  | LongestFirst =>
      let k := (Z.of_nat L1 + Z.of_nat L2 - m)%Z in
      cut_to (Z.of_nat L1 - Z.max 0 (k - Z.max 0 (Z.of_nat L2 - Z.of_nat L1 + 1))) s L1 ws1 /\ cut_to (m - Z.of_nat L1) s L2 ws2
  end.
(** The number of tokens left for the texts between special tokens. *)
Definition room (max : Z) (around : list (list Z * list str)) : Z :=
  (max - fold_right (fun x n => Z.of_nat (length (fst x)) + n) 0 around)%Z.
(** Padding a long text without special tokens writes into its windows (C09): there are special
    tokens, or there is no padding. *)
Definition unshared (pa : option pad_params) (around : list (list Z * list str)) : Prop :=
  pa = None \/ exists x, In x around /\ fst x <> [].
