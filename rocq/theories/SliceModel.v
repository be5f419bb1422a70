(** Slice-level model of Encoding.Truncate and Encoding.Pad for ONE attribute list
    (Ids, TypeIds, Tokens, ...): Go slices are views of backing arrays, so the
    truncated encoding and its overflow windows share memory. *)
From Verif Require Import Base.

(** A Go slice header: backing array, offset, length, capacity. *)
Record slice := mkS { sarr : nat; soff : nat; slen : nat; scap : nat }.

Section Slices.
  Context {A : Type}.
  (** Fill value of freshly allocated cells. *)
  Variable zero : A.
  (** Spare capacity that the run-time grants when growing a slice of the given
      length (Go's growth policy, unspecified; arbitrary here). *)
  Variable grow : nat -> nat.

  (** The heap: the list of all backing arrays, each with its full capacity. *)
  Definition mem := list (list A).

  (** The elements a slice shows. *)
  Definition sread (M : mem) (s : slice) : list A :=
    firstn (slen s) (skipn (soff s) (nth (sarr s) M [])).

  Fixpoint upd {B} (l : list B) (i : nat) (x : B) : list B :=
    match l, i with
    | [], _ => []
    | _ :: l', O => x :: l'
    | y :: l', S i' => y :: upd l' i' x
    end.

  (** Copy [xs] into array [a] from index [i] on. *)
  Fixpoint store (l : list A) (i : nat) (xs : list A) : list A :=
    match xs with
    | [] => l
    | x :: xs' => store (upd l i x) (S i) xs'
    end.

  (** [s[i:j]] *)
  Definition reslice (s : slice) (i j : nat) : slice :=
    mkS (sarr s) (soff s + i) (j - i) (scap s - i).

  (** Go's built-in append: in place while the capacity suffices, otherwise into
      a new array. *)
  Definition append (M : mem) (s : slice) (xs : list A) : mem * slice :=
    if slen s + length xs <=? scap s then
      (upd M (sarr s) (store (nth (sarr s) M []) (soff s + slen s) xs),
       mkS (sarr s) (soff s) (slen s + length xs) (scap s))
    else
      let g := grow (slen s + length xs) in
      (M ++ [sread M s ++ xs ++ repeat zero g],
       mkS (length M) 0 (slen s + length xs) (slen s + length xs + g)).

  (** encoding.go:671-694 (getCurrentPart), for valid arguments. *)
  Definition hcurrent_part (M : mem) (previous current : slice) (size idx stride : nat)
    : mem * slice :=
    let stride := if slen previous <? stride then slen previous else stride in
    let prev := reslice previous (slen previous - stride) (slen previous) in
    let start := idx * size in
    if slen current <=? start then (M, prev)
    else
      let fin := (idx + 1) * size in
      let fin := if slen current <? fin then slen current else fin in
      append M prev (sread M (reslice current start fin)).

  (** encoding.go:386-401, the loop; the fuel is the number of overflowing tokens. *)
  Fixpoint hparts (fuel : nat) (M : mem) (prev o : slice) (size idx stride : nat)
    : mem * list slice :=
    match fuel with
    | O => (M, [])
    | S fuel' =>
        if size * idx <? slen o then
          let (M1, w) := hcurrent_part M prev o size idx stride in
          let (M2, ws) := hparts fuel' M1 w o size (idx + 1) stride in
          (M2, w :: ws)
        else (M, [])
    end.

  (** encoding.go:343-406 for stride < maxLen < len: new header and windows. *)
  Definition htruncate (M : mem) (s : slice) (maxLen stride : nat)
    : mem * (slice * list slice) :=
    let main := reslice s 0 maxLen in
    let o := reslice s maxLen (slen s) in
    let (M', ws) := hparts (slen o) M main o (maxLen - stride) 0 stride in
    (M', (main, ws)).

  (** encoding.go:627-636 (right padding): one append per pad token. *)
  Fixpoint happend_pads (n : nat) (M : mem) (s : slice) (padv : A) : mem * slice :=
    match n with
    | O => (M, s)
    | S n' => let (M1, s1) := append M s [padv] in happend_pads n' M1 s1 padv
    end.

  Definition hpad1 (M : mem) (s : slice) (target : nat) (padv : A) : mem * slice :=
    happend_pads (target - slen s) M s padv.

  (** encoding.go:554-571 (direction Right): the windows first, then the main part. *)
  Fixpoint hpad_list (M : mem) (ws : list slice) (target : nat) (padv : A)
    : mem * list slice :=
    match ws with
    | [] => (M, [])
    | w :: ws' =>
        let (M1, w1) := hpad1 M w target padv in
        let (M2, ws2) := hpad_list M1 ws' target padv in
        (M2, w1 :: ws2)
    end.

  Definition hpad (M : mem) (main : slice) (ws : list slice) (target : nat) (padv : A)
    : mem * (slice * list slice) :=
    let (M1, ws1) := hpad_list M ws target padv in
    if target <=? slen main then (M1, (main, ws1))
    else let (M2, main1) := hpad1 M1 main target padv in (M2, (main1, ws1)).
End Slices.

(** A slice header that fits its backing array. *)
Definition valid {A} (M : mem (A:=A)) (s : slice) : Prop :=
  sarr s < length M /\ slen s <= scap s /\
  soff s + scap s <= length (nth (sarr s) M []).
