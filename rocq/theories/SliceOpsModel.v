(** Model of the slice helpers in /repo/util/slice/{int,string,generic}.go and of the list
    helpers of /repo/util/util.go and /repo/util/iterator.go.  Slices are the headers of
    SliceModel.v over a memory of backing arrays; the functions for int and string are the
    same code, so the element type is a parameter. *)
From Verif Require Import Base SliceModel.
Open Scope nat_scope.

Section SliceOps.
  Context {A : Type}.
  Variable zero : A.
  Variable grow : nat -> nat.
  Notation mem := (mem (A:=A)).

  (** [a[i:]] and [a[:i]] for 0 <= i <= len(a). *)
  Definition from (a : slice) (i : nat) : slice := reslice a i (slen a).
  Definition upto (a : slice) (i : nat) : slice := reslice a 0 i.

  (** [make([]T, n)]: a new array. *)
  Definition make (M : mem) (n : nat) : mem * slice := (M ++ [repeat zero n], mkS (length M) 0 n n).
  (** A composite literal. *)
  Definition literal (M : mem) (l : list A) : mem * slice := (M ++ [l], mkS (length M) 0 (length l) (length l)).

  (** int.go:13-17.  CopyInt: append to [a[:0:0]], which has no capacity. *)
  Definition copy (M : mem) (a : slice) : mem * slice :=
    append zero grow M (mkS (sarr a) (soff a) 0 0) (sread M a).

  (** int.go:21-39, string.go:21-39.  CutInt, CutStr; [low] is the lower bound of the checks,
      -1 in CutInt and 0 in CutStr. *)
  Definition cut (low : Z) (M : mem) (a : slice) (i j : Z) : res (mem * slice) :=
    let n := Z.of_nat (slen a) in
    if ((i <? low) || (n <? i) || (j <? low) || (n <? j) || (j <? i))%Z then Err
    else if (i <? 0)%Z then Panic
    else Ok (append zero grow M (upto a (Z.to_nat i)) (sread M (from a (Z.to_nat j)))).

  (** int.go:42-50.  DeleteInt. *)
  Definition delete (M : mem) (a : slice) (i : Z) : res (mem * slice) :=
    let n := Z.of_nat (slen a) in
    if ((i <? 0) || (n <? i))%Z then Err
    else if (n <? i + 1)%Z then Panic
    else Ok (append zero grow M (upto a (Z.to_nat i)) (sread M (from a (Z.to_nat i + 1)))).

  (** int.go:53-71.  ExpandInt. *)
  Definition expand (M : mem) (a : slice) (i j : Z) : res (mem * slice) :=
    let n := Z.of_nat (slen a) in
    if ((i <? 0) || (n <? i) || (j <? 0) || (n <? j) || (j <? i))%Z then Err
    else
      let (M1, z) := make M (Z.to_nat j) in
      let (M2, b) := append zero grow M1 z (sread M1 (from a (Z.to_nat i))) in
      Ok (append zero grow M2 (upto a (Z.to_nat i)) (sread M2 b)).

  (** int.go:74-81.  ExtendInt. *)
  Definition extend (M : mem) (a : slice) (size : Z) : res (mem * slice) :=
    if (size <=? 0)%Z then Err else Ok (append zero grow M a (repeat zero (Z.to_nat size))).

  (** [a[i] = x] and [a[i]] for i < len(a). *)
  Definition set_at (M : mem) (a : slice) (i : nat) (x : A) : mem :=
    SliceModel.upd M (sarr a) (SliceModel.upd (nth (sarr a) M []) (soff a + i) x).
  Definition get_at (M : mem) (a : slice) (i : nat) : A := nth (soff a + i) (nth (sarr a) M []) zero.

  (** int.go:84-93.  FilterInt; [i] elements are done and [n] of them kept, [k] remain. *)
  Fixpoint filter_loop (f : A -> bool) (k : nat) (M : mem) (a : slice) (i n : nat) : mem * nat :=
    match k with
    | O => (M, n)
    | S k' =>
        let x := get_at M a i in
        if f x then filter_loop f k' (set_at M a n x) a (S i) (S n) else filter_loop f k' M a (S i) n
    end.
  Definition filter_in_place (f : A -> bool) (M : mem) (a : slice) : mem * slice :=
    let (M1, n) := filter_loop f (slen a) M a 0 0 in (M1, upto a n).

  (** int.go:96-105.  InsertInt. *)
  Definition insert (M : mem) (a : slice) (x : A) (i : Z) : res (mem * slice) :=
    if ((i <? 0) || (Z.of_nat (slen a) <? i))%Z then Err
    else
      let (M1, z) := literal M [x] in
      let (M2, b) := append zero grow M1 z (sread M1 (from a (Z.to_nat i))) in
      Ok (append zero grow M2 (upto a (Z.to_nat i)) (sread M2 b)).

  (** int.go:108-117.  InsertVecInt. *)
  Definition insert_vec (M : mem) (a b : slice) (i : Z) : res (mem * slice) :=
    if ((i <? 0) || (Z.of_nat (slen a) <? i))%Z then Err
    else
      let (M1, c) := append zero grow M b (sread M (from a (Z.to_nat i))) in
      Ok (append zero grow M1 (upto a (Z.to_nat i)) (sread M1 c)).

  (** int.go:120-137.  PushInt, PopInt, PushFrontInt, PopFrontInt. *)
  Definition push (M : mem) (a : slice) (x : A) : mem * slice := append zero grow M a [x].
  Definition pop (M : mem) (a : slice) : res (A * slice) :=
    match slen a with O => Panic | S n => Ok (get_at M a n, upto a n) end.
  Definition push_front (M : mem) (a : slice) (x : A) : mem * slice :=
    let (M1, z) := literal M [x] in append zero grow M1 z (sread M1 a).
  Definition pop_front (M : mem) (a : slice) : res (A * slice) :=
    match slen a with O => Panic | S _ => Ok (get_at M a 0, from a 1) end.

  (** int.go:143-157.  FilterIntNoAllocate: appending to [a[:0]] stays in place, since
      not more is written than read; the rest is set to zero. *)
  Fixpoint zero_loop (k : nat) (M : mem) (a : slice) (i : nat) : mem :=
    match k with O => M | S k' => zero_loop k' (set_at M a i zero) a (S i) end.
  Definition filter_no_allocate (f : A -> bool) (M : mem) (a : slice) : mem * slice :=
    let (M1, n) := filter_loop f (slen a) M a 0 0 in (zero_loop (slen a - n) M1 a n, upto a n).

  (** int.go:161-168 and 171-177.  ReverseInt and ReverseLRInt: the swaps of [i] and
      [len-1-i] for i < len/2 (the two functions do them in opposite orders). *)
  Definition swap (M : mem) (a : slice) (i j : nat) : mem :=
    let x := get_at M a i in let y := get_at M a j in set_at (set_at M a i y) a j x.
  Fixpoint reverse_down (k : nat) (M : mem) (a : slice) : mem :=
    match k with O => M | S i => reverse_down i (swap M a i (slen a - 1 - i)) a end.
  Definition reverse (M : mem) (a : slice) : mem * slice := (reverse_down (slen a / 2) M a, a).
  Fixpoint reverse_up (fuel : nat) (M : mem) (a : slice) (l r : nat) : mem :=
    match fuel with
    | O => M
    | S k => if l <? r then reverse_up k (swap M a l r) a (S l) (r - 1) else M
    end.
  Definition reverse_lr (M : mem) (a : slice) : mem * slice := (reverse_up (slen a) M a 0 (slen a - 1), a).

  (** int.go:181-188.  ShuffleInt: [rnd i] is the result of rand.Intn(i). *)
  Fixpoint shuffle (rnd : nat -> nat) (k : nat) (M : mem) (a : slice) : mem :=
    match k with O => M | S i => shuffle rnd i (swap M a (S i) (rnd (S (S i)))) a end.
  Definition shuffle_all (rnd : nat -> nat) (M : mem) (a : slice) : mem * slice := (shuffle rnd (slen a - 1) M a, a).

  (** util.go:261-275.  Merge; the nil slice is the empty one of the new array. *)
  Definition merge (M : mem) (a b : slice) : mem * slice :=
    let (M1, z) := (M ++ [sread M a ++ repeat zero (slen b)], mkS (length M) 0 (slen a) (slen a + slen b)) in
    append zero grow M1 z (sread M1 b).

  (** generic.go:15-24.  Reverse: the same on a copy. *)
  Definition reverse_new (M : mem) (a : slice) : mem * slice :=
    let (M1, b) := literal M (sread M a) in reverse_lr M1 b.

  (** int.go:191-206.  BatchInt: views of the slice; size 0 divides by zero at 198. *)
  Fixpoint batch_loop (fuel : nat) (a : slice) (size : nat) : list slice :=
    match fuel with
    | O => [a]
    | S k =>
        if size <? slen a then mkS (sarr a) (soff a) size size :: batch_loop k (from a size) size else [a]
    end.
  Definition batch (a : slice) (size : Z) : res (list slice) :=
    if (size <? 0)%Z then Err
    else if (size =? 0)%Z then Panic
    else Ok (batch_loop (slen a) a (Z.to_nat size)).

  (** int.go:209-224.  DeduplicateInt; [sort] is sort.Ints.  The final [a[:j+1]] reaches
      beyond an empty slice: it panics without capacity. *)
  Variable eqb : A -> A -> bool.
  Fixpoint dedup_loop (k : nat) (M : mem) (a : slice) (i j : nat) : mem * nat :=
    match k with
    | O => (M, j)
    | S k' =>
        if eqb (get_at M a j) (get_at M a i) then dedup_loop k' M a (S i) j
        else dedup_loop k' (set_at M a (S j) (get_at M a i)) a (S i) (S j)
    end.
  Definition dedup (sort : list A -> list A) (M : mem) (a : slice) : res (mem * slice) :=
    let M1 := SliceModel.upd M (sarr a) (store (nth (sarr a) M []) (soff a) (sort (sread M a))) in
    let (M2, j) := dedup_loop (slen a - 1) M1 a 1 0 in
    if scap a <? j + 1 then Panic else Ok (M2, upto a (j + 1)).
End SliceOps.

(** ** util/util.go *)
Open Scope Z_scope.

(** 31-43.  MakeRange. *)
Definition make_range (first last : Z) : list Z :=
  if last =? first then [] else repeat first (Z.to_nat (last - first)).

(** 95-107 and, on floats, 223-235.  MinMax. *)
Definition min_max (l : list Z) : res (Z * Z) :=
  match l with
  | [] => Panic
  | x :: _ => Ok (fold_left (fun m v => let '(lo, hi) := m in
                     (if v <? lo then v else lo, if hi <? v then v else hi)) l (x, x))
  end.

(** 131-153.  ReadAllLn, on the lines the scanner returns. *)
Definition read_all_ln (keep : bool) (lines : list str) : list str :=
  flat_map (fun l => (if keep then [l ++ [10%N]] else []) ++ [l]) lines.

(** 171-220.  Zip, for arguments of the required types. *)
Definition zip {A} (a b : list A) : res (list (A * A)) :=
  if (length a =? length b)%nat then Ok (combine a b) else Err.

(** 249-256.  Repeat. *)
Fixpoint repeat_loop {A} (k : nat) (x : A) (acc : list A) : list A :=
  match k with O => acc | S k' => repeat_loop k' x (acc ++ [x]) end.
Definition repeat_item {A} (x : A) (n : Z) : list A := repeat_loop (Z.to_nat n) x [].

(** ** util/iterator.go *)

(** 4-7, 10-20.  RuneIter and its next index, -1 at the end. *)
Record rune_iter := RI { ri_items : list N; ri_next : Z }.
Definition new_rune_iter (l : list N) : rune_iter := RI l (if 0 <? zlen l then 0 else -1).
(** 23-37.  Next; the zero rune and false at the end. *)
Definition ri_step (it : rune_iter) : res (N * bool * rune_iter) :=
  if ri_next it =? -1 then Ok (0%N, false, it)
  else
    do c <- zindex (ri_items it) (ri_next it);
    Ok (c, true, RI (ri_items it) (if zlen (ri_items it) <=? ri_next it + 1 then -1 else ri_next it + 1)).
(** 45-51.  CurrentIndex. *)
Definition ri_current (it : rune_iter) : Z := if zlen (ri_items it) =? 0 then -1 else ri_next it - 1.
(** 54-60.  Reset. *)
Definition ri_reset (it : rune_iter) : rune_iter := RI (ri_items it) (if zlen (ri_items it) =? 0 then -1 else 0).
(** Calls of Next until it reports the end. *)
Fixpoint ri_drain (fuel : nat) (it : rune_iter) : res (list N * rune_iter) :=
  match fuel with
  | O => NoFuel
  | S k =>
      do (c, ok, it') <- ri_step it;
      if ok then do (l, it'') <- ri_drain k it'; Ok (c :: l, it'') else Ok ([], it')
  end.

(** 63-91.  The generic Iter; its index runs up to the length. *)
Record iter {A} := IT { it_items : list A; it_next : Z }.
Arguments iter : clear implicits.
Definition new_iter {A} (l : list A) : iter A := IT A l (if 0 <? zlen l then 0 else -1).
Definition it_step {A} (it : iter A) : res (option A * iter A) :=
  if (it_next it =? -1) || (zlen (it_items it) <=? it_next it) then Ok (None, it)
  else do c <- zindex (it_items it) (it_next it); Ok (Some c, IT A (it_items it) (it_next it + 1)).
Fixpoint it_drain {A} (fuel : nat) (it : iter A) : res (list A * iter A) :=
  match fuel with
  | O => NoFuel
  | S k =>
      do (c, it') <- it_step it;
      match c with Some x => do (l, it'') <- it_drain k it'; Ok (x :: l, it'') | None => Ok ([], it') end
  end.

(** util.go:110-117, 237-245, generic.go:4-11.  StringInSlice, Contains, Contain. *)
Definition contains {A} (eqb : A -> A -> bool) (x : A) (l : list A) : bool := existsb (fun v => eqb v x) l.
