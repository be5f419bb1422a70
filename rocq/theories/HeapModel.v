(** Model of the array-backed binary heap of github.com/emirpasic/gods
    (trees/binaryheap), which /repo/model/bpe/word.go:3-10 and
    /repo/model/bpe/trainer.go use as priority queue.  The library source is not
    part of /repo; this is its published algorithm (Push: append and sift up while
    the parent compares greater; Pop: swap first and last, drop the last, sift down
    towards the smaller child, the left one on ties). *)
From Verif Require Import Base SliceModel.

Section Heap.
  Context {A : Type}.
  (** [gt a b]: the comparator returns a positive number for (a, b). *)
  Variable gt : A -> A -> bool.

  Definition swap (l : list A) (i j : nat) : list A :=
    match nth_error l i, nth_error l j with
    | Some x, Some y => upd (upd l i y) j x
    | _, _ => l
    end.

  (** bubbleUp, the loop; [fuel >= index] suffices. *)
  Fixpoint bubble_up (fuel : nat) (l : list A) (index : nat) : list A :=
    match fuel with
    | O => l
    | S fuel' =>
        if index =? 0 then l
        else
          let parent := (index - 1) / 2 in
          match nth_error l parent, nth_error l index with
          | Some pv, Some iv =>
              if gt pv iv then bubble_up fuel' (swap l parent index) parent else l
          | _, _ => l
          end
    end.

  Definition heap_push (l : list A) (x : A) : list A :=
    bubble_up (length l) (l ++ [x]) (length l).

  (** bubbleDownIndex, the loop; [fuel >= length l] suffices. *)
  Fixpoint bubble_down (fuel : nat) (l : list A) (index : nat) : list A :=
    match fuel with
    | O => l
    | S fuel' =>
        let left := 2 * index + 1 in
        let right := 2 * index + 2 in
        match nth_error l left, nth_error l index with
        | Some lv, Some iv =>
            let '(smaller, sv) :=
              match nth_error l right with
              | Some rv => if gt lv rv then (right, rv) else (left, lv)
              | None => (left, lv)
              end in
            if gt iv sv then bubble_down fuel' (swap l index smaller) smaller else l
        | _, _ => l
        end
    end.

  Definition heap_pop (l : list A) : option (A * list A) :=
    match l with
    | [] => None
    | x :: _ =>
        let l' := removelast (swap l 0 (length l - 1)) in
        Some (x, bubble_down (length l') l' 0)
    end.
End Heap.
