(** Model of Encoding.GetSequenceIds and Encoding.SequenceRange
    (/repo/encoding.go:156-163, 191-210, 659-669), on slices over backing arrays: the
    loop appends to views of the list it reads from. *)
From Verif Require Import Base EncodingModel SliceModel SliceOpsModel.
Open Scope Z_scope.

(** encoding.go:157-163. *)
Definition n_sequences (e : Encoding) : nat :=
  match seq_ranges e with None | Some [] => 1 | Some m => length m end.

Section SequenceIds.
  (** Spare capacity granted by append. *)
  Variable grow : nat -> nat.

  (** encoding.go:194-206, one turn: [id] is the sequence and [r] its range; the nil range
      has no element 0.  [sequences[:start]] may reach into the capacity. *)
  Definition seq_step (st : mem (A:=Z) * slice) (id : Z) (r : list Z) : res (mem (A:=Z) * slice) :=
    let (M, s) := st in
    match r with
    | [] => Panic
    | start :: _ =>
        let fin := last r start in
        if ((start <? 0) || (Z.of_nat (scap s) <? start) || (fin <? 0) || (Z.of_nat (slen s) <? fin)) then Panic
        else
          let before := upto s (Z.to_nat start) in
          let after := from s (Z.to_nat fin) in
          let (M1, s1) := append 0 grow M before (repeat id (length r)) in
          Ok (append 0 grow M1 s1 (sread M1 after))
    end.

  (** encoding.go:193-207, the loop over the sequences from [id] on. *)
  Fixpoint seq_loop (k : nat) (m : list (Z * list Z)) (st : mem (A:=Z) * slice) (id : Z) : res (mem (A:=Z) * slice) :=
    match k with
    | O => Ok st
    | S k' =>
        do st' <- seq_step st id (match aget Z.eqb id m with Some r => r | None => [] end);
        seq_loop k' m st' (id + 1)
    end.

  (** encoding.go:191-210. *)
  Definition get_sequence_ids (e : Encoding) : res (list Z) :=
    let m := match seq_ranges e with Some m => m | None => [] end in
    do st <- seq_loop (n_sequences e) m (make 0 [] (length (ids e))) 0;
    Ok (sread (fst st) (snd st)).
End SequenceIds.

(** encoding.go:661-669.  [spare k] is what lies in the array of range [k] behind it. *)
Definition sequence_range (spare : Z -> list Z) (e : Encoding) (k : Z) : res (list Z) :=
  match seq_ranges e with
  | None => Err
  | Some m =>
      match aget Z.eqb k m with
      | None => Err
      | Some r =>
          if zlen (r ++ spare k) <? enc_len e then Panic else Ok (firstn (length (ids e)) (r ++ spare k))
      end
  end.
