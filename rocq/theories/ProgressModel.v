(** Model of the progress shown while a file is downloaded: /repo/file-util.go:177-212. *)
From Verif Require Import Base.
Open Scope N_scope.

(** Values of uint64 are numbers below 2^64; addition and multiplication drop what is above. *)
Definition u64 (n : N) : N := n mod 18446744073709551616.

(** file-util.go:205-208, the loop: [n], the divisor and the number of the unit.  Fuel bounds the
    number of turns; a loop that is cut off is [NoFuel]. *)
Fixpoint unit_loop (fuel : nat) (n div : N) (exp : nat) : res (N * nat) :=
  match fuel with
  | O => NoFuel
  | S fuel' => if 1024 <=? n then unit_loop fuel' (n / 1024) (u64 (div * 1024)) (S exp) else Ok (div, exp)
  end.

(** What is printed: a number of bytes (203), or tenths of a unit and the letter of the unit (210-211). *)
Inductive amount := Bytes (b : N) | Units (tenths letter : N).

(** The format %.1f rounds to the nearest tenth, and halves to the even one.  The quotient of two
    float64 the second of which is a power of two is exact, so that it is rounded only once. *)
Definition nearest (a d : N) : N :=
  let q := a / d in
  let r := a mod d in
  if 2 * r <? d then q else if d <? 2 * r then q + 1 else if N.even q then q else q + 1.

(** file-util.go:200-212.  [byteCountIEC]; [to64] is the conversion of uint64 to float64, which gives
    whole numbers; "KMGTPE"[exp] panics if there is no such letter. *)
Definition byte_count (to64 : N -> N) (b : N) : res amount :=
  if b <? 1024 then Ok (Bytes b)
  else
    do r <- unit_loop 64 (b / 1024) 1024 0;
    match nth_error [75; 77; 71; 84; 80; 69] (snd r) with
    | Some l => Ok (Units (nearest (10 * to64 b) (to64 (fst r))) l)
    | None => Panic
    end.

(** file-util.go:177-187.  [Write] on a counter: it takes all bytes; the total afterwards. *)
Definition counter_write (total : N) (p : list N) : N := u64 (total + N.of_nat (length p)).
(** The totals shown after each of some writes (182-197). *)
Fixpoint totals (total : N) (ps : list (list N)) : list N :=
  match ps with
  | [] => []
  | p :: ps' => let t := counter_write total p in t :: totals t ps'
  end.
