(** What is asked of the progress shown while a file is downloaded (C91). *)
From Verif Require Import Base ProgressModel.
Open Scope N_scope.

(** The units KiB, MiB, GiB, TiB, PiB and EiB: their letters and how many bytes they are. *)
Definition units : list (N * N) :=
  [(75, 1024); (77, 1024 * 1024); (71, 1024 * 1024 * 1024); (84, 1024 * 1024 * 1024 * 1024); (80, 1024 * 1024 * 1024 * 1024 * 1024); (69, 1024 * 1024 * 1024 * 1024 * 1024 * 1024)].

(** How a conversion to float64 behaves on whole numbers: it keeps numbers up to 2^53 and powers of two,
    and does not change the order. *)
Definition converts (to64 : N -> N) : Prop :=
  (forall n, n <= 2 ^ 53 -> to64 n = n) /\ (forall k, to64 (2 ^ k) = 2 ^ k) /\ (forall a b, a <= b -> to64 a <= to64 b).

(** The sum of the lengths of some buffers. *)
Definition sent (ps : list (list N)) : N := N.of_nat (length (concat ps)).
