(** Property C09: padding a truncated encoding versus its overflow windows
    (shared backing arrays).  Theorems only; proofs are in SliceProofs.v. *)
From Verif Require Import Base EncodingSpec SliceModel SliceProofs.

(** Truncation at slice level writes nothing and shows what C01 says. *)
Theorem C09_truncate_no_write : forall (A : Type) (zero : A) grow M s m st,
  valid M s -> st < m -> m < slen s ->
  exists k main ws,
    htruncate zero grow M s m st = (M, (main, ws))
    /\ sread M main = firstn m (sread M s)
    /\ map (sread M) ws = map (fun j => window (S j * (m - st)) m (sread M s)) (seq 0 k)
    /\ 0 < k /\ slen s <= k * (m - st) + m /\ (k - 1) * (m - st) + m < slen s.
Proof. exact @htruncate_refines. Qed.
Print Assumptions C09_truncate_no_write.

(** Padding up to at most the truncation length leaves every window as it was. *)
Theorem C09_pad_small_target_partial : forall (A : Type) (zero : A) grow padv M s m st t,
  valid M s -> st < m -> m < slen s -> t <= m ->
  exists M1 main ws main' ws',
    htruncate zero grow M s m st = (M, (main, ws)) /\
    hpad zero grow M main ws t padv = (M1, (main', ws')) /\
    sread M1 main' = sread M main /\
    map (sread M1) ws' = map (fun w => w ++ repeat padv (t - length w)) (map (sread M) ws).
Proof. exact @truncate_pad_small. Qed.
Print Assumptions C09_pad_small_target_partial.

(** Padding beyond it overwrites a token of the second window, always. *)
Theorem C09_pad_large_target_refuted : forall (A : Type) (zero : A) grow padv M s m st t,
  valid M s -> st < m -> m < slen s -> m < t -> (m - st) + m < slen s ->
  exists M1 main ws main' ws' w w',
    htruncate zero grow M s m st = (M, (main, ws)) /\
    hpad zero grow M main ws t padv = (M1, (main', ws')) /\
    nth_error ws 1 = Some w /\ nth_error ws' 1 = Some w' /\
    st < length (sread M w) /\
    (forall d, nth st (sread M w) d = nth ((m - st) + m) (sread M s) d) /\
    (forall d, nth st (sread M1 w') d = padv).
Proof. exact @truncate_pad_corrupts. Qed.
Print Assumptions C09_pad_large_target_refuted.

Example C09_example :
  let M := [[10; 11; 12; 13; 14]] in
  let s := mkS 0 0 5 5 in
  valid M s /\ 0 < 2 < slen s /\ (2 - 0) + 2 < slen s /\
  (let '(M1, (main, ws)) := htruncate 0 (fun _ => 0) M s 2 0 in
   map (sread M1) ws = [[12; 13]; [14]] /\
   (let '(M2, (main', ws')) := hpad 0 (fun _ => 0) M1 main ws 2 99 in
    sread M2 main' = [10; 11] /\ map (sread M2) ws' = [[12; 13]; [14; 99]]) /\
   (let '(M2, (main', ws')) := hpad 0 (fun _ => 0) M1 main ws 3 99 in
    map (sread M2) ws' = [[99; 13; 99]; [99; 99; 99]])).
Proof. vm_compute. repeat split; lia. Qed.
