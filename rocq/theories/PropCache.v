(** Property C16: the BPE cache. *)
From Verif Require Import Base Utf8Model BpeModel CacheModel CacheProofs PropBpe.
Open Scope Z_scope.

(** Any number of threads, any programs of tokenizations and clears, any schedule:
    at every point the cache holds at most its capacity, and each thread has
    received, in order, exactly what uncached tokenization returns for its calls
    (all of them once it has finished). *)
Theorem C16_cache_transparent_partial : forall b cap c progs sched c' ths',
  build_cache cap = Some c ->
  run_schedule b c (map start progs) sched = (c', ths') ->
  zlen (c_map c') <= Z.max 0 cap /\
  Forall2 (fun prog th =>
    exists rest, map (fun s => (s, bpe_tokenize b s)) (toks_of prog) = (th_done th ++ rest)%list /\
      (th_todo th = [] /\ th_pending th = None -> rest = [])) progs ths'.
Proof. exact concurrent_cache. Qed.
Print Assumptions C16_cache_transparent_partial.

(** Two threads racing on the same word with a clear in between; capacity 1. *)
Example C16_ex :
  let '(c, ths) := run_schedule ex_bpe (new_cache 1)
     (map start [[CTok ex_word; CTok s_a]; [CTok ex_word; CClear; CTok ex_word]])
     [0; 1; 0; 1; 0; 1; 1; 0; 1]%nat in
  c_map c <> [] /\
  map th_done ths = [[(ex_word, Ok ex_tokens); (s_a, Ok [Tok 1 s_a (0, 1)])];
                     [(ex_word, Ok ex_tokens); (ex_word, Ok ex_tokens)]].
Proof. vm_compute. split; [discriminate|reflexivity]. Qed.

(** Bulk insertion through the public SetValues keeps the bound as well. *)
Theorem C16_set_values_bounded : forall c values,
  zlen (c_map c) <= Z.max 0 (c_cap c) ->
  zlen (c_map (cache_set c values)) <= Z.max 0 (c_cap c).
Proof. exact cache_set_bounded. Qed.
Print Assumptions C16_set_values_bounded.
Example C16_set_values_ex :
  zlen (c_map (cache_set (new_cache 2) [(s_a, []); (s_b, []); (s_c', [])])) = 2.
Proof. reflexivity. Qed.

(** Capacity 0, documented as disabling the cache, makes every tokenization of a
    non-empty word panic. *)
Theorem C16_capacity_zero_refuted : forall b s,
  s <> [] -> tokenize_cached b (build_cache 0) s = Panic.
Proof. exact capacity_zero. Qed.
Print Assumptions C16_capacity_zero_refuted.
