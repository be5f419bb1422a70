(** Model of the BPE cache (/repo/model/bpe/cache.go) and of cached tokenization
    (/repo/model/bpe/bpe.go:464-493), including concurrent callers. *)
From Verif Require Import Base Utf8Model BpeModel.

(** cache.go:11-16.  [Cache]; the lock is modelled by the atomicity of the
    operations below. *)
Record cache := Cache { c_map : list (str * list sym); c_cap : Z }.

(** cache.go:26-32.  [NewCache]. *)
Definition new_cache (capacity : Z) : cache := Cache [] capacity.

(** cache.go:44-50.  [Get]. *)
Definition cache_get (c : cache) (k : str) : option (list sym) := aget str_eqb k (c_map c).

(** cache.go:35-41.  [Clear]. *)
Definition cache_clear (c : cache) : cache := Cache [] (c_cap c).

(** cache.go:68-90.  [SetValues]: as many items as there is room for when the call
    starts. *)
Definition cache_set (c : cache) (values : list (str * list sym)) : cache :=
  if (c_cap c <=? zlen (c_map c))%Z then c
  else
    let remaining := Z.to_nat (c_cap c - zlen (c_map c)) in
    Cache (fold_left (fun m p => aset str_eqb (fst p) (snd p) m) (firstn remaining values) (c_map c))
          (c_cap c).

(** bpe.go:139-143.  The cache of a built model: none when the capacity is 0. *)
Definition build_cache (capacity : Z) : option cache :=
  if (capacity =? 0)%Z then None else Some (new_cache capacity).

(** bpe.go:479-493 as one sequential call.  [b.Cache.Get] on a nil cache
    dereferences nil. *)
Definition tokenize_cached (b : bpe) (c : option cache) (s : str) : res (list token * option cache) :=
  if length s =? 0 then Ok ([], c)
  else
    match c with
    | None => Panic
    | Some c0 =>
        match cache_get c0 s with
        | Some w => Ok (word_to_tokens b w, c)
        | None =>
            do w <- merge_word b no_drop (enough s) s;
            Ok (word_to_tokens b w, Some (cache_set c0 [(s, w)]))
        end
    end.

(** Concurrent callers.  Each thread runs a sequence of calls; the atomic steps
    are those at the cache's lock granularity: the lookup, the insertion after a
    miss, and the clearing. *)
(** (/repo/model/bpe/bpe.go:466-493 and /repo/model/bpe/cache.go:35-90; the
    computation between the lookup and the insertion touches no shared state.) *)
Inductive call := CTok (s : str) | CClear.

(** One caller in progress (bpe.go:466-493). *)
Record thread := Thread {
  th_todo : list call;                       (* calls not yet started *)
  th_pending : option (str * list sym);      (* missed; computed; not yet inserted *)
  th_done : list (str * res (list token));   (* results, oldest first *)
}.

(** One atomic step of a caller (bpe.go:466-493, cache.go:35-90). *)
Definition thread_step (b : bpe) (c : cache) (th : thread) : cache * thread :=
  match th_pending th with
  | Some (s, w) =>
      (cache_set c [(s, w)],
       Thread (th_todo th) None (th_done th ++ [(s, Ok (word_to_tokens b w))]))
  | None =>
      match th_todo th with
      | [] => (c, th)
      | CClear :: rest => (cache_clear c, Thread rest None (th_done th))
      | CTok s :: rest =>
          if length s =? 0 then (c, Thread rest None (th_done th ++ [(s, Ok [])]))
          else
            match cache_get c s with
            | Some w => (c, Thread rest None (th_done th ++ [(s, Ok (word_to_tokens b w))]))
            | None =>
                match merge_word b no_drop (enough s) s with
                | Ok w => (c, Thread rest (Some (s, w)) (th_done th))
                | Err => (c, Thread rest None (th_done th ++ [(s, Err)]))
                | Panic => (c, Thread rest None (th_done th ++ [(s, Panic)]))
                | Fatal => (c, Thread rest None (th_done th ++ [(s, Fatal)]))
                | NoFuel => (c, Thread rest None (th_done th ++ [(s, NoFuel)]))
                end
            end
      end
  end.

(** (No counterpart in the code: the scheduler.)  One step of thread number [i]; a schedule is the sequence of thread numbers. *)
Fixpoint step_nth (b : bpe) (c : cache) (ths : list thread) (i : nat) : cache * list thread :=
  match ths, i with
  | [], _ => (c, [])
  | th :: ths', O => let '(c', th') := thread_step b c th in (c', th' :: ths')
  | th :: ths', S i' => let '(c', ths'') := step_nth b c ths' i' in (c', th :: ths'')
  end.

(** (No counterpart in the code: the scheduler.) *)
Definition run_schedule (b : bpe) (c : cache) (ths : list thread) (sched : list nat)
  : cache * list thread :=
  fold_left (fun st i => step_nth b (fst st) (snd st) i) sched (c, ths).

(** A caller that has not started (no counterpart in the code). *)
Definition start (prog : list call) : thread := Thread prog None [].

(** The strings a program tokenizes, in order. *)
Definition toks_of (prog : list call) : list str :=
  concat (map (fun c => match c with CTok s => [s] | CClear => [] end) prog).
