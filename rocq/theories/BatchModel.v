(** Model of the concurrent parts of /repo/tokenizer.go: EncodeBatch (640-671),
    DecodeBatch (674-693), the counting phase of Train (742-853) with processChunk
    (862-939).  A worker is a program counter; a schedule is the list of workers in
    the order in which they take their steps.  A step that is not enabled gives [None]. *)
From Verif Require Import Base SliceModel BpeSaveModel EncodingModel ProcessorModel.
Open Scope Z_scope.

Section EncodeBatch.
  (** [encode] is t.Encode(_, addSpecialTokens).  Simplification: it is a function of its
      input; the only state it touches, the model's word cache, is the subject of
      CacheModel.v.  [zero] is the zero value of an encoding. *)
  Context {X A : Type} (encode : X -> res A) (zero : A).

  (** Where a goroutine of tokenizer.go:648-658 stands: before Encode, after it, holding
      the mutex, after the store (still holding it), returned nil, returned an error. *)
  Inductive epc := EStart | EMade (a : A) | ELocked (a : A) | EStored | EEnded | EFailed.

  (** The shared variables: the slice, the mutex (its holder), the error recorded by the
      errgroup, whether a goroutine has panicked (which ends the process). *)
  Record ebatch := EB { eb_out : list A; eb_lock : option nat; eb_err : bool; eb_crash : bool; eb_pc : list epc }.

  (** tokenizer.go:641-647. *)
  Definition estart (inputs : list X) : ebatch :=
    EB (map (fun _ => zero) inputs) None false false (map (fun _ => EStart) inputs).

  (** One step of goroutine [i], tokenizer.go:649-657. *)
  Definition estep (inputs : list X) (s : ebatch) (i : nat) : option ebatch :=
    if eb_crash s then None else
    match nth_error inputs i, nth_error (eb_pc s) i with
    | Some x, Some EStart =>
        match encode x with
        | Ok a => Some (EB (eb_out s) (eb_lock s) (eb_err s) false (upd (eb_pc s) i (EMade a)))
        | Err => Some (EB (eb_out s) (eb_lock s) true false (upd (eb_pc s) i EFailed))
        | _ => Some (EB (eb_out s) (eb_lock s) (eb_err s) true (eb_pc s))
        end
    | Some _, Some (EMade a) =>
        match eb_lock s with
        | None => Some (EB (eb_out s) (Some i) (eb_err s) false (upd (eb_pc s) i (ELocked a)))
        | Some _ => None
        end
    | Some _, Some (ELocked a) =>
        Some (EB (upd (eb_out s) i a) (eb_lock s) (eb_err s) false (upd (eb_pc s) i EStored))
    | Some _, Some EStored =>
        Some (EB (eb_out s) None (eb_err s) false (upd (eb_pc s) i EEnded))
    | _, _ => None
    end.

  Fixpoint erun (inputs : list X) (sched : list nat) (s : ebatch) : option ebatch :=
    match sched with
    | [] => Some s
    | i :: sched' => match estep inputs s i with Some s' => erun inputs sched' s' | None => None end
    end.

  Definition efinished (p : epc) : bool := match p with EEnded | EFailed => true | _ => false end.

  (** eg.Wait and the error check, tokenizer.go:661-663.  [None]: Wait has not returned. *)
  Definition ewait (s : ebatch) : option (res (list A)) :=
    if eb_crash s then Some Panic
    else if forallb efinished (eb_pc s) then Some (if eb_err s then Err else Ok (eb_out s))
    else None.
End EncodeBatch.
Arguments EStart {A}. Arguments EStored {A}. Arguments EEnded {A}. Arguments EFailed {A}.

(** tokenizer.go:666-668. *)
Definition batch_padded (p : option pad_params) (l : list Encoding) : res (list Encoding) :=
  match p with
  | None => Ok l
  | Some d => pad_encodings l (pd_strategy d) (pd_dir d) (pd_id d) (pd_type d) (pd_token d)
  end.

(** The zero value of [Encoding]. *)
Definition zero_enc : Encoding := mkEnc [] [] [] [] [] [] [] [] None.

(** tokenizer.go:640-671 under a schedule; [None]: some worker has not returned. *)
Definition encode_batch {X} (encode : X -> res Encoding) (p : option pad_params) (inputs : list X)
  (sched : list nat) : option (res (list Encoding)) :=
  match erun encode inputs sched (estart zero_enc inputs) with
  | None => None
  | Some s => match ewait s with
              | None => None
              | Some r => Some (do l <- r; batch_padded p l)
              end
  end.

Section DecodeBatch.
  (** [decode] is t.Decode(_, skipSpecialTokens).  Simplification: it does not panic. *)
  Context {X A : Type} (decode : X -> A).

  (** A goroutine of tokenizer.go:682-687: before Decode, after it, after reading the shared
      slice to append to it, after assigning the result back. *)
  Inductive dpc := DStart | DMade (a : A) | DRead (a : A) (seen : list A) | DEnded.

  Record dbatch := DB { db_out : list A; db_pc : list dpc }.

  Definition dstart (inputs : list X) : dbatch := DB [] (map (fun _ => DStart) inputs).

  (** Simplification: reading the slice header, and assigning the new one, are single steps,
      and [append] never writes into an array another worker's slice shares.  (The real
      append may also overwrite the element another worker has just stored.) *)
  Definition dstep (inputs : list X) (s : dbatch) (i : nat) : option dbatch :=
    match nth_error inputs i, nth_error (db_pc s) i with
    | Some x, Some DStart => Some (DB (db_out s) (upd (db_pc s) i (DMade (decode x))))
    | Some _, Some (DMade a) => Some (DB (db_out s) (upd (db_pc s) i (DRead a (db_out s))))
    | Some _, Some (DRead a seen) => Some (DB (seen ++ [a])%list (upd (db_pc s) i DEnded))
    | _, _ => None
    end.

  Fixpoint drun (inputs : list X) (sched : list nat) (s : dbatch) : option dbatch :=
    match sched with
    | [] => Some s
    | i :: sched' => match dstep inputs s i with Some s' => drun inputs sched' s' | None => None end
    end.

  (** wg.Wait, tokenizer.go:690-692. *)
  Definition decode_batch (inputs : list X) (sched : list nat) : option (list A) :=
    match drun inputs sched (dstart inputs) with
    | Some s => if forallb (fun p => match p with DEnded => true | _ => false end) (db_pc s)
                then Some (db_out s) else None
    | None => None
    end.
End DecodeBatch.
Arguments DStart {A}. Arguments DEnded {A}.

(** The lines bufio.Scanner yields.  Simplification: no line reaches the 2 GiB limit of
    tokenizer.go:874-875. *)
Definition text_lines (file : str) : list str :=
  let parts := split_on NL file in
  map drop_cr (match rev parts with [] :: r => rev r | _ => parts end).

(** The reading loop of processChunk, tokenizer.go:877-884 and 938: the lines that are
    processed and the final cumulative size. *)
Fixpoint chunk_lines (limit : Z) (lines : list str) (cum : Z) : list str * Z :=
  match lines with
  | [] => ([], cum)
  | l :: lines' =>
      let cum' := cum + zlen l in
      if limit <? cum' then ([], cum')
      else let '(r, c) := chunk_lines limit lines' cum' in (l :: r, c)
  end.

(** ProcessTokens, model/bpe/trainer.go:590-596, on a fresh map. *)
Definition word_counts (tokens : list str) : list (str * Z) :=
  fold_left (fun m t => aset str_eqb t (match aget str_eqb t m with Some c => c | None => 0 end + 1) m) tokens [].

(** The collector's loop over one map, tokenizer.go:806-815.  (The keys of a map are
    distinct, so the order of the iteration does not matter.) *)
Definition add_counts (dict m : list (str * Z)) : list (str * Z) :=
  fold_left (fun d e => aset str_eqb (fst e)
    (match aget str_eqb (fst e) d with Some c => c + snd e | None => snd e end) d) m dict.

Section Train.
  (** [words_of line]: the pre-tokenized pieces of a line, tokenizer.go:900-917.
      Simplification: normalization and pre-tokenization do not fail (log.Fatal). *)
  Context (words_of : str -> list str) (limit : Z).

  (** tokenizer.go:862-939: the maps sent to the channel, in order, and the result. *)
  Definition process_chunk (offset : Z) (file : str) : list (list (str * Z)) * Z :=
    let '(ls, c) := chunk_lines limit (text_lines (skipn (Z.to_nat offset) file)) 0 in
    (map (fun l => word_counts (words_of l)) ls, c).

  (** A worker of tokenizer.go:792-797: not started, sending (the maps still to be sent and
      the value processChunk will return), finished. *)
  Inductive wpc := WStart | WRun (msgs : list (list (str * Z))) (ret : Z) | WEnded.

  (** One file: its content, the variable [current] its workers share (777), the workers. *)
  Record job := Job { j_file : str; j_current : Z; j_workers : list wpc }.

  (** tokenizer.go:784-786, math.Ceil(fsize / limit).  Simplification: exact arithmetic. *)
  Definition chunk_num (file : str) : Z := (zlen file + limit - 1) / limit.

  (** tokenizer.go:771-799. *)
  Definition new_job (file : str) : job := Job file 0 (repeat WStart (Z.to_nat (chunk_num file))).

  (** One step of worker [k]: evaluate the arguments of processChunk (reading [current]), hand
      one map to the collector, or return and assign [current].  The channel is unbuffered;
      simplification: the collector adds the map to its dictionary in the same step. *)
  Definition job_step (dict : list (str * Z)) (j : job) (k : nat) : option (list (str * Z) * job) :=
    match nth_error (j_workers j) k with
    | Some WStart =>
        let '(msgs, ret) := process_chunk (j_current j) (j_file j) in
        Some (dict, Job (j_file j) (j_current j) (upd (j_workers j) k (WRun msgs ret)))
    | Some (WRun (m :: msgs) ret) =>
        Some (add_counts dict m, Job (j_file j) (j_current j) (upd (j_workers j) k (WRun msgs ret)))
    | Some (WRun [] ret) => Some (dict, Job (j_file j) ret (upd (j_workers j) k WEnded))
    | _ => None
    end.

  (** The state: the collector's dictionary and the jobs.  [(f, k)]: worker [k] of file [f]. *)
  Definition train_state := (list (str * Z) * list job)%type.

  Definition train_step (s : train_state) (a : nat * nat) : option train_state :=
    match nth_error (snd s) (fst a) with
    | Some j => match job_step (fst s) j (snd a) with
                | Some (d, j') => Some (d, upd (snd s) (fst a) j')
                | None => None
                end
    | None => None
    end.

  Fixpoint train_run (sched : list (nat * nat)) (s : train_state) : option train_state :=
    match sched with
    | [] => Some s
    | a :: sched' => match train_step s a with Some s' => train_run sched' s' | None => None end
    end.

  Definition job_done (j : job) : bool :=
    forallb (fun w => match w with WEnded => true | _ => false end) (j_workers j).

  (** scanWG.Wait, close, <-doneChan: the dictionary given to trainer.Train, 821-840. *)
  Definition train_counts (files : list str) (sched : list (nat * nat)) : option (list (str * Z)) :=
    match train_run sched ([], map new_job files) with
    | Some (d, js) => if forallb job_done js then Some d else None
    | None => None
    end.
End Train.
