(** Properties of the file cache (C48). *)
From Verif Require Import Base BaseProofs FileCacheModel FileCacheSpec FileCacheProofs.
Open Scope Z_scope.

(** For the examples: the cache directory "c", the file "f" of the model "m" with content "xyz". *)
Definition ex_root : str := [99]%N.
Definition ex_m : str := [109]%N.
Definition ex_f : str := [102]%N.
Definition ex_remote (m f : str) : option str := if str_eqb f ex_f then Some [120; 121; 122]%N else None.
Definition ex_world (ended : bool) : world :=
  World true true true (Some (200, [[120]; [121; 122]]%N, ended)) true true [[120]; [121; 122]]%N true.
Definition ex_empty : fs := FS [] [].

(** Files that are not found locally: whatever calls were made before, each of them stopped at
    any point (or ended), a file under a cached name is complete. *)
Theorem C48_atomic_partial : forall root remote s,
  history root remote s ->
  forall m f c, plain_name f -> file s (cached_name root m f) = Some c ->
    complete root remote (cached_name root m f) c.
Proof. exact history_complete. Qed.
Print Assumptions C48_atomic_partial.

(** And the name a call returns is the cached name, with a complete file. *)
Theorem C48_serves_partial : forall root remote s w m f t p,
  history root remote s -> plain_name f -> file s (join m f) = None -> honest remote w m f ->
  cached_path root w m f s = (t, Ok p) ->
  p = cached_name root m f /\ exists c, file (last t s) p = Some c /\ complete root remote p c.
Proof. exact history_serves. Qed.
Print Assumptions C48_serves_partial.

Lemma ex_plain : plain_name ex_f.
Proof. intros x H. apply (f_equal (@length N)) in H. rewrite app_length in H. cbn in H. lia. Qed.
(** A download stopped after the first piece, then a complete one. *)
Example C48_meets : exists s1 t,
  history ex_root ex_remote s1 /\ fs_files s1 = [(cached_name ex_root ex_m ex_f ++ TMP, [120]%N)]%list /\
  honest ex_remote (ex_world true) ex_m ex_f /\ file s1 (join ex_m ex_f) = None /\
  cached_path ex_root (ex_world true) ex_m ex_f s1 = (t, Ok (cached_name ex_root ex_m ex_f)) /\
  fs_files (last t s1) = [(cached_name ex_root ex_m ex_f, [120; 121; 122]%N)].
Proof.
  exists (FS [dir_of (cached_name ex_root ex_m ex_f)] [(cached_name ex_root ex_m ex_f ++ TMP, [120]%N)]%list).
  eexists. split; [|split; [reflexivity|split; [|split; [reflexivity|split; [vm_compute; reflexivity|reflexivity]]]]].
  - eapply (h_call ex_root ex_remote ex_empty (ex_world true) ex_m ex_f).
    + apply h_start. intros m f c _ H. discriminate.
    + exact ex_plain.
    + reflexivity.
    + intros pieces [= <-]. reflexivity.
    + vm_compute. reflexivity.
    + right. right. right. left. reflexivity.
  - intros pieces [= <-]. reflexivity.
Qed.

(** Refuted for files found locally: they are copied under the cached name itself.  If the process
    stops after writing only the pieces [a], the incomplete file stays, and every later call
    returns it. *)
Theorem C48_copy_refuted : forall root w m f s c a b,
  file s (cached_name root m f) = None -> file s (join m f) = Some c ->
  w_local w = true -> w_create w = true -> has_dir s (dir_of (cached_name root m f)) = true ->
  w_pieces w = (a ++ b)%list ->
  exists s' t r, cached_path root w m f s = (t, r) /\ In s' t /\ file s' (cached_name root m f) = Some (concat a) /\
    forall w', cached_path root w' m f s' = ([s'], Ok (cached_name root m f)).
Proof. exact copy_crash_piece. Qed.
Print Assumptions C48_copy_refuted.
Example C48_copy_meets : let s := FS [dir_of (cached_name ex_root ex_m ex_f)] [(join ex_m ex_f, [120; 121; 122]%N)] in
  file s (cached_name ex_root ex_m ex_f) = None /\ has_dir s (dir_of (cached_name ex_root ex_m ex_f)) = true /\
  w_pieces (ex_world true) = ([[120]%N] ++ [[121; 122]%N])%list /\
  fs_files (last (fst (cached_path ex_root (ex_world true) ex_m ex_f s)) s)
    = [(join ex_m ex_f, [120; 121; 122]%N); (cached_name ex_root ex_m ex_f, [120; 121; 122]%N)].
Proof. vm_compute. auto. Qed.

(** And if the directory is missing in the cache, a local file is not cached at all: the call
    returns an error although the file exists. *)
Theorem C48_copy_dir_refuted : forall root w m f s c,
  file s (cached_name root m f) = None -> file s (join m f) = Some c ->
  has_dir s (dir_of (cached_name root m f)) = false ->
  cached_path root w m f s = ([s], Err).
Proof. exact copy_no_dir. Qed.
Print Assumptions C48_copy_dir_refuted.
Example C48_copy_dir_meets : file (FS [] [(join ex_m ex_f, [120]%N)]) (join ex_m ex_f) = Some [120]%N /\
  file (FS [] [(join ex_m ex_f, [120]%N)]) (cached_name ex_root ex_m ex_f) = None.
Proof. split; reflexivity. Qed.

(** Refuted for names of temporary files: a broken download leaves its pieces under the name with
    ".tmp", and asking for that name returns them. *)
Theorem C48_tmp_refuted : forall root w m f s pieces,
  file s (cached_name root m f) = None -> file s (join m f) = None ->
  w_probe w = true -> w_create w = true -> (has_dir s (dir_of (cached_name root m f)) = true \/ w_mkdir w = true) ->
  w_reply w = Some (200, pieces, false) ->
  exists t, cached_path root w m f s = (t, Err) /\ let s' := last t s in
    file s' (cached_name root m (f ++ TMP)) = Some (concat pieces) /\
    forall w', cached_path root w' m (f ++ TMP) s' = ([s'], Ok (cached_name root m (f ++ TMP))).
Proof. exact tmp_served. Qed.
Print Assumptions C48_tmp_refuted.
Example C48_tmp_meets : cached_path ex_root (ex_world false) ex_m ex_f ex_empty
  = (fst (cached_path ex_root (ex_world false) ex_m ex_f ex_empty), Err) /\
  file (last (fst (cached_path ex_root (ex_world false) ex_m ex_f ex_empty)) ex_empty) (cached_name ex_root ex_m (ex_f ++ TMP))
   = Some [120; 121; 122]%N.
Proof. split; reflexivity. Qed.

(** A cached name does not identify the file: "a/b" and "c" have the cached name of "a" and "b/c",
    which are different files on the server.  Whichever is fetched first is served for both. *)
Theorem C48_same_name_refuted : forall root a b c s x,
  file s (cached_name root a (join b c)) = Some x ->
  forall w, cached_path root w (join a b) c s = ([s], Ok (cached_name root a (join b c))).
Proof. intros root a b c s x H w. unfold cached_path. rewrite name_collision, H. reflexivity. Qed.
Print Assumptions C48_same_name_refuted.
Example C48_same_name_meets : file (FS [] [(cached_name ex_root [97]%N (join [98]%N ex_f), [120]%N)])
  (cached_name ex_root [97]%N (join [98]%N ex_f)) = Some [120]%N.
Proof. reflexivity. Qed.
