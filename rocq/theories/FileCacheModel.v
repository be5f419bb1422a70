(** Model of the file cache, /repo/file-util.go (CachedPath 47-91, downloadFile 103-166,
    copyFile 213-236). *)
From Verif Require Import Base.
Open Scope Z_scope.

(** The files (path and content) and the directories.  Simplification: paths are compared as
    texts, without path.Clean or links, and a crash is one of the process: what has been
    written stays. *)
Record fs := FS { fs_dirs : list str; fs_files : list (str * str) }.

Definition file (s : fs) (p : str) : option str := aget str_eqb p (fs_files s).
Definition put_file (p c : str) (s : fs) : fs := FS (fs_dirs s) (aset str_eqb p c (fs_files s)).
Definition has_dir (s : fs) (d : str) : bool := existsb (str_eqb d) (fs_dirs s).
Definition add_dir (d : str) (s : fs) : fs := FS (d :: fs_dirs s) (fs_files s).
Definition remove_file (p : str) (s : fs) : fs :=
  FS (fs_dirs s) (filter (fun e => negb (str_eqb p (fst e))) (fs_files s)).

Definition SLASH : N := 47%N.
(** fmt.Sprintf of a/b. *)
Definition join (a b : str) : str := (a ++ SLASH :: b)%list.

(** path.Dir: what stands before the last slash. *)
Fixpoint dir_of (p : str) : str :=
  match p with
  | [] => []
  | c :: p' => if existsb (N.eqb SLASH) p' then c :: dir_of p' else if N.eqb c SLASH then [] else c :: dir_of p'
  end.

(** What the surroundings do during a call: the first http.Get (76), MkdirAll, Create,
    the second http.Get with its status, the pieces of the body in the order in which they are
    written and whether the body ended without an error, Rename; the pieces of a local file. *)
Record world := World {
  w_probe : bool; w_mkdir : bool; w_create : bool;
  w_reply : option (Z * list str * bool); w_rename : bool;
  w_local : bool; w_pieces : list str; w_copied : bool }.

(** The result of a call: the states after each step, the first one being the state at the
    start, and what is returned. *)
Definition trace := (list fs * res str)%type.

(** io.Copy to an open file: every piece is appended. *)
Fixpoint append_all (p : str) (pieces : list str) (s : fs) : list fs :=
  match pieces with
  | [] => []
  | x :: pieces' =>
      let s' := put_file p (match file s p with Some c => c | None => [] end ++ x)%list s in
      s' :: append_all p pieces' s'
  end.

Definition TMP : str := [46; 116; 109; 112]%N.

(** downloadFile, file-util.go:103-166.  Simplifications: no other process touches the file; a
    body that ends without an error is the whole body. *)
Definition download (w : world) (p : str) (s : fs) : trace :=
  let d := dir_of p in
  if negb (has_dir s d) && negb (w_mkdir w) then ([s], Fatal)
  else
    let s1 := if has_dir s d then s else add_dir d s in
    if negb (w_create w) then ([s; s1], Err)
    else
      let tmp := (p ++ TMP)%list in
      let s2 := put_file tmp [] s1 in
      match w_reply w with
      | None => ([s; s1; s2], Err)
      | Some (status, pieces, ended) =>
          if negb (status =? 200) then ([s; s1; s2], Err)
          else
            let mid := append_all tmp pieces s2 in
            let s3 := last mid s2 in
            if negb ended then (s :: s1 :: s2 :: mid, Err)
            else if negb (w_rename w) then (s :: s1 :: s2 :: mid, Err)
            else
              let s4 := put_file p (match file s3 tmp with Some c => c | None => [] end) (remove_file tmp s3) in
              (s :: s1 :: s2 :: mid ++ [s4], Ok p)%list
      end.

(** copyFile, file-util.go:213-236.  os.Create fails if the directory is missing. *)
Definition copy_file (w : world) (src dst : str) (s : fs) : trace :=
  if negb (w_local w) then ([s], Err)
  else if negb (w_create w && has_dir s (dir_of dst)) then ([s], Err)
  else
    let s1 := put_file dst [] s in
    let mid := append_all dst (w_pieces w) s1 in
    (s :: s1 :: mid, if w_copied w then Ok dst else Err)%list.

Section Cached.
  (** The cache directory. *)
  Context (root : str).

  (** file-util.go:54. *)
  Definition cached_name (m f : str) : str := join root (join m f).

  (** CachedPath, file-util.go:47-91.  Simplification: os.Stat succeeds exactly for files. *)
  Definition cached_path (w : world) (m f : str) (s : fs) : trace :=
    match file s (cached_name m f) with
    | Some _ => ([s], Ok (cached_name m f))
    | None =>
        match file s (join m f) with
        | Some _ => copy_file w (join m f) (cached_name m f) s
        | None => if w_probe w then download w (cached_name m f) s else ([s], Err)
        end
    end.
End Cached.
