(** Specification side of C48. *)
From Verif Require Import Base FileCacheModel.
Open Scope Z_scope.

Section Cache.
  (** The cache directory, and the files the server has: [remote m f]. *)
  Context (root : str) (remote : str -> str -> option str).

  (** Names of temporary files are not asked for. *)
  Definition plain_name (f : str) : Prop := forall x, f <> (x ++ TMP)%list.

  (** [c] is the complete content of a file that is cached under the name [p]. *)
  Definition complete (p c : str) : Prop := exists m f, cached_name root m f = p /\ remote m f = Some c.

  (** A body that ends normally is the file. *)
  Definition honest (w : world) (m f : str) : Prop :=
    forall pieces, w_reply w = Some (200, pieces, true) -> remote m f = Some (concat pieces).

  (** States of the disk after calls of CachedPath for files that are not found locally, each of
      which may stop at any point. *)
  Inductive history : fs -> Prop :=
  | h_start s : (forall m f c, plain_name f -> file s (cached_name root m f) = Some c -> complete (cached_name root m f) c) ->
      history s
  | h_call s w m f t r s' : history s -> plain_name f -> file s (join m f) = None -> honest w m f ->
      cached_path root w m f s = (t, r) -> In s' t -> history s'.
End Cache.
