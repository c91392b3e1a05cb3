(** * Errors: UnexpectedNodeType (/repo/src/lib.rs 94-131), the type of a node
    carried by errors. *)
From Coq Require Import Strings.String.
From Verif Require Import Base Wire Cid Pb Reader Dir Walk AdderDebug.

(** UnexpectedNodeType(i32), lib.rs 97; From<UnixFsType>, lib.rs 111-115.  The
    model of the readers carries the type itself in errors; this is what a user
    gets to see of it.  The i32 is one of the six discriminants, hence an N. *)
Definition node_type := N.
Definition node_type_of (t : ftype) : node_type := ftype_num t.

(** is_directory, lib.rs 119-124 *)
Definition nt_is_directory (t : node_type) : bool :=
  match ftype_of t with Directory | HAMTShard => true | _ => false end.
(** is_file, lib.rs 127-129 *)
Definition nt_is_file (t : node_type) : bool :=
  match ftype_of t with File => true | _ => false end.

(** derived Debug of DataType, pb/unixfs.rs 110-118 *)
Definition fmt_type (t : ftype) : bytes :=
  match t with
  | Raw => lit "Raw" | Directory => lit "Directory" | File => lit "File"
  | Metadata => lit "Metadata" | Symlink => lit "Symlink" | HAMTShard => lit "HAMTShard"
  end.
(** Debug, lib.rs 99-109 *)
Definition fmt_node_type (t : node_type) : bytes :=
  match ftype_of t with
  | Raw => if t =? 0 then decimal t ++ lit " or " ++ fmt_type Raw else decimal t ++ lit " or <unknown>"
  | c => decimal t ++ lit " or " ++ fmt_type c
  end.

(** [From] on pb types by name, pb/unixfs.rs 139-150 *)
Definition ftype_of_name (s : bytes) : ftype :=
  if bytes_eqb s (lit "Raw") then Raw
  else if bytes_eqb s (lit "Directory") then Directory
  else if bytes_eqb s (lit "File") then File
  else if bytes_eqb s (lit "Metadata") then Metadata
  else if bytes_eqb s (lit "Symlink") then Symlink
  else if bytes_eqb s (lit "HAMTShard") then HAMTShard
  else Raw.
