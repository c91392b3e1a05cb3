(** * Causes: std::error::Error::source of the errors
    (/repo/src/{lib,pb,file,dir,walk}.rs, /repo/src/dir/{sharded_lookup,builder}.rs).
    Sources beyond the errors of quick_protobuf and cid are not modelled. *)
From Coq Require Import Strings.String.
From Coq Require Import Init.Byte.
From Verif Require Import Base Wire Cid Pb Parsed Reader Visit Dir Builder Walk Errors AdderDebug Output Messages.

(** what a source is: an error of quick_protobuf, the error on decoding bytes to
    a Cid, an InvalidCidInLink *)
Inductive cause :=
| ByProtobuf (e : perr)
| ByCid (hash : bytes)
| ByLink (e : invalid_cid).

(** lib.rs 89-93 *)
Definition invalid_cid_source (e : invalid_cid) : option cause := Some (ByCid (ic_hash e)).
(** pb.rs 41-51 *)
Definition parse_failed_source (e : parse_failed) : option cause :=
  match e with
  | InvalidDagPb e => Some (ByProtobuf e)
  | InvalidUnixFs e _ => Some (ByProtobuf e)
  | NoData _ => None
  end.
(** file.rs 49-58 *)
Definition read_failed_source (e : read_failed) : option cause :=
  match e with
  | InvalidCid e => Some (ByLink e)
  | ReadErr (Some e) => Some (ByProtobuf e)
  | _ => None
  end.
(** sharded_lookup.rs 326-334 *)
Definition lookup_error_source (e : lookup_error) : option cause :=
  match e with
  | LRead (Some e) => Some (ByProtobuf e)
  | _ => None
  end.
(** dir.rs 131-140 *)
Definition resolve_error_source (e : resolve_error) : option cause :=
  match e with
  | RRead e => Some (ByProtobuf e)
  | RLookup (LRead (Some e)) => Some (ByProtobuf e)
  | _ => None
  end.
(** walk.rs 728; also file.rs 140, sharded_lookup.rs 265, builder.rs 125 and 148:
    the default, no source *)
Definition walk_error_source (e : walk_error) : option cause := None.

(** Display of a source *)
Definition cause_text (F : foreign) (c : cause) : bytes :=
  match c with
  | ByProtobuf e => t_protobuf F e
  | ByCid hash => t_cid_error F hash
  | ByLink e => invalid_cid_text F e
  end.
