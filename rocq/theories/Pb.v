(** * Pb: model of /repo/src/pb.rs, /repo/src/pb/merkledag.rs,
    /repo/src/pb/unixfs.rs and /repo/src/dir/builder/custom_pb.rs. *)
From Verif Require Import Base Wire Utf8 Cid.

(** ** Messages *)

(** pb/merkledag.rs 18-23.  [Name] is a [str]: a byte string valid as UTF-8. *)
Record pblink := PBLink { l_hash : option bytes; l_name : option bytes; l_tsize : option N }.

(** pb/merkledag.rs 62-66.  The parsed [Data] is a borrowed slice of the block;
    it is modelled with its offset in the block because /repo/src/dagpb.rs
    looks at the address of the slice. *)
Record pbnode := PBNode { n_links : list pblink; n_data : option (N * bytes) }.

(** pb/unixfs.rs 112-120 *)
Inductive ftype := Raw | Directory | File | Metadata | Symlink | HAMTShard.

(** pb/unixfs.rs 161-165; [Seconds : i64] *)
Record unixtime := UnixTime { t_secs : Z; t_nanos : option N }.

(** pb/unixfs.rs 18-28 *)
Record unixfs := UnixFs {
  u_type : ftype;
  u_data : option bytes;
  u_filesize : option N;
  u_blocksizes : list N;
  u_hashtype : option N;
  u_fanout : option N;
  u_mode : option N;
  u_mtime : option unixtime
}.

(** pb.rs 86-89 *)
Record flat := Flat { f_links : list pblink; f_data : unixfs }.

(** ** Enum and two's complement conversions *)

(** [as i32] of the discriminants, unixfs.rs 112-120 *)
Definition ftype_num (t : ftype) : N :=
  match t with
  | Raw => 0 | Directory => 1 | File => 2 | Metadata => 3 | Symlink => 4 | HAMTShard => 5
  end.

(** [From<i32>], unixfs.rs 126-138, applied to the bits of a varint32:
    anything but 0..5 becomes the default, [Raw]. *)
Definition ftype_of (n : N) : ftype :=
  match n with
  | 0 => Raw | 1 => Directory | 2 => File | 3 => Metadata | 4 => Symlink | 5 => HAMTShard
  | _ => Raw
  end.

(** i64 as u64 and back *)
Definition u64_of_i64 (z : Z) : N := Z.to_N (z mod 18446744073709551616)%Z.
Definition i64_of_u64 (n : N) : Z :=
  if n <? two63 then Z.of_N n else (Z.of_N n - 18446744073709551616)%Z.

(** ** Parsing *)

Section parse.
Context (dbg : bool) (b : bytes).

(** setters for the generated [msg.Field = ..] *)
Definition set_hash (m : pblink) v := PBLink (Some v) (l_name m) (l_tsize m).
Definition set_name (m : pblink) v := PBLink (l_hash m) (Some v) (l_tsize m).
Definition set_tsize (m : pblink) v := PBLink (l_hash m) (l_name m) (Some v).

(** PBLink::from_reader, merkledag.rs 25-39 *)
Definition pblink_step (t : N) (m : pblink) (r : reader) : pres pblink :=
  match t with
  | 10 => do (r1, v) <- read_bytes dbg b r; Ok (r1, set_hash m v)
  | 18 => do (r1, v) <- read_string dbg b utf8_valid r; Ok (r1, set_name m v)
  | 24 => do (r1, v) <- read_varint64 b r; Ok (r1, set_tsize m v)
  | _ => unknown dbg b t m r
  end.
Definition pblink_default := PBLink None None None.

(** PBNode::from_reader, merkledag.rs 67-81 *)
Definition pbnode_step (t : N) (m : pbnode) (r : reader) : pres pbnode :=
  match t with
  | 18 => do (r1, l) <- read_message dbg b pblink_step pblink_default r;
          Ok (r1, PBNode (n_links m ++ [l]) (n_data m))
  | 10 => do (r1, s) <- read_slice dbg b r; Ok (r1, PBNode (n_links m) (Some s))
  | _ => unknown dbg b t m r
  end.
Definition pbnode_default := PBNode [] None.

(** UnixTime::from_reader, unixfs.rs 166-181 *)
Definition unixtime_step (t : N) (m : unixtime) (r : reader) : pres unixtime :=
  match t with
  | 8 => do (r1, v) <- read_varint64 b r; Ok (r1, UnixTime (i64_of_u64 v) (t_nanos m))
  | 21 => do (r1, v) <- read_fixed32 dbg b r; Ok (r1, UnixTime (t_secs m) (Some v))
  | _ => unknown dbg b t m r
  end.
Definition unixtime_default := UnixTime 0 None.

(** Data::from_reader, unixfs.rs 29-51.
    read_enum = From<i32>(read_varint32 as i32); read_uint32 = read_varint32. *)
Definition unixfs_step (t : N) (m : unixfs) (r : reader) : pres unixfs :=
  let '(UnixFs ty da fs bs ht fa mo mt) := m in
  match t with
  | 8 => do (r1, v) <- read_varint32 b r; Ok (r1, UnixFs (ftype_of v) da fs bs ht fa mo mt)
  | 18 => do (r1, v) <- read_bytes dbg b r; Ok (r1, UnixFs ty (Some v) fs bs ht fa mo mt)
  | 24 => do (r1, v) <- read_varint64 b r; Ok (r1, UnixFs ty da (Some v) bs ht fa mo mt)
  | 32 => do (r1, v) <- read_varint64 b r; Ok (r1, UnixFs ty da fs (bs ++ [v]) ht fa mo mt)
  | 40 => do (r1, v) <- read_varint64 b r; Ok (r1, UnixFs ty da fs bs (Some v) fa mo mt)
  | 48 => do (r1, v) <- read_varint64 b r; Ok (r1, UnixFs ty da fs bs ht (Some v) mo mt)
  | 56 => do (r1, v) <- read_varint32 b r; Ok (r1, UnixFs ty da fs bs ht fa (Some v) mt)
  | 66 => do (r1, v) <- read_message dbg b unixtime_step unixtime_default r;
          Ok (r1, UnixFs ty da fs bs ht fa mo (Some v))
  | _ => unknown dbg b t m r
  end.
Definition unixfs_default := UnixFs Raw None None [] None None None None.

(** BytesReader::from_bytes *)
Definition whole : reader := Reader 0 (blen b).

(** TryFrom<&[u8]> for PBNode, pb.rs 75-82 *)
Definition pbnode_parse : outcome perr pbnode :=
  do (_, m) <- from_reader b pbnode_step pbnode_default whole; Ok m.

(** TryFrom<Option<&[u8]>> for Data, pb.rs 62-72 *)
Definition unixfs_parse : outcome perr unixfs :=
  do (_, m) <- from_reader b unixfs_step unixfs_default whole; Ok m.

End parse.

(** pb.rs 19-24 *)
Inductive parse_failed :=
| InvalidDagPb (e : perr)
| NoData (n : pbnode)
| InvalidUnixFs (e : perr) (n : pbnode).

(** FlatUnixFs::try_parse / TryFrom<&[u8]>, pb.rs 117-143 *)
Definition try_parse (dbg : bool) (block : bytes) : outcome parse_failed flat :=
  do node <- map_err InvalidDagPb (pbnode_parse dbg block);
  match n_data node with
  | Some (_, x :: xs) =>
      do d <- map_err (fun e => InvalidUnixFs e node) (unixfs_parse dbg (x :: xs));
      Ok (Flat (n_links node) d)
  | Some (_, []) | None => Err (NoData node)
  end.

(** TryFrom<Option<&[u8]>> for Data, pb.rs 62-73: nothing is read as no bytes *)
Definition unixfs_of_data (dbg : bool) (data : option bytes) : outcome perr unixfs :=
  unixfs_parse dbg (match data with Some d => d | None => [] end).

(** TryFrom<&PBNode> for Data, pb.rs 53-60 *)
Definition unixfs_of_node (dbg : bool) (n : pbnode) : outcome perr unixfs :=
  unixfs_of_data dbg (option_map snd (n_data n)).

(** ** Writing *)

Definition opt {A B} (o : option A) (d : B) (f : A -> B) : B :=
  match o with Some a => f a | None => d end.

(** PBLink::get_size, merkledag.rs 41-48 *)
Definition pblink_size (m : pblink) : N :=
  opt (l_hash m) 0 (fun h => 1 + sizeof_len (blen h))
  + opt (l_name m) 0 (fun h => 1 + sizeof_len (blen h))
  + opt (l_tsize m) 0 (fun v => 1 + sizeof_varint v).

(** PBLink::write_message, merkledag.rs 49-60 *)
Definition pblink_write (m : pblink) : bytes :=
  opt (l_hash m) [] (fun h => write_with_tag 10 (write_bytes h))
  ++ opt (l_name m) [] (fun h => write_with_tag 18 (write_bytes h))
  ++ opt (l_tsize m) [] (fun v => write_with_tag 24 (write_varint v)).

(** PBNode::get_size, merkledag.rs 83-90 (the offset of [Data] is irrelevant) *)
Definition pbnode_size (m : pbnode) : N :=
  sumN (map (fun l => 1 + sizeof_len (pblink_size l)) (n_links m))
  + opt (n_data m) 0 (fun s => 1 + sizeof_len (blen (snd s))).

(** PBNode::write_message, merkledag.rs 91-99 *)
Definition pbnode_write (m : pbnode) : bytes :=
  concat (map (fun l => write_with_tag 18 (write_message (pblink_size l) (pblink_write l))) (n_links m))
  ++ opt (n_data m) [] (fun s => write_with_tag 10 (write_bytes (snd s))).

(** UnixTime::get_size, unixfs.rs 183-187 *)
Definition unixtime_size (m : unixtime) : N :=
  1 + sizeof_varint (u64_of_i64 (t_secs m)) + opt (t_nanos m) 0 (fun _ => 1 + 4).

(** UnixTime::write_message, unixfs.rs 188-194 *)
Definition unixtime_write (m : unixtime) : bytes :=
  write_with_tag 8 (write_varint (u64_of_i64 (t_secs m)))
  ++ opt (t_nanos m) [] (fun v => write_with_tag 21 (write_fixed32 v)).

(** Data::get_size, unixfs.rs 53-82 *)
Definition unixfs_size (m : unixfs) : N :=
  1 + sizeof_varint (ftype_num (u_type m))
  + opt (u_data m) 0 (fun d => 1 + sizeof_len (blen d))
  + opt (u_filesize m) 0 (fun v => 1 + sizeof_varint v)
  + sumN (map (fun v => 1 + sizeof_varint v) (u_blocksizes m))
  + opt (u_hashtype m) 0 (fun v => 1 + sizeof_varint v)
  + opt (u_fanout m) 0 (fun v => 1 + sizeof_varint v)
  + opt (u_mode m) 0 (fun v => 1 + sizeof_varint v)
  + opt (u_mtime m) 0 (fun t => 1 + sizeof_len (unixtime_size t)).

(** Data::write_message, unixfs.rs 83-108 *)
Definition unixfs_write (m : unixfs) : bytes :=
  write_with_tag 8 (write_varint (ftype_num (u_type m)))
  ++ opt (u_data m) [] (fun d => write_with_tag 18 (write_bytes d))
  ++ opt (u_filesize m) [] (fun v => write_with_tag 24 (write_varint v))
  ++ concat (map (fun v => write_with_tag 32 (write_varint v)) (u_blocksizes m))
  ++ opt (u_hashtype m) [] (fun v => write_with_tag 40 (write_varint v))
  ++ opt (u_fanout m) [] (fun v => write_with_tag 48 (write_varint v))
  ++ opt (u_mode m) [] (fun v => write_with_tag 56 (write_varint v))
  ++ opt (u_mtime m) [] (fun t => write_with_tag 66 (write_message (unixtime_size t) (unixtime_write t))).

(** FlatUnixFs::get_size, pb.rs 92-103 *)
Definition flat_size (m : flat) : N :=
  sumN (map (fun l => 1 + sizeof_len (pblink_size l)) (f_links m))
  + (1 + sizeof_len (unixfs_size (f_data m))).

(** FlatUnixFs::write_message, pb.rs 105-117 *)
Definition flat_write (m : flat) : bytes :=
  concat (map (fun l => write_with_tag 18 (write_message (pblink_size l) (pblink_write l))) (f_links m))
  ++ write_with_tag 10 (write_message (unixfs_size (f_data m)) (unixfs_write (f_data m))).

(** ** The directory node of the tree builder: dir/builder/custom_pb.rs *)

(** NamedLeaf, /repo/src/dir/builder.rs 41: name, cid, total size *)
Definition named_leaf : Type := bytes * cid * N.

(** WriteableCid::get_size, custom_pb.rs 72-85 *)
Definition wcid_size (c : cid) : N :=
  let hash_len := blen (mh_bytes c) in
  if cid_v1 c then 1 + sizeof_varint (cid_codec c) + hash_len else hash_len.

(** WriteableCid::write_message, custom_pb.rs 87-105 *)
Definition wcid_write (c : cid) : bytes :=
  (if cid_v1 c then [n2b 1] ++ write_varint (cid_codec c) else []) ++ mh_bytes c.

(** NamedLeafAsPBLink::get_size, custom_pb.rs 46-56 *)
Definition leaf_size (l : named_leaf) : N :=
  let '(name, c, ts) := l in
  1 + sizeof_len (blen name) + 1 + sizeof_len (wcid_size c) + 1 + sizeof_varint ts.

(** NamedLeafAsPBLink::write_message, custom_pb.rs 58-64 *)
Definition leaf_write (l : named_leaf) : bytes :=
  let '(name, c, ts) := l in
  write_with_tag 10 (write_message (wcid_size c) (wcid_write c))
  ++ write_with_tag 18 (write_bytes name)
  ++ write_with_tag 24 (write_varint ts).

(** CustomFlatUnixFs::mapped, custom_pb.rs 15-19: [unwrap] of every slot *)
Fixpoint custom_mapped {E} (links : list (option named_leaf)) : outcome E (list named_leaf) :=
  match links with
  | [] => Ok []
  | None :: _ => Panic
  | Some l :: rest => do r <- custom_mapped rest; Ok (l :: r)
  end.

(** CustomFlatUnixFs::get_size, custom_pb.rs 23-32 *)
Definition custom_size (links : list named_leaf) (d : unixfs) : N :=
  sumN (map (fun l => 1 + sizeof_len (leaf_size l)) links) + 1 + sizeof_len (unixfs_size d).

(** CustomFlatUnixFs::write_message, custom_pb.rs 34-38 *)
Definition custom_write (links : list named_leaf) (d : unixfs) : bytes :=
  concat (map (fun l => write_with_tag 18 (write_message (leaf_size l) (leaf_write l))) links)
  ++ write_with_tag 10 (write_message (unixfs_size d) (unixfs_write d)).
