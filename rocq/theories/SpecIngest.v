(** * SpecIngest: archives and the trees that are to be made of them,
    independently of the program.  From Ingest.v only the type of the entries is
    used. *)
From Verif Require Import Base Wire Utf8 Cid Pb Reader Builder Adder SpecAdder SpecBuilder SpecWalk SpecPrograms Ingest.

(** what is in an archive: files, symbolic links (hard links count as such)
    and folders *)
Inductive archived :=
| Regular (path content : bytes)
| Linked (path target : bytes)
| Folder (path : bytes).
Definition archived_at (a : archived) : bytes :=
  match a with Regular p _ => p | Linked p _ => p | Folder p => p end.
Definition is_folder (a : archived) : Prop := match a with Folder _ => True | _ => False end.

(** [entry_of e a]: [e] is the entry for [a].  The paths of folders end in a
    slash.  The reads of a file give its content in any pieces, of at most 256
    KiB, and then nothing more. *)
Inductive entry_of : tar_entry -> archived -> Prop :=
| of_file : forall path pieces rest, ~ ends_in_slash path ->
    Forall (fun p => 1 <= blen p <= 262144) pieces -> (rest = [] \/ exists more, rest = Some [] :: more) ->
    entry_of (TarEntry path None (map Some pieces ++ rest)) (Regular path (concat pieces))
| of_link : forall path target reads, entry_of (TarEntry path (Some target) reads) (Linked path target)
| of_folder : forall path reads, entry_of (TarEntry (path ++ [x2f]) None reads) (Folder path).

(** text, and not too large *)
Definition sensible (a : archived) : Prop :=
  utf8_valid (archived_at a) = true
  /\ match a with
     | Regular _ content => blen content <= max_content
     | Linked _ target => utf8_valid target = true /\ blen target < 2 ^ 31
     | Folder _ => True
     end.

(** no path is rooted, ends in a slash or has an empty part, no two files or
    links have the same path, and nothing is below one *)
Definition leaves_room (a a' : archived) : Prop :=
  forall names rest, segments (archived_at a) names -> segments (archived_at a') (names ++ rest) -> is_folder a.
Definition consistent (arch : list archived) : Prop :=
  Forall (fun a => well_formed (archived_at a)) arch
  /\ ForallOrdPairs (fun a a' => leaves_room a a' /\ leaves_room a' a) arch.

(** what is at a path *)
Inductive member := MFile (content : bytes) | MLink (target : bytes) | MFolder.
Inductive has (arch : list archived) : list bytes -> member -> Prop :=
| has_file : forall path content names, In (Regular path content) arch -> segments path names -> has arch names (MFile content)
| has_link : forall path target names, In (Linked path target) arch -> segments path names -> has arch names (MLink target)
| has_top : has arch [] MFolder
| has_folder : forall path names, In (Folder path) arch -> segments path names -> has arch names MFolder
| has_parent : forall a names n rest, In a arch -> segments (archived_at a) (names ++ n :: rest) -> has arch names MFolder.
Section calls.
Context (X : ext).

(** the blocks for a file or a link *)
Definition symlink_block (target : bytes) : bytes :=
  flat_write (Flat [] (UnixFs Symlink (Some target) None [] None None None None)).
Definition blocks_for (a : archived) (kbs : list (cid * bytes)) : Prop :=
  match a with
  | Regular _ content => exists r, canonical 262144 174 content r /\ kbs = tree_blocks X r
  | Linked _ target => kbs = [(block_cid X (symlink_block target), symlink_block target)]
  | Folder _ => kbs = []
  end.

(** the same in a tree, without any metadata; files and links have the Cid of the
    last of their blocks *)
Definition is_member (c : cid) (n : fsnode) (m : member) : Prop :=
  match m with
  | MFile content => n = FsFile (MData None None) content
      /\ exists r, canonical 262144 174 content r /\ c = block_cid X (block X r)
  | MLink target => n = FsSymlink (MData None None) target /\ c = block_cid X (symlink_block target)
  | MFolder => exists es, n = FsDir (MData None None) es
  end.

(** the call that adds [a] to a tree: links lead to the last one of the blocks,
    and tell the size of all of them *)
Definition call_for (a : archived) (k : call) : Prop :=
  exists kbs, blocks_for a kbs /\
  match a with
  | Folder path => k = SetMetadata path (MData None None)
  | _ => exists before root, kbs = before ++ [root] /\ k = Put (archived_at a) (fst root) (all_bytes (map snd kbs))
  end.

(** the iterator over the tree returns no error, and [node] last *)
Definition finally (b : builder) (node : tree_node) : Prop :=
  succeeds X b /\ exists n before, results X n (build b) = before ++ [Ok (Some node); Ok None].
End calls.
