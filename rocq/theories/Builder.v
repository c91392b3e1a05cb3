(** * Builder: the directory tree builder.

    Models /repo/src/dir/builder.rs (150 lines), builder/dir_builder.rs (78),
    builder/buffered.rs 1-175 and builder/iter.rs (467).  [String]/[&str] are
    byte strings (of valid UTF-8, see the theorems), [BTreeMap<String, _>] is a
    list with strictly increasing keys in byte order, [HashMap<u64, _>] an
    association list.  Ids and depths are unbounded here (u64/usize in the
    code: they count nodes that are in memory). *)
From Verif Require Import Base Wire Utf8 Cid Pb Reader.

(** ** Errors: builder.rs 83-99 and 126-133 *)
Inductive build_error :=
| RootedPath (s : bytes)
| RepeatSlashesInPath (s : bytes)
| PathEndsInSlash (s : bytes)
| TooManyRootLevelEntries
| DuplicatePath (s : bytes)
| LeafAsDirectory (s : bytes).

Inductive construct_error :=
| ProtobufError
| TooLargeBlock (size : N).

(** TreeOptions, builder.rs 54-80 *)
Record tree_options := TreeOptions { block_size_limit : option N; wrap_with_directory : bool }.
Definition default_options : tree_options := TreeOptions (Some (512 * 1024)) false.

(** ** Strings *)
Definition slash : byte := x2f.

(** [str::split('/')] *)
Fixpoint split_slash (p : bytes) : list bytes :=
  match p with
  | [] => [[]]
  | x :: p' =>
    if byte_eqb x slash then [] :: split_slash p'
    else match split_slash p' with s :: r => (x :: s) :: r | [] => [[x]] end
  end.

(** [str::ends_with('/')] *)
Fixpoint ends_with_slash (p : bytes) : bool :=
  match p with
  | [] => false
  | [x] => byte_eqb x slash
  | _ :: p' => ends_with_slash p'
  end.

(** [str::contains("//")] *)
Fixpoint contains_slashes (p : bytes) : bool :=
  match p with
  | x :: (y :: _) as p' => (byte_eqb x slash && byte_eqb y slash) || contains_slashes p'
  | _ => false
  end.

(** [Ord for String]: lexicographic by bytes *)
Fixpoint bytes_compare (a b : bytes) : comparison :=
  match a, b with
  | [], [] => Eq
  | [], _ :: _ => Lt
  | _ :: _, [] => Gt
  | x :: a', y :: b' => match b2n x ?= b2n y with Eq => bytes_compare a' b' | c => c end
  end.

(** ** BTreeMap *)
Section BTreeMap.
  Context {V : Type}.
  Fixpoint bt_get (k : bytes) (m : list (bytes * V)) : option V :=
    match m with
    | [] => None
    | (k', v) :: m' => match bytes_compare k k' with Lt => None | Eq => Some v | Gt => bt_get k m' end
    end.
  Fixpoint bt_insert (k : bytes) (v : V) (m : list (bytes * V)) : list (bytes * V) :=
    match m with
    | [] => [(k, v)]
    | (k', v') :: m' =>
      match bytes_compare k k' with
      | Lt => (k, v) :: m
      | Eq => (k', v) :: m'
      | Gt => (k', v') :: bt_insert k v m'
      end
    end.
End BTreeMap.

(** ** DirBuilder *)

(** Entry and Leaf, builder.rs 17-46 *)
Inductive entry (D : Type) :=
| ELeaf (link : cid) (total_size : N)
| EDir (d : D).
Arguments ELeaf {D}.
Arguments EDir {D}.

(** DirBuilder, dir_builder.rs 10-21 *)
Inductive dirb := DirB {
  d_nodes : list (bytes * entry dirb);
  d_metadata : metadata;
  d_parent : option N;
  d_id : N
}.

Definition with_nodes (d : dirb) (ns : list (bytes * entry dirb)) : dirb :=
  DirB ns (d_metadata d) (d_parent d) (d_id d).

Definition no_metadata_set : metadata := MData None None.

(** DirBuilder::new, dir_builder.rs 24-32 *)
Definition dirb_new {E} (parent_id id : N) : outcome E dirb :=
  if parent_id =? id then Panic else Ok (DirB [] no_metadata_set (Some parent_id) id).
(** DirBuilder::root, dir_builder.rs 34-41 *)
Definition dirb_root (id : N) : dirb := DirB [] no_metadata_set None id.
(** DirBuilder::is_empty, dir_builder.rs 67-73 *)
Definition dirb_is_empty (d : dirb) : bool := match d_nodes d with [] => true | _ => false end.

(** The closures given to modify_with take the directory, the last segment and
    the next free id, and return the changed directory and id with the result. *)
Definition modifier : Type := dirb -> bytes -> option N -> outcome build_error unit * dirb * option N.

(** put_link's closure, buffered.rs 49-53, with DirBuilder::put_leaf,
    dir_builder.rs 43-51 *)
Definition put_leaf (full_path : bytes) (target : cid) (total_size : N) : modifier :=
  fun d key next_id =>
    match bt_get key (d_nodes d) with
    | Some _ => (Err (DuplicatePath full_path), d, next_id)
    | None => (Ok tt, with_nodes d (bt_insert key (ELeaf target total_size) (d_nodes d)), next_id)
    end.

(** set_metadata's closure, buffered.rs 66-72, with DirBuilder::add_or_get_node
    and ::set_metadata, dir_builder.rs 53-65 and 75-77 *)
Definition put_metadata (full_path : bytes) (md : metadata) : modifier :=
  fun d key next_id =>
    match bt_get key (d_nodes d) with
    | Some (EDir sub) =>
      (Ok tt, with_nodes d (bt_insert key (EDir (DirB (d_nodes sub) md (d_parent sub) (d_id sub))) (d_nodes d)), next_id)
    | Some (ELeaf _ _) => (Err (LeafAsDirectory full_path), d, next_id)
    | None =>
      match next_id with
      | None => (Panic, d, next_id)
      | Some id =>
        match dirb_new (d_id d) id with
        | Ok sub => (Ok tt, with_nodes d (bt_insert key (EDir (DirB (d_nodes sub) md (d_parent sub) (d_id sub))) (d_nodes d)), None)
        | Err e => (Err e, d, None)
        | Panic => (Panic, d, None)
        | Diverge => (Diverge, d, None)
        end
      end
    end.

(** the checks on one segment, buffered.rs 106-121 *)
Definition check_segment (full_path : bytes) (depth : nat) (next : bytes) (last : bool) : outcome build_error unit :=
  match depth, next, last with
  | O, [], true => Ok tt
  | O, [], false => Err (RootedPath full_path)
  | _, [], _ => Panic
  | _, _, _ => Ok tt
  end.

(** the loop of modify_with, buffered.rs 103-163; the recursion returns the
    changed directory to the place it was borrowed from *)
Fixpoint modify_loop (wrap : bool) (full_path : bytes) (f : modifier)
    (remaining : list bytes) (depth : nat) (d : dirb) (counter : N)
    : outcome build_error unit * dirb * N :=
  match remaining with
  | [] => (Panic, d, counter)
  | next :: rest =>
    let last := match rest with [] => true | _ => false end in
    match check_segment full_path depth next last with
    | Ok tt =>
      let full := match depth with O => negb wrap && negb (dirb_is_empty d) | _ => false end in
      if last then
        let '(ret, d', next_id) :=
          if full then (Err TooManyRootLevelEntries, d, Some counter)
          else f d next (Some counter) in
        (ret, d', match next_id with None => counter + 1 | Some _ => counter end)
      else
        match bt_get next (d_nodes d) with
        | Some (EDir sub) =>
          let '(ret, sub', counter') := modify_loop wrap full_path f rest (S depth) sub counter in
          (ret, with_nodes d (bt_insert next (EDir sub') (d_nodes d)), counter')
        | Some (ELeaf _ _) => (Err (LeafAsDirectory full_path), d, counter)
        | None =>
          if full then (Err TooManyRootLevelEntries, d, counter)
          else
            match dirb_new (d_id d) counter with
            | Ok sub =>
              let '(ret, sub', counter') := modify_loop wrap full_path f rest (S depth) sub (counter + 1) in
              (ret, with_nodes d (bt_insert next (EDir sub') (d_nodes d)), counter')
            | Err e => (Err e, d, counter + 1)
            | Panic => (Panic, d, counter + 1)
            | Diverge => (Diverge, d, counter + 1)
            end
        end
    | Err e => (Err e, d, counter)
    | Panic => (Panic, d, counter)
    | Diverge => (Diverge, d, counter)
    end
  end.

(** ** BufferingTreeBuilder, buffered.rs 7-18 *)
Record builder := Builder {
  b_root : dirb;
  b_longest_path : N;
  b_counter : N;
  b_opts : tree_options
}.

(** BufferingTreeBuilder::new, buffered.rs 28-35 *)
Definition builder_new (opts : tree_options) : builder := Builder (dirb_root 0) 0 1 opts.

(** modify_with, buffered.rs 76-169 *)
Definition modify_with (b : builder) (full_path : bytes) (f : modifier) : outcome build_error unit * builder :=
  let longest := N.max (blen full_path) (b_longest_path b) in
  let keep := Builder (b_root b) longest (b_counter b) (b_opts b) in
  if ends_with_slash full_path then (Err (PathEndsInSlash full_path), keep)
  else if contains_slashes full_path then (Err (RepeatSlashesInPath full_path), keep)
  else
    let '(ret, root, counter) :=
      modify_loop (wrap_with_directory (b_opts b)) full_path f (split_slash full_path) 0 (b_root b) (b_counter b) in
    (ret, Builder root longest counter (b_opts b)).

(** put_link, buffered.rs 40-54 *)
Definition put_link (b : builder) (full_path : bytes) (target : cid) (total_size : N) : outcome build_error unit * builder :=
  modify_with b full_path (put_leaf full_path target total_size).

(** set_metadata, buffered.rs 58-74 *)
Definition set_metadata (b : builder) (full_path : bytes) (md : metadata) : outcome build_error unit * builder :=
  modify_with b full_path (put_metadata full_path md).

(** ** PostOrderIterator *)

(** iter.rs 35 *)
Definition leaves : Type := list (option named_leaf).

(** LeafStorage, iter.rs 437-441 *)
Inductive leaf_storage := Direct (l : leaves) | Stashed (id : N).

(** Visited, iter.rs 42-65 *)
Inductive visited :=
| DescentRoot (node : dirb)
| Descent (node : dirb) (name : bytes) (depth index : nat)
| Post (parent_id : N) (depth : nat) (name : bytes) (index : nat) (ls : leaf_storage)
| PostRoot (ls : leaf_storage).

(** HashMap<u64, Leaves> *)
Definition stash : Type := list (N * leaves).
Definition stash_remove (id : N) (s : stash) : stash := filter (fun e => negb (fst e =? id)) s.
Fixpoint stash_get (id : N) (s : stash) : option leaves :=
  match s with
  | [] => None
  | (k, v) :: s' => if k =? id then Some v else stash_get id s'
  end.
Definition stash_insert (id : N) (v : leaves) (s : stash) : stash := (id, v) :: stash_remove id s.

(** PostOrderIterator, iter.rs 15-29.  [reused_children] is empty between and
    only used inside the steps; [p_pending] has its top of the stack first. *)
Record post_order := PostOrder {
  p_full_path : bytes;
  p_old_depth : nat;
  p_buffer : bytes;
  p_pending : list visited;
  p_persisted : stash;
  p_cid : option cid;
  p_total_size : N;
  p_opts : tree_options
}.

(** PostOrderIterator::new, iter.rs 68-81 *)
Definition post_order_new (root : dirb) (opts : tree_options) : post_order :=
  PostOrder [] 0 [] [DescentRoot root] [] None 0 opts.

(** BufferingTreeBuilder::build, buffered.rs 179-181 *)
Definition build (b : builder) : post_order := post_order_new (b_root b) (b_opts b).

(** OwnedTreeNode, iter.rs 349-358 *)
Record tree_node := TreeNode { n_path : bytes; n_cid : cid; n_total_size : N; n_block : bytes }.

(** [bytes().rposition(|ch| ch == b'/')], as the parts before and after it *)
Fixpoint rsplit_slash (p : bytes) : option (bytes * bytes) :=
  match p with
  | [] => None
  | x :: p' =>
    match rsplit_slash p' with
    | Some (a, b) => Some (x :: a, b)
    | None => if byte_eqb x slash then Some ([], p') else None
    end
  end.

Definition option_bytes_eqb (a b : option bytes) : bool :=
  match a, b with
  | Some a, Some b => bytes_eqb a b
  | None, None => true
  | _, _ => false
  end.

(** the loop of update_full_path, iter.rs 371-391; [true]: returned early *)
Fixpoint pop_segments {E} (path : bytes) (old : nat) (name : option bytes) (depth : nat) : outcome E (bytes * nat * bool) :=
  match old with
  | O => Ok (path, O, false)
  | S o =>
    if (depth <=? old)%nat then
      match rsplit_slash path with
      | Some (before, after) =>
        if (old =? depth)%nat && option_bytes_eqb (Some after) name then Ok (path, old, true)
        else pop_segments before o name depth
      | None => Panic (* todo! *)
      end
    else Ok (path, old, false)
  end.

(** update_full_path, iter.rs 360-405 *)
Definition update_full_path {E} (dbg : bool) (full_path : bytes) (old_depth : nat) (name : option bytes) (depth : nat)
    : outcome E (bytes * nat) :=
  do (path, old, returned) <-
    (if (depth <? 2)%nat then Ok ([], O, false) else pop_segments full_path old_depth name depth);
  if returned : bool then Ok (path, old)
  else
    do _ <- dassert dbg (old <=? depth)%nat;
    let '(path, old) :=
      match name with
      | Some name => ((match path with [] => [] | _ => path ++ [slash] end) ++ name, S old)
      | None => (path, old)
      end in
    do _ <- assert (old =? depth)%nat;
    Ok (path, old).

(** partition_children_leaves, iter.rs 409-435; [i] is the index reached *)
Fixpoint partition_children (depth i : nat) (nodes : list (bytes * entry dirb)) : list visited * leaves :=
  match nodes with
  | [] => ([], [])
  | (k, v) :: rest =>
    let '(children, ls) := partition_children depth (S i) rest in
    match v with
    | EDir node => (Descent node k (S depth) i :: children, None :: ls)
    | ELeaf c ts => (children, Some (k, c, ts) :: ls)
    end
  end.

(** LeafStorage::into_inner, iter.rs 444-454 *)
Definition into_inner {E} (s : leaf_storage) (st : stash) : outcome E (leaves * stash) :=
  match s with
  | Direct l => Ok (l, st)
  | Stashed id =>
    match stash_get id st with
    | Some l => Ok (l, stash_remove id st)
    | None => Panic
    end
  end.

(** [iter().sum::<u64>()] *)
Fixpoint sum64 {E} (dbg : bool) (acc : N) (l : list N) : outcome E N :=
  match l with
  | [] => Ok acc
  | x :: l' => do acc <- add64 dbg acc x; sum64 dbg acc l'
  end.

Definition directory_data : unixfs := UnixFs Directory None None [] None None None None.

(** render_directory, iter.rs 83-162: the link and size of the node, and the
    buffer afterwards.  [buffer.reserve] has no visible effect. *)
Definition render_directory (X : ext) (links : leaves) (buffer : bytes) (limit : option N)
    : outcome construct_error (cid * N) * bytes :=
  match custom_mapped links with
  | Ok ls =>
    let size := custom_size ls directory_data in
    if match limit with Some limit => limit <? size | None => false end then (Err (TooLargeBlock size), buffer)
    else
      let buffer := buffer ++ repeat x00 (N.to_nat (size - blen buffer)) in
      let written := custom_write ls directory_data in
      if blen buffer <? blen written then (Err ProtobufError, buffer)
      else
        let buffer := firstn (N.to_nat size) (written ++ skipn (length written) buffer) in
        let c := block_cid X buffer in
        (do sum <- sum64 (ext_dbg X) 0 (map (fun l => snd l) ls);
         do total <- add64 (ext_dbg X) (blen buffer) sum;
         Ok (c, total), buffer)
  | Err e => (Err e, buffer)
  | Panic => (Panic, buffer)
  | Diverge => (Diverge, buffer)
  end.

(** [vec[index] = Some(..)] with its index check and the assertion that the
    cell is empty, iter.rs 255-258 *)
Fixpoint fill_slot {E} (ls : leaves) (index : nat) (l : named_leaf) : outcome E leaves :=
  match ls, index with
  | [], _ => Panic
  | None :: rest, O => Ok (Some l :: rest)
  | Some _ :: _, O => Panic
  | x :: rest, S i => do rest <- fill_slot rest i l; Ok (x :: rest)
  end.

(** iter.rs 247-260 *)
Definition tell_parent {E} (parent_id : N) (index : nat) (l : named_leaf) (st : stash) : outcome E stash :=
  match stash_get parent_id st with
  | None => Panic
  | Some ls => do ls <- fill_slot ls index l; Ok (stash_insert parent_id ls st)
  end.

(** what one turn of the loop of next_borrowed does *)
Inductive turn :=
| Again (it : post_order)                                                (* next iteration *)
| Return (r : outcome construct_error (option tree_node)) (it : post_order).

Definition stash_leaves (children : list visited) (id : N) (ls : leaves) (st : stash) : leaf_storage * stash :=
  match children with
  | [] => (Direct ls, st)
  | _ => (Stashed id, stash_insert id ls st)
  end.

(** rendering the directory of a Post (iter.rs 229-268) or PostRoot (271-296);
    [parent]: where to tell the link *)
Definition finish_directory (X : ext) (it : post_order) (ls : leaves) (st : stash) (parent : option (N * nat * bytes)) : turn :=
  let '(r, buffer) := render_directory X ls (p_buffer it) (block_size_limit (p_opts it)) in
  let it := PostOrder (p_full_path it) (p_old_depth it) buffer (p_pending it) st (p_cid it) (p_total_size it) (p_opts it) in
  match r with
  | Ok (c, total) =>
    let told :=
      match parent with
      | Some (pid, index, name) => tell_parent pid index (name, c, total) st
      | None => Ok st
      end in
    match told with
    | Ok st =>
      let it := PostOrder (p_full_path it) (p_old_depth it) buffer (p_pending it) st (Some c) total (p_opts it) in
      match p_cid it with
      | Some c => Return (Ok (Some (TreeNode (p_full_path it) c (p_total_size it) (p_buffer it)))) it
      | None => Return Panic it (* self.cid.as_ref().unwrap() *)
      end
    | Err e => Return (Err e) it
    | Panic => Return Panic it
    | Diverge => Return Diverge it
    end
  | Err e => Return (Err e) it
  | Panic => Return Panic it
  | Diverge => Return Diverge it
  end.

(** the body of the loop, iter.rs 169-298 *)
Definition visit_one (X : ext) (it : post_order) (v : visited) (rest : list visited) : turn :=
  let '(name, depth) :=
    match v with
    | DescentRoot _ => (None, O)
    | Descent _ name depth _ => (Some name, depth)
    | Post _ depth name _ _ => (Some name, depth)
    | PostRoot _ => (None, O)
    end in
  match update_full_path (ext_dbg X) (p_full_path it) (p_old_depth it) name depth with
  | Ok (path, old) =>
    let it := PostOrder path old (p_buffer it) rest (p_persisted it) (p_cid it) (p_total_size it) (p_opts it) in
    match v with
    | DescentRoot node =>
      let '(children, ls) := partition_children depth 0 (d_nodes node) in
      let '(storage, st) := stash_leaves children (d_id node) ls (p_persisted it) in
      Again (PostOrder path old (p_buffer it) (rev children ++ PostRoot storage :: rest) st
               (p_cid it) (p_total_size it) (p_opts it))
    | Descent node name depth index =>
      let '(children, ls) := partition_children depth 0 (d_nodes node) in
      match d_parent node with
      | None => Return Panic it
      | Some parent_id =>
        let '(storage, st) := stash_leaves children (d_id node) ls (p_persisted it) in
        Again (PostOrder path old (p_buffer it) (rev children ++ Post parent_id depth name index storage :: rest) st
                 (p_cid it) (p_total_size it) (p_opts it))
      end
    | Post parent_id _ name index storage =>
      match into_inner storage (p_persisted it) with
      | Ok (ls, st) => finish_directory X it ls st (Some (parent_id, index, name))
      | Err e => Return (Err e) it
      | Panic => Return Panic it
      | Diverge => Return Diverge it
      end
    | PostRoot storage =>
      match into_inner storage (p_persisted it) with
      | Ok (ls, st) =>
        if wrap_with_directory (p_opts it) then finish_directory X it ls st None
        else Return (Ok None) (PostOrder path old (p_buffer it) rest st (p_cid it) (p_total_size it) (p_opts it))
      | Err e => Return (Err e) it
      | Panic => Return Panic it
      | Diverge => Return Diverge it
      end
    end
  | Err e => Return (Err e) it
  | Panic => Return Panic it
  | Diverge => Return Diverge it
  end.

(** the number of turns the pending work can take *)
Fixpoint dir_count (d : dirb) : nat :=
  S (list_sum (map (fun e => match snd e with EDir d => dir_count d | ELeaf _ _ => O end) (d_nodes d))).
Definition work (v : visited) : nat :=
  match v with
  | DescentRoot d | Descent d _ _ _ => 2 * dir_count d
  | Post _ _ _ _ _ | PostRoot _ => 1
  end.

(** the loop of next_borrowed, iter.rs 167-301 *)
Fixpoint next_loop (X : ext) (fuel : nat) (it : post_order) : outcome construct_error (option tree_node) * post_order :=
  match p_pending it with
  | [] => (Ok None, it)
  | v :: rest =>
    match fuel with
    | O => (Diverge, it)
    | S fuel =>
      match visit_one X it v rest with
      | Again it => next_loop X fuel it
      | Return r it => (r, it)
      end
    end
  end.

(** next_borrowed / Iterator::next, iter.rs 167 and 307-310: [Ok None] is
    [None], [Ok (Some n)] is [Some(Ok(n))], [Err e] is [Some(Err(e))] *)
Definition next (X : ext) (it : post_order) : outcome construct_error (option tree_node) * post_order :=
  next_loop X (list_sum (map work (p_pending it))) it.
