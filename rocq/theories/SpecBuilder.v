(** * SpecBuilder: what the tree builder is meant to build, independently of
    its representation.  From Builder.v only the calls [builder_new],
    [put_link], [set_metadata], [build], [next] and the types of their
    results are used. *)
From Coq Require Import Sorting.Sorted.
From Verif Require Import Base Wire Utf8 Cid Pb Reader Dir Builder.

(** ** Paths *)

Definition slash_free (s : bytes) : Prop := ~ In x2f s.

(** the names of a path joined by slashes *)
Fixpoint join (names : list bytes) : bytes :=
  match names with
  | [] => []
  | [n] => n
  | n :: rest => n ++ x2f :: join rest
  end.

(** [names] are the segments of the string [p] *)
Definition segments (p : bytes) (names : list bytes) : Prop :=
  names <> [] /\ Forall slash_free names /\ p = join names.

Definition ends_in_slash (p : bytes) : Prop := exists q, p = q ++ [x2f].
Definition repeats_slash (p : bytes) : Prop := exists a b, p = a ++ x2f :: x2f :: b.
Definition is_rooted (p : bytes) : Prop := exists q, p = x2f :: q.
Definition well_formed (p : bytes) : Prop := ~ ends_in_slash p /\ ~ repeats_slash p /\ ~ is_rooted p.

(** ** Histories *)

Inductive call := Put (path : bytes) (target : cid) (size : N) | SetMetadata (path : bytes) (md : metadata).
Definition call_path (k : call) : bytes := match k with Put p _ _ => p | SetMetadata p _ => p end.

(** the size given for a link *)
Definition put_size (k : call) : N := match k with Put _ _ s => s | SetMetadata _ _ => 0 end.

Definition do_call (b : builder) (k : call) : outcome build_error unit * builder :=
  match k with
  | Put p c s => put_link b p c s
  | SetMetadata p md => set_metadata b p md
  end.
(** the builder after the calls, whatever they returned *)
Fixpoint after (b : builder) (ks : list call) : builder :=
  match ks with [] => b | k :: ks => after (snd (do_call b k)) ks end.
(** what the calls returned *)
Fixpoint returns (b : builder) (ks : list call) : list (outcome build_error unit) :=
  match ks with [] => [] | k :: ks => fst (do_call b k) :: returns (snd (do_call b k)) ks end.
(** those of the calls that returned [Ok] *)
Fixpoint accepted (b : builder) (ks : list call) : list call :=
  match ks with
  | [] => []
  | k :: ks =>
    match fst (do_call b k) with Ok _ => [k] | _ => [] end ++ accepted (snd (do_call b k)) ks
  end.

(** the arguments the types of the API allow: paths are [&str], sizes u64 *)
Definition api_call (k : call) : Prop :=
  utf8_valid (call_path k) = true
  /\ match k with Put _ c s => cid_wf c = true /\ s < two64 | SetMetadata _ _ => True end.
(** the same call up to the metadata *)
Definition same_call (k k2 : call) : Prop :=
  match k, k2 with
  | Put p c s, Put p2 c2 s2 => p = p2 /\ c = c2 /\ s = s2
  | SetMetadata p _, SetMetadata p2 _ => p = p2
  | _, _ => False
  end.

(** the entries the accepted calls imply *)
Definition leaf_in (H : list call) (names : list bytes) (c : cid) (s : N) : Prop :=
  exists p, In (Put p c s) H /\ segments p names.
Definition dir_in (H : list call) (names : list bytes) : Prop :=
  names <> [] /\
  ((exists p md, In (SetMetadata p md) H /\ segments p names)
   \/ (exists k n rest, In k H /\ segments (call_path k) (names ++ n :: rest))).
Definition entry_in (H : list call) (names : list bytes) : Prop :=
  dir_in H names \/ exists c s, leaf_in H names c s.

(** without wrapping there is a single entry at the root, and a call with only
    one segment is taken to add another one *)
Definition root_free (wrap : bool) (H : list call) (names : list bytes) : Prop :=
  wrap = true \/ H = [] \/ exists n n2 rest, names = n :: n2 :: rest /\ entry_in H [n].
(** no entry on the way is a leaf *)
Definition through_leaf (H : list call) (names : list bytes) : Prop :=
  exists pre n rest c s, names = pre ++ n :: rest /\ leaf_in H pre c s.

(** the call can be accepted *)
Definition acceptable (wrap : bool) (H : list call) (k : call) : Prop :=
  well_formed (call_path k) /\
  exists names, segments (call_path k) names
    /\ root_free wrap H names /\ ~ through_leaf H names
    /\ match k with
       | Put _ _ _ => ~ entry_in H names
       | SetMetadata _ _ => ~ exists c s, leaf_in H names c s
       end.

(** why it is refused otherwise, in order of precedence *)
Definition refusal (wrap : bool) (H : list call) (k : call) (e : build_error) : Prop :=
  let p := call_path k in
  (ends_in_slash p /\ e = PathEndsInSlash p)
  \/ (~ ends_in_slash p /\ repeats_slash p /\ e = RepeatSlashesInPath p)
  \/ (~ ends_in_slash p /\ ~ repeats_slash p /\ is_rooted p /\ e = RootedPath p)
  \/ (well_formed p /\ exists names, segments p names /\
       ((~ root_free wrap H names /\ e = TooManyRootLevelEntries)
        \/ (root_free wrap H names /\ through_leaf H names /\ e = LeafAsDirectory p)
        \/ (root_free wrap H names /\ ~ through_leaf H names /\
            match k with
            | Put _ _ _ => entry_in H names /\ e = DuplicatePath p
            | SetMetadata _ _ => (exists c s, leaf_in H names c s) /\ e = LeafAsDirectory p
            end))).

(** ** Trees *)

Inductive tree := Leaf (c : cid) (size : N) | Dir (entries : list (bytes * tree)).

Fixpoint find_name (n : bytes) (es : list (bytes * tree)) : option tree :=
  match es with
  | [] => None
  | (m, t) :: es => if bytes_eqb n m then Some t else find_name n es
  end.
Fixpoint subtree (t : tree) (names : list bytes) : option tree :=
  match names with
  | [] => Some t
  | n :: rest =>
    match t with
    | Dir es => match find_name n es with Some t' => subtree t' rest | None => None end
    | Leaf _ _ => None
    end
  end.
Definition is_dir (t : tree) (names : list bytes) : Prop := exists es, subtree t names = Some (Dir es).

(** lexicographic order of byte strings *)
Definition name_lt (a b : bytes) : Prop :=
  (exists y rest, b = a ++ y :: rest)
  \/ (exists p x y a' b', a = p ++ x :: a' /\ b = p ++ y :: b' /\ b2n x < b2n y).
(** the names of every directory increase strictly *)
Definition ordered (t : tree) : Prop :=
  forall names es, subtree t names = Some (Dir es) -> StronglySorted (fun a b => name_lt (fst a) (fst b)) es.

(** [t] has exactly the leaves and directories the calls imply *)
Definition holds (t : tree) (H : list call) : Prop :=
  ordered t
  /\ (forall names c s, subtree t names = Some (Leaf c s) <-> leaf_in H names c s)
  /\ (forall names, is_dir t names <-> names = [] \/ dir_in H names).

(** ** Directory nodes *)
Section nodes.
Context (X : ext).

Definition entry_link (n : bytes) (l : cid * N) : pblink :=
  PBLink (Some (cid_bytes (fst l))) (Some n) (Some (snd l)).
Definition directory_message (ls : list pblink) : flat :=
  Flat ls (UnixFs Directory None None [] None None None None).

(** the Cid and the total size of an entry, the latter modulo 2^64 *)
Fixpoint link_of (t : tree) : cid * N :=
  match t with
  | Leaf c s => (c, s)
  | Dir es =>
    let block := flat_write (directory_message (map (fun e => entry_link (fst e) (link_of (snd e))) es)) in
    (block_cid X block, (blen block + sumN (map (fun e => snd (link_of (snd e))) es)) mod two64)
  end.

Definition dir_links (es : list (bytes * tree)) : list pblink :=
  map (fun e => entry_link (fst e) (link_of (snd e))) es.
Definition dir_block (es : list (bytes * tree)) : bytes := flat_write (directory_message (dir_links es)).
(** the block of the directory and the total sizes of its entries *)
Definition dir_total (es : list (bytes * tree)) : N :=
  blen (dir_block es) + sumN (map (fun e => snd (link_of (snd e))) es).

Definition node_of (names : list bytes) (es : list (bytes * tree)) : tree_node :=
  TreeNode (join names) (fst (link_of (Dir es))) (snd (link_of (Dir es))) (dir_block es).

(** ** Iteration *)

(** the first [n] results of the iterator; a panic is the last one *)
Fixpoint results (n : nat) (it : post_order) : list (outcome construct_error (option tree_node)) :=
  match n with
  | O => []
  | S n =>
    let (r, it) := next X it in
    match r with Panic => [Panic] | _ => r :: results n it end
  end.

(** the order of the nodes: every directory once, after its subdirectories,
    and the root only when wrapping *)
Definition post_order_of (t : tree) (wrap : bool) (order : list (list bytes)) : Prop :=
  NoDup order
  /\ (forall names, In names order <-> is_dir t names /\ (wrap = true \/ names <> []))
  /\ (forall i j p q, nth_error order i = Some (p ++ q) -> nth_error order j = Some p -> q <> [] -> (i < j)%nat).

Definition too_large (limit : option N) (t : tree) : bool :=
  match t, limit with
  | Dir es, Some limit => limit <? blen (dir_block es)
  | _, _ => false
  end.

(** the answer of the iterator at a directory with the entries [es]: its node,
    unless it or one of its subdirectories is too large for the limit, or its
    total size overflows in a build with overflow checks *)
Definition rendered (limit : option N) (names : list bytes) (es : list (bytes * tree))
  : outcome construct_error (option tree_node) :=
  if existsb (fun e => too_large limit (snd e)) es then Panic
  else if too_large limit (Dir es) then Err (TooLargeBlock (blen (dir_block es)))
  else if ext_dbg X && (two64 <=? dir_total es) then Panic
  else Ok (Some (node_of names es)).
(** the same for the directory at a path *)
Definition rendered_at (limit : option N) (t : tree) (names : list bytes)
  : outcome construct_error (option tree_node) :=
  match subtree t names with Some (Dir es) => rendered limit names es | _ => Panic end.

(** the iterator of [b] returns the node at some point *)
Definition emitted (b : builder) (node : tree_node) : Prop := exists n, In (Ok (Some node)) (results n (build b)).
(** it never returns an error and never panics *)
Definition succeeds (b : builder) : Prop := forall n r, In r (results n (build b)) -> exists o, r = Ok o.

(** following the names from the block of [c] on leads to [target] *)
Inductive resolves (get : cid -> option bytes) : cid -> list bytes -> cid -> Prop :=
| resolves_here : forall c, resolves get c [] c
| resolves_name : forall c block k n next rest target,
    get c = Some block -> fst (resolve X block n k) = Ok (Found next) ->
    resolves get next rest target -> resolves get c (n :: rest) target.

(** nothing follows a panic *)
Fixpoint until_panic {A} (l : list (outcome construct_error A)) : list (outcome construct_error A) :=
  match l with
  | [] => []
  | Panic :: _ => [Panic]
  | r :: l => r :: until_panic l
  end.
End nodes.
