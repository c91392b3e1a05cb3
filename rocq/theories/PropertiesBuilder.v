(** * Properties C30-C38 and the rest of C11: the directory tree builder
    (/repo/src/dir/builder.rs and /repo/src/dir/builder/).
    Only theorem statements and short glue; the proofs are in Builder_*.v, the
    vocabulary in SpecBuilder.v, the concrete histories in Examples_builder.v. *)
From Coq Require Import Sorting.Sorted Sorting.Permutation.
From Verif Require Import Base Tac Wire Utf8 Cid Sha256 Pb Reader Dir SpecFile SpecDir Builder SpecBuilder
  Paths_proofs Dir_proofs Builder_proofs Builder_iter Builder_thms Builder_use PropertiesDir Examples_file Examples_builder.

(** ** C30 *)

(** Every call on a builder with any history returns Ok exactly if its path can
    be added to what the accepted calls built, and otherwise the error that
    says why; it never panics. *)
Theorem C30_accepts : forall opts ks k,
  let r := fst (do_call (after (builder_new opts) ks) k) in
  let H := accepted (builder_new opts) ks in
  let wrap := wrap_with_directory opts in
  (r = Ok tt <-> acceptable wrap H k)
  /\ (forall e, r = Err e <-> refusal wrap H k e)
  /\ (acceptable wrap H k \/ exists e, refusal wrap H k e).
Proof.
  intros opts ks k r H wrap. destruct (run_new opts ks) as [I O]. fold H in I.
  split; [apply call_ok|].
  destruct (call_step _ H k I) as [(A & E & _)|(e & R & E & _)]; rewrite O in *; fold wrap in A || fold wrap in R; fold r in E.
  - split; [|auto]. intros e. split; [congruence|]. intros R. exfalso. exact (refusal_excl _ _ _ _ R A).
  - split; [|eauto]. intros e'. split; [intros E'; congruence|]. intros R'. rewrite E. f_equal. exact (refusal_fun _ _ _ _ _ R R').
Qed.
Print Assumptions C30_accepts.

(** The accepted calls always describe one tree. *)
Theorem C30_tree : forall opts ks,
  exists t, holds t (accepted (builder_new opts) ks)
    /\ forall t2, holds t2 (accepted (builder_new opts) ks) -> t2 = t.
Proof.
  intros opts ks. destruct (run_new opts ks) as [I _]. exists (erase (b_root (after (builder_new opts) ks))).
  split; [apply inv_holds, I|]. intros t2 H2. apply (holds_unique _ _ _ H2). apply inv_holds, I.
Qed.
Print Assumptions C30_tree.

Example C30_nonvacuous :
  returns (builder_new wrapped) ex_calls
    = [Ok tt; Err (DuplicatePath pa); Ok tt; Ok tt; Err (LeafAsDirectory [x61; x2f; x62; x2f; x63]); Err (RootedPath [x2f; x61])]
  /\ holds ex_tree (accepted (builder_new wrapped) ex_calls)
  /\ returns (builder_new unwrapped) [Put pab (idc 1) 10; Put pe (idc 2) 20; Put pacd (idc 2) 20]
    = [Ok tt; Err TooManyRootLevelEntries; Ok tt]
  /\ returns (builder_new wrapped) [Put (pab ++ [x2f]) (idc 1) 10; Put (pa ++ [x2f; x2f] ++ pa) (idc 1) 10]
    = [Err (PathEndsInSlash (pab ++ [x2f])); Err (RepeatSlashesInPath (pa ++ [x2f; x2f] ++ pa))].
Proof. split; [vm_compute; reflexivity|]. split; [exact ex_holds|]. split; vm_compute; reflexivity. Qed.

(** Two corners of [acceptable]: the empty path is taken as one empty segment,
    and without wrapping the metadata of the only root directory can only be
    set before anything is put in it. *)
Theorem C30_empty_path : forall opts c s, fst (put_link (builder_new opts) [] c s) = Ok tt.
Proof. intros opts c s. unfold put_link, modify_with. cbn. destruct (wrap_with_directory opts); reflexivity. Qed.
Print Assumptions C30_empty_path.
Theorem C30_root_metadata : forall n m c s md, slash_free n -> n <> [] -> slash_free m -> m <> [] ->
  returns (builder_new unwrapped) [Put (join [n; m]) c s; SetMetadata n md] = [Ok tt; Err TooManyRootLevelEntries]
  /\ returns (builder_new unwrapped) [SetMetadata n md; Put (join [n; m]) c s] = [Ok tt; Ok tt].
Proof.
  intros n m c s md Fn Nn Fm Nm.
  assert (S2 : segments (join [n; m]) [n; m]) by (split; [discriminate|split; [repeat constructor; assumption|reflexivity]]).
  assert (S1 : segments n [n]) by (split; [discriminate|split; [repeat constructor; assumption|reflexivity]]).
  assert (W1 : well_formed n).
  { split; [|split].
    - intros (q & ->). apply Fn. apply in_app_iff. right. left. reflexivity.
    - intros (a & b & ->). apply Fn. apply in_app_iff. right. left. reflexivity.
    - intros (q & ->). apply Fn. left. reflexivity. }
  assert (W2 : well_formed (join [n; m])).
  { cbn [join]. split; [|split].
    - intros (q & E). destruct (exists_last Nm) as (m' & x & ->). change (n ++ x2f :: m' ++ [x]) with (n ++ (x2f :: m') ++ [x]) in E.
      rewrite app_assoc in E. apply app_inj_tail in E as [_ ->]. apply Fm. apply in_app_iff. right. left. reflexivity.
    - intros (a & b & E). change (a ++ x2f :: x2f :: b) with (a ++ [x2f] ++ x2f :: b) in E. 
      assert (Sa : exists a1 rest, a = a1 ++ rest /\ slash_free a1 /\ (rest = [] \/ exists r, rest = x2f :: r)).
      { clear E. induction a as [|x a IH]; [exists [], []; split; [reflexivity|]; split; [apply slash_free_nil|auto]|].
        destruct (byte_eq_dec x x2f) as [->|Nx]; [exists [], (x2f :: a); split; [reflexivity|]; split; [apply slash_free_nil|right; eauto]|].
        destruct IH as (a1 & rest & -> & F & R). exists (x :: a1), rest. split; [reflexivity|]. split; [apply slash_free_cons; auto|exact R]. }
      destruct Sa as (a1 & rest & -> & Fa & R). 
      assert (E2 : exists u, n ++ x2f :: m = a1 ++ x2f :: u /\ In x2f u).
      { rewrite E, <- app_assoc. destruct R as [->|(r & ->)]; [exists (x2f :: b); split; [reflexivity|left; reflexivity]|].
        exists (r ++ [x2f] ++ x2f :: b). split; [reflexivity|]. apply in_app_iff. right. left. reflexivity. }
      destruct E2 as (u & E2 & Iu). apply app_slash_inj in E2 as [_ ->]; [exact (Fm Iu)|assumption|assumption].
    - intros (q & E). destruct n as [|x n]; [congruence|]. injection E as -> _. apply Fn. left. reflexivity. }
  assert (A1 : forall k ks, acceptable false (accepted (builder_new unwrapped) ks) k -> fst (do_call (after (builder_new unwrapped) ks) k) = Ok tt).
  { intros k ks A. apply call_ok. exact A. }
  assert (NE : forall names, ~ entry_in [] names).
  { intros names [(_ & [(p & md0 & [] & _)|(k & x & r & [] & _)])|(c0 & s0 & p & [] & _)]. }
  assert (NL : forall names c0 s0, ~ leaf_in [] names c0 s0) by (intros names c0 s0 (p & [] & _)).
  assert (P0 : fst (do_call (builder_new unwrapped) (Put (join [n; m]) c s)) = Ok tt).
  { apply (A1 _ []). split; [exact W2|]. exists [n; m]. split; [exact S2|]. split; [right; left; reflexivity|].
    split; [intros (pre & x & rest & c0 & s0 & _ & L); exact (NL _ _ _ L)|apply NE]. }
  assert (M0 : fst (do_call (builder_new unwrapped) (SetMetadata n md)) = Ok tt).
  { apply (A1 _ []). split; [exact W1|]. exists [n]. split; [exact S1|]. split; [right; left; reflexivity|].
    split; [intros (pre & x & rest & c0 & s0 & _ & L); exact (NL _ _ _ L)|intros (c0 & s0 & L); exact (NL _ _ _ L)]. }
  split; cbn [returns].
  - rewrite P0. f_equal. f_equal.
    destruct (C30_accepts unwrapped [Put (join [n; m]) c s] (SetMetadata n md)) as (_ & E & _). apply E.
    cbn [accepted]. rewrite P0. cbn [app]. right. right. right. split; [exact W1|]. exists [n]. split; [exact S1|]. left.
    split; [|reflexivity]. intros [?|[?|(x & y & r & ? & _)]]; discriminate.
  - rewrite M0. f_equal. f_equal. apply (A1 _ [SetMetadata n md]). cbn [accepted]. rewrite M0. cbn [app].
    split; [exact W2|]. exists [n; m]. split; [exact S2|].
    assert (NL2 : forall names c0 s0, ~ leaf_in [SetMetadata n md] names c0 s0) by (intros names c0 s0 (p & [?|[]] & _); discriminate).
    split; [|split; [intros (pre & x & rest & c0 & s0 & _ & L); exact (NL2 _ _ _ L)|]].
    + right. right. exists n, m, []. split; [reflexivity|]. left. split; [discriminate|]. left. exists n, md. split; [left; reflexivity|exact S1].
    + intros [(_ & [(p & md0 & [E|[]] & Sp)|(k & x & r & [<-|[]] & Sp)])|(c0 & s0 & L)]; [| |exact (NL2 _ _ _ L)].
      * injection E as <- _. pose proof (segments_fun _ _ _ Sp S1). discriminate.
      * pose proof (segments_fun _ _ _ Sp S1). discriminate.
Qed.
Print Assumptions C30_root_metadata.

(** ** C31 *)

(** A call that returned an error might as well not have been made. *)
Theorem C31_failed_call : forall X opts ks k e ks2,
  fst (do_call (after (builder_new opts) ks) k) = Err e ->
  returns (after (builder_new opts) (ks ++ [k])) ks2 = returns (after (builder_new opts) ks) ks2
  /\ forall n, results X n (build (after (builder_new opts) (ks ++ k :: ks2)))
             = results X n (build (after (builder_new opts) (ks ++ ks2))).
Proof.
  intros X opts ks k e ks2 E. destruct (run_new opts ks) as [I O].
  destruct (call_step _ _ k I) as [(_ & E' & _)|(e' & _ & _ & S)]; [congruence|].
  destruct (same_tree_run ks2 _ _ S) as (R & _ & S2).
  split; [rewrite after_app; exact R|]. intros n.
  change (k :: ks2) with ([k] ++ ks2). rewrite (after_app _ ks ([k] ++ ks2)), (after_app _ ks ks2). cbn [app after].
  rewrite (same_tree_build _ _ S2). reflexivity.
Qed.
Print Assumptions C31_failed_call.
Example C31_nonvacuous :
  fst (do_call (after (builder_new wrapped) [Put pab (idc 1) 10]) (Put (pab ++ [x2f; x63; x2f; x64]) (idc 2) 3))
    = Err (LeafAsDirectory (pab ++ [x2f; x63; x2f; x64])).
Proof. vm_compute. reflexivity. Qed.

(** ** C32 *)

(** When the iteration succeeds its results are one node per directory, each
    after its subdirectories, with the path of the directory, then None for
    ever.  (C35 and C36 tell when it does not succeed.) *)
Theorem C32_post_order : forall X opts ks t,
  holds t (accepted (builder_new opts) ks) ->
  let b := after (builder_new opts) ks in
  succeeds X b ->
  exists order nodes,
    post_order_of t (wrap_with_directory opts) order
    /\ map n_path nodes = map join order
    /\ forall n, results X n (build b) = firstn n (map (fun d => Ok (Some d)) nodes ++ repeat (Ok None) n).
Proof.
  intros X opts ks t Ht b Su. destruct (iterate X opts ks t Ht) as (order & PO & I). exists order.
  exists (map (fun p => match subtree t p with Some (Dir es) => node_of X p es | _ => TreeNode [] (idc 0) 0 [] end) order).
  split; [exact PO|].
  assert (K : Forall (fun p => exists es, subtree t p = Some (Dir es) /\ rendered_at X (block_size_limit opts) t p = Ok (Some (node_of X p es))) order).
  { apply Forall_forall. intros p J. pose proof J as J2. apply (proj1 (proj2 PO)) in J2 as ((es & S) & W). exists es. split; [exact S|].
    destruct (succeeds_emits X opts ks t Ht p es Su S W) as (n & _).
    apply In_nth_error in J as (j & J).
    assert (P : forall k p, (k <= j)%nat -> nth_error order k = Some p -> exists o, rendered_at X (block_size_limit opts) t p = Ok o).
    { induction k as [k IH] using lt_wf_ind. intros q L E. apply (Su (Datatypes.S k)). apply nth_error_In with (n := k).
      apply (result_at X opts ks t order I). split; [lia|]. split; [|left; eauto].
      intros k' p' Lk Ek. destruct (IH k' Lk p' ltac:(lia) Ek) as (o & ->). discriminate. }
    destruct (P j p ltac:(lia) J) as ([node|] & Eo); [|exfalso; exact (at_none X opts t p Eo)].
    rewrite Eo. unfold rendered_at in Eo. rewrite S in Eo. apply (rendered_ok X opts p es node) in Eo as (-> & _). reflexivity. }
  split.
  - rewrite map_map. apply map_ext_in. intros p J. rewrite Forall_forall in K. destruct (K p J) as (es & -> & _). reflexivity.
  - intros n. subst b. rewrite I. f_equal. clear I PO. rewrite map_map. induction K as [|p order (es & S & R) F IH].
    + cbn [map app]. clear. induction n; [reflexivity|]. cbn. f_equal. exact IHn.
    + cbn [map app until_panic]. rewrite R. rewrite S at 1. cbn [until_panic]. f_equal. exact IH.
Qed.
Print Assumptions C32_post_order.
Lemma ex_succeeds dbg : succeeds (toy dbg) (after (builder_new wrapped) ex_calls).
Proof.
  apply (succeeds_by (toy dbg) wrapped ex_calls ex_tree ex_holds 5).
  - apply nth_error_In with (n := 4%nat). destruct dbg; vm_compute; reflexivity.
  - intros r I. assert (F : forallb ok_result (results (toy dbg) 5 (build (after (builder_new wrapped) ex_calls))) = true)
      by (destruct dbg; vm_compute; reflexivity).
    rewrite forallb_forall in F. specialize (F r I). destruct r; try discriminate. eauto.
Qed.
Example C32_nonvacuous : forall dbg,
  holds ex_tree (accepted (builder_new wrapped) ex_calls)
  /\ succeeds (toy dbg) (after (builder_new wrapped) ex_calls)
  /\ map (fun r => match r with Ok (Some d) => Some (n_path d) | _ => None end)
       (results (toy dbg) 5 (build (after (builder_new wrapped) ex_calls)))
     = [Some pe; Some [x61; x2f; x63]; Some pa; Some []; None].
Proof.
  intros dbg. split; [exact ex_holds|]. split; [apply ex_succeeds|]. destruct dbg; vm_compute; reflexivity.
Qed.
(** paths tell directories apart, except that an entry with the empty name has the path of the wrapping root *)
Theorem C32_paths_distinct : forall p q : list bytes,
  Forall slash_free p -> Forall slash_free q -> join p = join q ->
  p = q \/ (p = [] /\ q = [[]]) \/ (p = [[]] /\ q = []).
Proof.
  intros p q Fp Fq E. destruct p as [|n p], q as [|m q]; [auto| | |left; apply join_inj; auto; discriminate].
  - right. left. split; [reflexivity|]. destruct q; [cbn in E; rewrite <- E; reflexivity|]. destruct m; discriminate.
  - right. right. split; [|reflexivity]. destruct p; [cbn in E; rewrite E; reflexivity|]. destruct n; discriminate.
Qed.
Print Assumptions C32_paths_distinct.
Example C32_same_path_twice : forall dbg,
  map (fun r => match r with Ok (Some d) => Some (n_path d) | _ => None end)
    (results (toy dbg) 3 (build (after (builder_new wrapped) [SetMetadata [] md1]))) = [Some []; Some []; None].
Proof. intros dbg. destruct dbg; vm_compute; reflexivity. Qed.

(** ** C33 *)

Definition tsize_of (l : pblink) : N := match l_tsize l with Some s => s | None => 0 end.

(** Every node returned is the block of a directory of the tree, and the block
    parses to the sorted links of its entries: leaves as they were put,
    subdirectories as the nodes returned for them before. *)
Theorem C33_blocks : forall X opts ks t node,
  ext_ok X -> Forall api_call ks -> holds t (accepted (builder_new opts) ks) ->
  let b := after (builder_new opts) ks in
  emitted X b node -> blen (n_block node) < two32 ->
  exists names es links,
    subtree t names = Some (Dir es) /\ n_path node = join names
    /\ try_parse (ext_dbg X) (n_block node) = Ok (Flat links (UnixFs Directory None None [] None None None None))
    /\ Forall2 (fun e l => l_name l = Some (fst e)
         /\ match snd e with
            | Leaf c s => l_hash l = Some (cid_bytes c) /\ l_tsize l = Some s
            | Dir _ => exists sub, emitted X b sub /\ n_path sub = join (names ++ [fst e])
                         /\ l_hash l = Some (cid_bytes (n_cid sub)) /\ l_tsize l = Some (n_total_size sub)
            end) es links
    /\ StronglySorted (fun k l => name_lt (name_of k) (name_of l)) links
    /\ let total := blen (n_block node) + sumN (map tsize_of links) in
       n_total_size node = total mod two64 /\ (ext_dbg X = true -> total < two64).
Proof.
  intros X opts ks t node HX A Ht b E L.
  destruct (emitted_at X opts ks t Ht node E) as (names & es & S & _ & -> & _ & _ & D & C).
  exists names, es, (dir_links X es). split; [exact S|]. split; [reflexivity|].
  split; [apply (block_parses X opts ks t Ht HX A names es S L)|]. split; [|split].
  - unfold dir_links. clear S D L E. induction es as [|[n sub] es IH]; [constructor|]. cbn [map]. constructor.
    + cbn [fst snd entry_link l_name l_hash l_tsize]. split; [reflexivity|]. destruct sub as [c s|sub]; [split; reflexivity|].
      exists (node_of X (names ++ [n]) sub). split; [apply C; left; reflexivity|]. split; [reflexivity|]. split; reflexivity.
    + apply IH. intros m sub' I. apply C. right. exact I.
  - apply sorted_links. apply (proj1 Ht names es S).
  - cbn [node_of n_total_size n_block].
    assert (T : blen (dir_block X es) + sumN (map tsize_of (dir_links X es)) = dir_total X es).
    { unfold dir_total, dir_links. rewrite map_map. reflexivity. }
    rewrite T. split; [reflexivity|exact D].
Qed.
Print Assumptions C33_blocks.
Example C33_nonvacuous : forall dbg, exists node,
  ext_ok (toy dbg) /\ Forall api_call ex_calls /\ holds ex_tree (accepted (builder_new wrapped) ex_calls)
  /\ emitted (toy dbg) (after (builder_new wrapped) ex_calls) node /\ blen (n_block node) < two32
  /\ n_path node = pa.
Proof.
  intros dbg. eexists. split; [apply toy_ok|]. split; [exact ex_api|]. split; [exact ex_holds|]. split.
  - apply (succeeds_emits (toy dbg) wrapped ex_calls ex_tree ex_holds [pa]); [apply ex_succeeds|reflexivity|left; reflexivity].
  - split; [destruct dbg; vm_compute; reflexivity|reflexivity].
Qed.
(** the total size can overflow: a panic with overflow checks, a wrong total without *)
Theorem C33_overflow : 
  In Panic (results (toy true) 1 (build (after (builder_new unwrapped) [Put pab (idc 1) (two64 - 1)])))
  /\ exists node, results (toy false) 1 (build (after (builder_new unwrapped) [Put pab (idc 1) (two64 - 1)])) = [Ok (Some node)]
       /\ n_total_size node = blen (n_block node) - 1.
Proof. split; [vm_compute; auto|]. eexists. split; vm_compute; reflexivity. Qed.
Print Assumptions C33_overflow.

(** ** C11, the builder's part *)
Theorem C11_builder_cids : forall X opts ks node,
  emitted X (after (builder_new opts) ks) node -> n_cid node = Cid true 0x70 0x12 (ext_sha256 X (n_block node)).
Proof.
  intros X opts ks node E. destruct (C30_tree opts ks) as (t & Ht & _).
  destruct (emitted_at X opts ks t Ht node E) as (names & es & _ & _ & -> & _). reflexivity.
Qed.
Print Assumptions C11_builder_cids.

(** ** C34 *)

(** Builders whose accepted calls imply the same leaves and directories return the same nodes. *)
Theorem C34_same_entries : forall X opts ks1 ks2,
  let H1 := accepted (builder_new opts) ks1 in
  let H2 := accepted (builder_new opts) ks2 in
  (forall names c s, leaf_in H1 names c s <-> leaf_in H2 names c s) ->
  (forall names, dir_in H1 names <-> dir_in H2 names) ->
  forall n, results X n (build (after (builder_new opts) ks1)) = results X n (build (after (builder_new opts) ks2)).
Proof.
  intros X opts ks1 ks2 H1 H2 EL ED n.
  destruct (C30_tree opts ks1) as (t & Ht & _). destruct (C30_tree opts ks2) as (t2 & Ht2 & _).
  pose proof (holds_kinds _ _ _ _ Ht Ht2 EL ED) as <-.
  destruct (run_new opts ks1) as [I1 O1], (run_new opts ks2) as [I2 O2].
  destruct (root_runs X _ opts (inv_good _ _ I1) (inv_nodup _ _ I1)) as (o1 & R1 & F1).
  destruct (root_runs X _ opts (inv_good _ _ I2) (inv_nodup _ _ I2)) as (o2 & R2 & F2).
  unfold build. rewrite O1, O2, (results_runs X _ _ _ R1 F1), (results_runs X _ _ _ R2 F2).
  rewrite (holds_unique _ _ _ (inv_holds _ _ I1) Ht), (holds_unique _ _ _ (inv_holds _ _ I2) Ht2). reflexivity.
Qed.
Print Assumptions C34_same_entries.

(** In particular when the same calls were accepted in another order. *)
Theorem C34_order : forall X opts ks1 ks2,
  Permutation (accepted (builder_new opts) ks1) (accepted (builder_new opts) ks2) ->
  forall n, results X n (build (after (builder_new opts) ks1)) = results X n (build (after (builder_new opts) ks2)).
Proof.
  intros X opts ks1 ks2 P. assert (M : forall k, In k (accepted (builder_new opts) ks1) <-> In k (accepted (builder_new opts) ks2)).
  { intros k. split; apply Permutation_in; [exact P|symmetry; exact P]. }
  apply C34_same_entries.
  - intros names c s. unfold leaf_in. split; intros (p & I & S); exists p; (split; [apply M, I|exact S]).
  - intros names. unfold dir_in.
    split; (intros (N & [(p & md & I & S)|(k & m & r & I & S)]); (split; [exact N|]));
      solve [left; exists p, md; split; [apply M, I|exact S]|right; exists k, m, r; split; [apply M, I|exact S]].
Qed.
Print Assumptions C34_order.

(** With a wrapping directory the calls can be made in any order at all. *)
Theorem C34_any_order : forall X opts ks1 ks2,
  wrap_with_directory opts = true -> Permutation ks1 ks2 ->
  Forall (eq (Ok tt)) (returns (builder_new opts) ks1) ->
  Forall (eq (Ok tt)) (returns (builder_new opts) ks2)
  /\ forall n, results X n (build (after (builder_new opts) ks1)) = results X n (build (after (builder_new opts) ks2)).
Proof.
  intros X opts ks1 ks2 W P F1. assert (F2 : Forall (eq (Ok tt)) (returns (builder_new opts) ks2)).
  { apply wrapped_history in F1 as [A B]; [|exact W]. apply wrapped_history; [exact W|]. split; [rewrite <- P; exact A|].
    apply (fop_perm compatible compatible_sym ks1); assumption. }
  split; [exact F2|]. apply C34_order. rewrite (all_accepted _ _ F1), (all_accepted _ _ F2). exact P.
Qed.
Print Assumptions C34_any_order.
Example C34_nonvacuous :
  wrap_with_directory wrapped = true /\ Permutation ex_H (rev ex_H)
  /\ Forall (eq (Ok tt)) (returns (builder_new wrapped) ex_H).
Proof. split; [reflexivity|]. split; [apply Permutation_rev|]. vm_compute. repeat constructor. Qed.
(** (without it, the order matters for whether set_metadata is accepted: C30_root_metadata) *)

(** ** C35 *)

(** no returned block is larger than the limit *)
Theorem C35_blocks : forall X opts ks node limit,
  block_size_limit opts = Some limit -> emitted X (after (builder_new opts) ks) node -> blen (n_block node) <= limit.
Proof.
  intros X opts ks node limit L E. destruct (C30_tree opts ks) as (t & Ht & _).
  destruct (emitted_at X opts ks t Ht node E) as (names & es & _ & _ & -> & _ & T & _). cbn [node_of n_block].
  rewrite L in T. cbn [too_large] in T. apply N.ltb_ge in T. exact T.
Qed.
Print Assumptions C35_blocks.

(** the errors are exactly TooLargeBlock, with the size of the block of a directory that is too large *)
Theorem C35_errors : forall X opts ks t n e,
  holds t (accepted (builder_new opts) ks) ->
  In (Err e) (results X n (build (after (builder_new opts) ks))) ->
  exists names es limit, subtree t names = Some (Dir es) /\ block_size_limit opts = Some limit
    /\ limit < blen (dir_block X es) /\ e = TooLargeBlock (blen (dir_block X es)).
Proof.
  intros X opts ks t n e Ht I. destruct (iterate X opts ks t Ht) as (order & PO & R).
  apply In_nth_error in I as (i & I). destruct (proj1 (result_at X opts ks t order R n i _) I) as (_ & _ & [(p & Ep & Er)|[_ Er]]); [|discriminate].
  apply nth_error_In in Ep. apply (proj1 (proj2 PO)) in Ep as ((es & S) & _). unfold rendered_at in Er. rewrite S in Er. unfold rendered in Er.
  destruct (existsb _ es); [discriminate|].
  destruct (too_large X (block_size_limit opts) (Dir es)) eqn:T.
  - injection Er as ->. cbn [too_large] in T. destruct (block_size_limit opts) as [limit|]; [|discriminate]. apply N.ltb_lt in T.
    exists p, es, limit. auto.
  - destruct (ext_dbg X && _); discriminate.
Qed.
Print Assumptions C35_errors.

(** Nothing is too large and no total overflows: no error.  Otherwise, if no
    total overflows, the results are the nodes of the directories before the
    first one that is too large, then its error. *)
Definition no_overflow X (t : tree) : Prop :=
  ext_dbg X = false \/ forall names es, subtree t names = Some (Dir es) -> dir_total X es < two64.

Theorem C35_first_error : forall X opts ks t,
  holds t (accepted (builder_new opts) ks) -> no_overflow X t ->
  let b := after (builder_new opts) ks in
  exists order, post_order_of t (wrap_with_directory opts) order
    /\ forall i, (forall j p, (j < i)%nat -> nth_error order j = Some p -> 
                    forall es limit, subtree t p = Some (Dir es) -> block_size_limit opts = Some limit -> blen (dir_block X es) <= limit) ->
       forall n, (i < n)%nat ->
       (forall j p es, (j < i)%nat -> nth_error order j = Some p -> subtree t p = Some (Dir es) ->
          nth_error (results X n (build b)) j = Some (Ok (Some (node_of X p es))))
       /\ (forall p es limit, nth_error order i = Some p -> subtree t p = Some (Dir es) -> block_size_limit opts = Some limit ->
             limit < blen (dir_block X es) ->
             nth_error (results X n (build b)) i = Some (Err (TooLargeBlock (blen (dir_block X es)))))
       /\ (nth_error order i = None -> nth_error (results X n (build b)) i = Some (Ok None)).
Proof.
  intros X opts ks t Ht NO b. destruct (iterate X opts ks t Ht) as (order & PO & R). exists order. split; [exact PO|].
  intros i Small n Ln.
  assert (NOF : forall p es, subtree t p = Some (Dir es) -> ext_dbg X && (two64 <=? dir_total X es) = false).
  { intros p es S. destruct NO as [->|NO]; [reflexivity|]. specialize (NO p es S). apply N.leb_gt in NO. rewrite NO. apply andb_false_r. }
  assert (Sm : forall j p es, (j < i)%nat -> nth_error order j = Some p -> subtree t p = Some (Dir es) -> too_large X (block_size_limit opts) (Dir es) = false).
  { intros j p es L E S. cbn [too_large]. destruct (block_size_limit opts) as [limit|] eqn:B; [|reflexivity].
    apply N.ltb_ge. exact (Small j p L E es limit S eq_refl). }
  assert (Ch : forall j p es, (j <= i)%nat -> nth_error order j = Some p -> subtree t p = Some (Dir es) ->
             existsb (fun e => too_large X (block_size_limit opts) (snd e)) es = false).
  { intros j p es L E S. destruct (existsb _ es) eqn:Q; [|reflexivity]. exfalso. apply existsb_exists in Q as ([m sub] & I & T). cbn [snd] in T.
    destruct sub as [c s|sub]; [discriminate|].
    assert (S' : subtree t (p ++ [m]) = Some (Dir sub)).
    { rewrite subtree_app, S. cbn. rewrite (find_sorted m es (Dir sub)); [reflexivity|apply (proj1 Ht p), S|exact I]. }
    assert (J : In (p ++ [m]) order).
    { apply (proj1 (proj2 PO)). split; [exists sub; exact S'|]. right. destruct p; discriminate. }
    apply In_nth_error in J as (k & J). pose proof (proj2 (proj2 PO) _ _ _ _ J E ltac:(discriminate)) as Lk.
    rewrite (Sm k _ sub ltac:(lia) J S') in T. discriminate. }
  assert (At : forall j p, (j < i)%nat -> nth_error order j = Some p -> exists es, subtree t p = Some (Dir es) /\ rendered_at X (block_size_limit opts) t p = Ok (Some (node_of X p es))).
  { intros j p L E. pose proof (nth_error_In _ _ E) as J. apply (proj1 (proj2 PO)) in J as ((es & S) & _). exists es. split; [exact S|].
    unfold rendered_at, rendered. rewrite S, (Ch j p es ltac:(lia) E S), (Sm j p es L E S), (NOF p es S). reflexivity. }
  assert (NP : forall k, (k <= i)%nat -> forall j p, (j < k)%nat -> nth_error order j = Some p -> rendered_at X (block_size_limit opts) t p <> Panic).
  { intros k Lk j p L E. destruct (At j p ltac:(lia) E) as (es & _ & ->). discriminate. }
  split; [|split].
  - intros j p es L E S. apply (result_at X opts ks t order R). split; [lia|]. split; [apply NP; lia|]. left. exists p. split; [exact E|].
    destruct (At j p L E) as (es' & S' & ->). rewrite S in S'. injection S' as <-. reflexivity.
  - intros p es limit E S B T. apply (result_at X opts ks t order R). split; [lia|]. split; [apply NP; lia|]. left. exists p. split; [exact E|].
    unfold rendered_at, rendered. rewrite S, (Ch i p es ltac:(lia) E S). cbn [too_large]. rewrite B.
    apply N.ltb_lt in T. rewrite T. reflexivity.
  - intros E. apply (result_at X opts ks t order R). split; [lia|]. split; [apply NP; lia|]. right. split; [apply nth_error_None, E|reflexivity].
Qed.
Print Assumptions C35_first_error.
(** the default options: blocks of up to 512 KiB, no directory around the root *)
Theorem C35_defaults : block_size_limit default_options = Some 524288 /\ wrap_with_directory default_options = false.
Proof. split; reflexivity. Qed.
Print Assumptions C35_defaults.
Definition small_limit : tree_options := TreeOptions (Some 30) true.
Example C35_nonvacuous :
  let b := after (builder_new small_limit) ex_calls in
  holds ex_tree (accepted (builder_new small_limit) ex_calls) /\ no_overflow (toy true) ex_tree
  /\ map (fun r => match r with Ok (Some d) => Some (Datatypes.inl (n_path d)) | Err e => Some (Datatypes.inr e) | _ => None end)
       (results (toy true) 5 (build b))
     = [Some (Datatypes.inl pe); Some (Datatypes.inl [x61; x2f; x63]); Some (Datatypes.inr (TooLargeBlock 63)); None].
Proof.
  cbn zeta. split.
  { replace (accepted (builder_new small_limit) ex_calls) with (accepted (builder_new wrapped) ex_calls) by (vm_compute; reflexivity). exact ex_holds. }
  split; [|vm_compute; reflexivity]. right.
  intros names es S. destruct names as [|n names]; [injection S as <-; vm_compute; reflexivity|].
  cbn in S. destruct (bytes_eqb n pa).
  - destruct names as [|m names]; [injection S as <-; vm_compute; reflexivity|]. cbn in S.
    destruct (bytes_eqb m [x62]); [destruct names; discriminate|]. destruct (bytes_eqb m [x63]); [|discriminate].
    destruct names as [|k names]; [injection S as <-; vm_compute; reflexivity|]. cbn in S.
    destruct (bytes_eqb k [x64]); [destruct names; discriminate|discriminate].
  - destruct (bytes_eqb n pe); [|discriminate]. destruct names as [|m names]; [injection S as <-; vm_compute; reflexivity|]. discriminate.
Qed.

(** ** C36 *)

(** The claim is false: the parent of the directory that was too large panics. *)
Theorem C36_refuted : forall X, exists opts ks e,
  results X 2 (build (after (builder_new opts) ks)) = [Err (TooLargeBlock e); Panic].
Proof.
  intros [sha dec dbg]. exists (TreeOptions (Some 10) true), [Put pab (idc 1) 10], 18. destruct dbg;
  vm_compute; reflexivity.
Qed.
Print Assumptions C36_refuted.

(** Unless totals overflow, the iteration panics exactly when a directory that
    is too large lies in another one that is to be returned. *)
Theorem C36_exact : forall X opts ks t,
  holds t (accepted (builder_new opts) ks) -> no_overflow X t ->
  ((exists n, In Panic (results X n (build (after (builder_new opts) ks))))
   <-> exists names n es limit,
         (wrap_with_directory opts = true \/ names <> [])
         /\ subtree t (names ++ [n]) = Some (Dir es)
         /\ block_size_limit opts = Some limit /\ limit < blen (dir_block X es)).
Proof.
  intros X opts ks t Ht NO. destruct (iterate X opts ks t Ht) as (order & PO & R).
  assert (NOF : forall p es, subtree t p = Some (Dir es) -> ext_dbg X && (two64 <=? dir_total X es) = false).
  { intros p es S. destruct NO as [->|NO]; [reflexivity|]. specialize (NO p es S). apply N.leb_gt in NO. rewrite NO. apply andb_false_r. }
  split.
  - intros (n & I). apply In_nth_error in I as (i & I). destruct (proj1 (result_at X opts ks t order R n i _) I) as (_ & _ & [(p & Ep & Er)|[_ Er]]); [|discriminate].
    apply nth_error_In in Ep. apply (proj1 (proj2 PO)) in Ep as ((es & S) & W). unfold rendered_at in Er. rewrite S in Er. unfold rendered in Er.
    rewrite (NOF p es S) in Er. destruct (existsb _ es) eqn:Q; [|destruct (too_large _ _ _); discriminate].
    apply existsb_exists in Q as ([m sub] & I2 & T). cbn [snd] in T. destruct sub as [c s|sub]; [discriminate|]. cbn [too_large] in T.
    destruct (block_size_limit opts) as [limit|]; [|discriminate]. apply N.ltb_lt in T. exists p, m, sub, limit.
    split; [exact W|]. split; [|auto]. rewrite subtree_app, S. cbn. rewrite (find_sorted m es (Dir sub)); [reflexivity|apply (proj1 Ht p), S|exact I2].
  - intros (p & m & sub & limit & W & S' & B & T).
    rewrite subtree_app in S'. destruct (subtree t p) as [[c s|es]|] eqn:S; [discriminate| |discriminate]. cbn in S'.
    destruct (find_name m es) as [u|] eqn:F; [|discriminate]. injection S' as ->. apply find_in in F.
    assert (J : In p order) by (apply (proj1 (proj2 PO)); split; [exists es; exact S|exact W]).
    apply In_nth_error in J as (j & J).
    assert (Er : rendered_at X (block_size_limit opts) t p = Panic).
    { unfold rendered_at, rendered. rewrite S. replace (existsb _ es) with true; [reflexivity|]. symmetry. apply existsb_exists.
      exists (m, Dir sub). split; [exact F|]. cbn [snd too_large]. rewrite B. apply N.ltb_lt, T. }
    assert (First : forall k, (exists q, nth_error order k = Some q /\ rendered_at X (block_size_limit opts) t q = Panic) ->
      exists i q, nth_error order i = Some q /\ rendered_at X (block_size_limit opts) t q = Panic
        /\ forall j p, (j < i)%nat -> nth_error order j = Some p -> rendered_at X (block_size_limit opts) t p <> Panic).
    { induction k as [k IH] using lt_wf_ind. intros (q & Ek & Pk).
      destruct (existsb (fun q => match rendered_at X (block_size_limit opts) t q with Panic => true | _ => false end) (firstn k order)) eqn:Q.
      - apply existsb_exists in Q as (q' & I & P'). apply In_nth_error in I as (k' & I). apply nth_firstn in I as [Lk I].
        apply (IH k' Lk). exists q'. split; [exact I|]. destruct (rendered_at X _ t q'); congruence.
      - exists k, q. split; [exact Ek|]. split; [exact Pk|]. intros j' p' L E' P'.
        assert (existsb (fun q => match rendered_at X (block_size_limit opts) t q with Panic => true | _ => false end) (firstn k order) = true); [|congruence].
        apply existsb_exists. exists p'. split; [apply nth_error_In with (n := j'); apply nth_firstn; auto|]. rewrite P'. reflexivity. }
    destruct (First j (ex_intro _ p (conj J Er))) as (i & q & Ei & Pi & Bi). exists (Datatypes.S i). apply nth_error_In with (n := i).
    apply (result_at X opts ks t order R). split; [lia|]. split; [exact Bi|]. left. exists q. auto.
Qed.
Print Assumptions C36_exact.
(** an error without a panic: the too large directory is the only one *)
Example C36_nonvacuous :
  results (toy true) 4 (build (after (builder_new (TreeOptions (Some 10) false)) [Put pab (idc 1) 10]))
    = [Err (TooLargeBlock 18); Ok None; Ok None; Ok None].
Proof. vm_compute. reflexivity. Qed.

(** ** C37 *)

(** The claim is false: no block has a mode or mtime, whatever was set. *)
Theorem C37_refuted : forall X opts ks node,
  ext_ok X -> Forall api_call ks -> emitted X (after (builder_new opts) ks) node -> blen (n_block node) < two32 ->
  exists f, try_parse (ext_dbg X) (n_block node) = Ok f /\ u_mode (f_data f) = None /\ u_mtime (f_data f) = None.
Proof.
  intros X opts ks node HX A E L. destruct (C30_tree opts ks) as (t & Ht & _).
  destruct (C33_blocks X opts ks t node HX A Ht E L) as (names & es & links & _ & _ & P & _). eexists. split; [exact P|]. split; reflexivity.
Qed.
Print Assumptions C37_refuted.
Example C37_refuted_instance : forall dbg, exists node f,
  In (SetMetadata pe (MData (Some 493) (Some (5%Z, 7)))) (accepted (builder_new wrapped) ex_calls)
  /\ emitted (toy dbg) (after (builder_new wrapped) ex_calls) node /\ n_path node = pe
  /\ try_parse (ext_dbg (toy dbg)) (n_block node) = Ok f /\ u_mode (f_data f) = None /\ u_mtime (f_data f) = None.
Proof.
  intros dbg. set (node := node_of (toy dbg) [pe] []).
  assert (E : emitted (toy dbg) (after (builder_new wrapped) ex_calls) node)
    by (apply (succeeds_emits (toy dbg) wrapped ex_calls ex_tree ex_holds [pe]); [apply ex_succeeds|reflexivity|left; reflexivity]).
  destruct (C37_refuted (toy dbg) wrapped ex_calls node (toy_ok dbg) ex_api E) as (f & P & M); [destruct dbg; vm_compute; reflexivity|].
  exists node, f. split; [rewrite ex_accepted; right; right; left; reflexivity|]. auto.
Qed.

(** What is true: setting metadata only makes the directory exist.  Other
    values give the same answers and the same nodes. *)
Theorem C37_values_ignored : forall X opts ks1 ks2,
  Forall2 same_call ks1 ks2 ->
  returns (builder_new opts) ks1 = returns (builder_new opts) ks2
  /\ forall n, results X n (build (after (builder_new opts) ks1)) = results X n (build (after (builder_new opts) ks2)).
Proof.
  intros X opts ks1 ks2 F.
  assert (LD : forall H1 H2, Forall2 same_call H1 H2 ->
     (forall names c s, leaf_in H1 names c s -> leaf_in H2 names c s) /\ (forall names, dir_in H1 names -> dir_in H2 names)).
  { intros H1 H2 FF.
    assert (M : forall k, In k H1 -> exists k2, In k2 H2 /\ same_call k k2).
    { induction FF as [|x y l l' Hxy FF IH]; intros k I; [destruct I|]. destruct I as [<-|I]; [exists y; split; [left; reflexivity|exact Hxy]|].
      destruct (IH k I) as (k2 & I2 & S2). exists k2. split; [right; exact I2|exact S2]. }
    split.
    - intros names c s (p & I & S). destruct (M _ I) as ([p2 c2 s2|] & I2 & E); [|destruct E]. destruct E as (<- & <- & <-). exists p. auto.
    - intros names (N & [(p & md & I & S)|(k & m & r & I & S)]); (split; [exact N|]); destruct (M _ I) as (k2 & I2 & E).
      + destruct k2 as [|p2 md2]; [destruct E|]. cbn in E. subst p2. left. exists p, md2. auto.
      + right. exists k2, m, r. split; [exact I2|]. replace (call_path k2) with (call_path k); [exact S|].
        destruct k, k2; cbn in *; tauto. }
  assert (Sym : forall H1 H2, Forall2 same_call H1 H2 -> Forall2 same_call H2 H1).
  { intros H1 H2 FF. induction FF as [|x y l l' Hxy FF IH]; [constructor|]. constructor; [|exact IH]. destruct x, y; cbn in *; intuition congruence. }
  assert (Main : returns (builder_new opts) ks1 = returns (builder_new opts) ks2
                 /\ Forall2 same_call (accepted (builder_new opts) ks1) (accepted (builder_new opts) ks2)).
  { revert ks2 F. induction ks1 as [|k ks1 IH] using rev_ind; intros ks2 F.
    - inversion F; subst. split; [reflexivity|constructor].
    - apply Forall2_app_inv_l in F as (l2 & l3 & F & G & ->). inversion G as [|? k2 ? ? Sk G2]; subst. inversion G2; subst.
      destruct (IH _ F) as [R AA]. rewrite !returns_app, !accepted_app. cbn [returns accepted]. rewrite R, !app_nil_r.
      destruct (LD _ _ AA) as [L1 D1]. destruct (LD _ _ (Sym _ _ AA)) as [L2 D2].
      assert (EQ : fst (do_call (after (builder_new opts) ks1) k) = fst (do_call (after (builder_new opts) l2) k2)).
      { destruct (C30_accepts opts ks1 k) as (_ & E1 & T1). destruct (C30_accepts opts l2 k2) as (A2 & E2 & _).
        assert (PP : call_path k = call_path k2) by (destruct k, k2; cbn in *; tauto).
        set (H1 := accepted (builder_new opts) ks1) in *. set (H2 := accepted (builder_new opts) l2) in *.
        assert (LL : forall names c s, leaf_in H1 names c s <-> leaf_in H2 names c s) by (split; auto).
        assert (DD : forall names, dir_in H1 names <-> dir_in H2 names) by (split; auto).
        assert (EE : forall names, entry_in H1 names <-> entry_in H2 names).
        { intros names. unfold entry_in. rewrite DD. split; (intros [?|(c & s & ?)]; [auto|right; exists c, s; apply LL; assumption]). }
        assert (NN : H1 = [] <-> H2 = []) by (split; intros N; [rewrite N in AA|rewrite N in AA]; inversion AA; reflexivity).
        assert (RR : forall w names, root_free w H1 names <-> root_free w H2 names).
        { intros w names. unfold root_free. rewrite NN. split; (intros [?|[?|(a & a2 & r & ? & ?)]]; [auto|auto|right; right; exists a, a2, r; split; [assumption|apply EE; assumption]]). }
        assert (TT : forall names, through_leaf H1 names <-> through_leaf H2 names).
        { intros names. unfold through_leaf. split; (intros (pre & a & r & c & s & ? & ?); exists pre, a, r, c, s; split; [assumption|apply LL; assumption]). }
        destruct T1 as [Acc|(e & Ref)].
        - transitivity (@Ok build_error unit tt); [apply call_ok; exact Acc|]. symmetry. apply A2.
          destruct Acc as (W & names & S & RF & T & Q). unfold acceptable. rewrite <- PP. split; [exact W|].
          exists names. split; [exact S|]. split; [apply RR, RF|]. split; [rewrite <- TT; exact T|].
          destruct k as [p c s|p md], k2 as [p2 c2 s2|p2 md2]; try destruct Sk.
          + rewrite <- EE. exact Q.
          + intros (c & s & L). apply Q. exists c, s. apply LL, L.
        - transitivity (@Err build_error unit e); [apply E1; exact Ref|]. symmetry. apply E2.
          unfold refusal in *. rewrite <- PP. destruct Ref as [?|[?|[?|(W & names & S & Q)]]]; [tauto|tauto|tauto|].
          right. right. right. split; [exact W|]. exists names. split; [exact S|].
          rewrite <- RR, <- TT. destruct Q as [?|[?|(RF & T & Q)]]; [tauto|tauto|]. right. right. split; [exact RF|]. split; [exact T|].
          destruct k as [p c s|p md], k2 as [p2 c2 s2|p2 md2]; try destruct Sk.
          + rewrite <- EE. exact Q.
          + destruct Q as [(c & s & L) Q]. split; [exists c, s; apply LL, L|exact Q]. }
      rewrite EQ. split; [reflexivity|]. apply Forall2_app; [exact AA|]. destruct (fst (do_call _ k2)); repeat constructor; assumption. }
  destruct Main as [R AA]. split; [exact R|]. destruct (LD _ _ AA) as [L1 D1]. destruct (LD _ _ (Sym _ _ AA)) as [L2 D2].
  apply C34_same_entries; [intros; split; auto|intros; split; auto].
Qed.
Print Assumptions C37_values_ignored.
Example C37_values_nonvacuous :
  Forall2 same_call [Put pab (idc 1) 10; SetMetadata pe md1] [Put pab (idc 1) 10; SetMetadata pe (MData None None)].
Proof. repeat constructor. Qed.

(** ** C38 *)

(** From the node of any directory on the way, the rest of the path of a link
    resolves, name by name over the returned blocks, to the Cid of the link. *)
Theorem C38_resolves : forall X opts ks get p c s pre post,
  ext_ok X -> Forall api_call ks ->
  let b := after (builder_new opts) ks in
  succeeds X b ->
  (forall node, emitted X b node -> blen (n_block node) < two32 /\ get (n_cid node) = Some (n_block node)) ->
  In (Put p c s) (accepted (builder_new opts) ks) -> segments p (pre ++ post) ->
  post <> [] -> wrap_with_directory opts = true \/ pre <> [] ->
  exists node, emitted X b node /\ n_path node = join pre /\ resolves X get (n_cid node) post c.
Proof.
  intros X opts ks get p c s pre post HX A b Su Store I S Np W. destruct (C30_tree opts ks) as (t & Ht & _).
  assert (Lf : subtree t (pre ++ post) = Some (Leaf c s)) by (apply (proj1 (proj2 Ht)); exists p; auto).
  clear S I p.
  assert (D0 : exists es, subtree t pre = Some (Dir es)).
  { rewrite subtree_app in Lf. destruct (subtree t pre) as [u|]; [|discriminate]. destruct post as [|n post]; [congruence|].
    cbn in Lf. destruct u as [|es]; [discriminate|eauto]. }
  destruct D0 as (es & D0). exists (node_of X pre es).
  pose proof (succeeds_emits X opts ks t Ht pre es Su D0 W) as Em. split; [exact Em|]. split; [reflexivity|].
  revert pre es W D0 Em Lf. induction post as [|n post IH]; intros pre es W D0 Em Lf; [congruence|].
  destruct (Store _ Em) as [Sm G]. cbn [node_of n_block] in Sm. 
  rewrite subtree_app, D0 in Lf. cbn [subtree] in Lf.
  destruct (find_name n es) as [u|] eqn:F; [|discriminate]. apply find_in in F.
  pose proof (proj1 Ht pre es D0) as Srt.
  pose proof (lists_dir X _ _ (block_parses X opts ks t Ht HX A pre es D0 Sm)) as Ls.
  assert (Rs : forall k, fst (resolve X (dir_block X es) n k) = Ok (Found (fst (link_of X u)))).
  { intros k. destruct (C25_plain X _ _ n k (Ls ltac:(repeat split; left; reflexivity))) as (Fd & _). apply Fd.
    exists (entry_link n (link_of X u)). split; [apply (named_sorted X es n u Srt F)|].
    unfold link_cid. cbn [entry_link l_hash]. apply (decode_bytes X HX). apply link_wf; [exact HX|].
    apply (entry_ok opts ks t Ht A pre es n u D0 F). }
  apply resolves_name with (block := dir_block X es) (k := None) (next := fst (link_of X u)); [exact G|apply Rs|].
  destruct post as [|m post].
  - injection Lf as ->. constructor.
  - destruct u as [c' s'|sub]; [discriminate|].
    assert (D1 : subtree t (pre ++ [n]) = Some (Dir sub)).
    { rewrite subtree_app, D0. cbn. rewrite (find_sorted n es (Dir sub)); [reflexivity|exact Srt|exact F]. }
    assert (W1 : wrap_with_directory opts = true \/ pre ++ [n] <> []) by (right; destruct pre; discriminate).
    pose proof (IH ltac:(discriminate) (pre ++ [n]) sub W1 D1 (succeeds_emits X opts ks t Ht _ _ Su D1 W1)) as Q. apply Q.
    rewrite subtree_app, D1. exact Lf.
Qed.
Print Assumptions C38_resolves.
Definition ex_nodes (dbg : bool) : list tree_node :=
  [node_of (toy dbg) [pe] []; node_of (toy dbg) [pa; [x63]] [([x64], Leaf (idc 2) 20)];
   node_of (toy dbg) [pa] [([x62], Leaf (idc 1) 10); ([x63], Dir [([x64], Leaf (idc 2) 20)])];
   node_of (toy dbg) [] [(pa, Dir [([x62], Leaf (idc 1) 10); ([x63], Dir [([x64], Leaf (idc 2) 20)])]); (pe, Dir [])]].
Definition ex_store (dbg : bool) (c : cid) : option bytes :=
  option_map n_block (List.find (fun d => cid_eqb (n_cid d) c) (ex_nodes dbg)).
Lemma ex_emitted dbg node : emitted (toy dbg) (after (builder_new wrapped) ex_calls) node -> In node (ex_nodes dbg).
Proof.
  intros E. destruct (emitted_at (toy dbg) wrapped ex_calls ex_tree ex_holds node E) as (names & es & S & _ & -> & _).
  clear E. unfold ex_nodes. destruct names as [|n names]; [injection S as <-; right; right; right; left; reflexivity|].
  cbn in S. destruct (bytes_eqb n pa) eqn:B.
  - apply bytes_eqb_eq in B as ->. destruct names as [|m names]; [injection S as <-; right; right; left; reflexivity|]. cbn in S.
    destruct (bytes_eqb m [x62]); [destruct names; discriminate|]. destruct (bytes_eqb m [x63]) eqn:B; [|discriminate].
    apply bytes_eqb_eq in B as ->.
    destruct names as [|k names]; [injection S as <-; right; left; reflexivity|]. cbn in S.
    destruct (bytes_eqb k [x64]); [destruct names; discriminate|discriminate].
  - destruct (bytes_eqb n pe) eqn:B2; [|discriminate]. apply bytes_eqb_eq in B2 as ->.
    destruct names as [|m names]; [injection S as <-; left; reflexivity|]. discriminate.
Qed.
Example C38_nonvacuous : forall dbg, exists node,
  emitted (toy dbg) (after (builder_new wrapped) ex_calls) node /\ n_path node = []
  /\ resolves (toy dbg) (ex_store dbg) (n_cid node) [pa; [x63]; [x64]] (idc 2).
Proof.
  intros dbg. apply (C38_resolves (toy dbg) wrapped ex_calls (ex_store dbg) pacd (idc 2) 20 [] [pa; [x63]; [x64]]).
  - apply toy_ok.
  - exact ex_api.
  - apply ex_succeeds.
  - intros node E. apply ex_emitted in E.
    destruct E as [<-|[<-|[<-|[<-|[]]]]]; destruct dbg; split; vm_compute; reflexivity.
  - rewrite ex_accepted. right. left. reflexivity.
  - split; [discriminate|]. split; [|reflexivity]. repeat constructor; (intros I; repeat destruct I as [I|I]; discriminate || destruct I).
  - discriminate.
  - left. reflexivity.
Qed.
