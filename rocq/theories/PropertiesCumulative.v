(** * Property C65: the total size of the last node is that of the whole tree.
    The proofs are in Cumulative_proofs.v. *)
From Coq Require Import Sorting.Permutation.
From Verif Require Import Base Tac Wire Utf8 Cid Pb Dagpb Reader Visit Dir Builder Adder SpecAdder SpecBuilder Builder_proofs Builder_thms Builder_use Cumulative_proofs
  SpecWalk Programs SpecPrograms Programs_proofs Examples_file Examples_dir Examples_builder PropertiesBuilder Ingest SpecIngest Ingest_proofs Examples_ingest PropertiesIngest.

(** The iterator returns the nodes [nodes ++ [node]] and is then at its end: the
    total size of the last one counts the blocks of all of them and the sizes
    given for all links put (the calls refused do not count), modulo 2^64; with
    overflow checks exactly. *)
Theorem C65_cumulative : forall X opts ks nodes node n,
  results X n (build (after (builder_new opts) ks)) = map (fun x => Ok (Some x)) (nodes ++ [node]) ++ [Ok None] ->
  let total := sumN (map (fun x => blen (n_block x)) (nodes ++ [node])) + sumN (map put_size (accepted (builder_new opts) ks)) in
  n_total_size node = total mod two64 /\ (ext_dbg X = true -> total < two64).
Proof.
  intros X opts ks nodes node n R. destruct (C30_tree opts ks) as (t & Ht & _). exact (cumulative X opts ks t Ht nodes node n R).
Qed.
Print Assumptions C65_cumulative.

(** a tree of three directories and three links with and without wrapping *)
Example C65_nonvacuous : forall dbg,
  (exists nodes node, length nodes = 2%nat /\ results (toy dbg) 4 (build (after (builder_new wrapped) [Put pab (idc 1) 10; Put pacd (idc 2) 20; Put pab (idc 3) 5]))
     = map (fun x => Ok (Some x)) (nodes ++ [node]) ++ [Ok None])
  /\ exists node, results (toy dbg) 2 (build (after (builder_new unwrapped) [Put pab (idc 1) 10; Put pe (idc 2) 20]))
     = map (fun x => Ok (Some x)) ([] ++ [node]) ++ [Ok None].
Proof.
  intros dbg. split.
  - eexists [_; _], _. split; [reflexivity|]. destruct dbg; vm_compute; reflexivity.
  - eexists. destruct dbg; vm_compute; reflexivity.
Qed.

(** The end of the iteration: only nodes before the first [None]. *)
Lemma all_nodes X opts ks n before node :
  succeeds X (after (builder_new opts) ks) ->
  results X n (build (after (builder_new opts) ks)) = before ++ [Ok (Some node); Ok None] ->
  exists nodes, before = map (fun x => Ok (Some x)) nodes.
Proof.
  intros Su R. destruct (C30_tree opts ks) as (t & Ht & _). destruct (iterate X opts ks t Ht) as (order & _ & It).
  pose proof (result_at X opts ks t order It n) as RA. rewrite R in RA.
  assert (S : forall i r, nth_error before i = Some r -> exists x, r = Ok (Some x)).
  { intros i r E. assert (L : (i < length before)%nat) by (apply nth_error_Some; congruence).
    assert (I : In r (results X n (build (after (builder_new opts) ks)))) by (rewrite R; apply in_app_iff; left; eapply nth_error_In, E).
    destruct (Su n r I) as ([x|] & ->); [eauto|exfalso].
    destruct (proj1 (RA i (Ok None))) as (_ & _ & [(p & _ & Q)|[G _]]);
      [rewrite nth_error_app1 by exact L; exact E|exact (at_none X opts t p (eq_sym Q))|].
    destruct (proj1 (RA (length before) (Ok (Some node)))) as (_ & _ & [(p & Ep & Q)|[_ Q]]); [rewrite nth_error_app2, Nat.sub_diag by lia; reflexivity| |discriminate].
    assert (length before < length order)%nat by (apply nth_error_Some; congruence). lia. }
  clear - S. induction before as [|r before IH]; [exists []; reflexivity|].
  destruct (S O r eq_refl) as (x & ->). destruct IH as (nodes & ->); [intros i r E; apply (S (Datatypes.S i) r E)|]. exists (x :: nodes). reflexivity.
Qed.

(** What ingest_tar reports as the total size counts every block of every file and
    link of the archive and every directory block of the tree. *)
Theorem C65_ingested : forall X es arch fuel buffer root size len,
  ext_ok X -> Forall2 entry_of es arch -> Forall sensible arch ->
  ingest_tar X fuel (map Some es) buffer = Ok (root, size, len) ->
  exists ks n nodes kbss, Forall2 (call_for X) arch ks /\ Forall2 (blocks_for X) arch kbss
  /\ results X n (build (after ingest_start ks)) = map (fun x => Ok (Some x)) nodes ++ [Ok None]
  /\ let total := all_bytes (map n_block nodes) + all_bytes (map snd (concat kbss)) in
     size = total mod two64 /\ (ext_dbg X = true -> total < two64).
Proof.
  intros X es arch fuel buffer root size len HX F S R.
  assert (NW : forall path content, In (Regular path content) arch -> blen content <> 262144).
  { intros path content I L. rewrite (C62_whole_chunk_refuted X es arch path content HX F S I L) in R. discriminate. }
  destruct (C62_ingest X es arch HX F S NW) as (ks & Fk & Good & Bad).
  destruct (entries_calls X HX es arch F S NW) as (ks' & Fk' & _ & _ & I).
  rewrite (C62_calls_unique X arch ks' ks Fk' Fk) in *. clear ks' Fk'.
  pose proof (consistent_calls X ingest_options arch ks eq_refl Fk) as CC.
  destruct (I ingest_options [] [] buffer) as [IO IP]. cbn [after app] in IO, IP. rewrite app_nil_r in IO, IP.
  assert (D : Forall (eq (Ok tt)) (returns (builder_new ingest_options) ks) \/ ~ Forall (eq (Ok tt)) (returns (builder_new ingest_options) ks)).
  { clear. induction (returns (builder_new ingest_options) ks) as [|o l IH]; [left; constructor|].
    destruct o as [[]|e| |]; try (right; intros Q; apply Forall_cons_iff in Q as [Q _]; discriminate).
    destruct IH as [Q|Q]; [left; constructor; auto|right; intros Q'; apply Q; apply Forall_cons_iff in Q' as [_ Q']; exact Q']. }
  destruct D as [C|C]; [|unfold ingest_tar in R; rewrite (IP C) in R; discriminate].
  destruct (IO C) as (buffer' & E). unfold ingest_tar in R. rewrite E in R. cbn [ingest_entries bind fst] in R.
  assert (Mono : forall fuel fuel' it last r, last_node X fuel it last = Ok r -> (fuel <= fuel')%nat -> last_node X fuel' it last = Ok r).
  { clear. induction fuel as [|fuel IH]; intros fuel' it last r Q L; [discriminate|]. destruct fuel' as [|fuel']; [lia|]. cbn [last_node] in *.
    destruct (next X it) as [o it']. destruct o as [[n|]| | |]; try discriminate; [|exact Q]. apply (IH _ _ _ _ Q). lia. }
  destruct (last_node X fuel (build (after (builder_new ingest_options) ks)) None) as [r| | |] eqn:Q; try discriminate. cbn [bind] in R.
  destruct (C30_tree ingest_options ks) as (t & Ht & _).
  destruct (last_of_wrapped X ingest_options ks t Ht eq_refl) as [(node & N & es' & Fi & _ & _ & P)|[_ (N & P)]].
  2:{ pose proof (Mono fuel (fuel + N)%nat _ _ _ Q ltac:(lia)) as Q'. rewrite P in Q' by lia. discriminate. }
  pose proof (Mono fuel (fuel + N)%nat _ _ _ Q ltac:(lia)) as Q'. rewrite P in Q' by lia. injection Q' as <-. cbn [unwrap] in R. injection R as <- <- _.
  destruct Fi as (Su & n & before & Rn). destruct (all_nodes X ingest_options ks n before node Su Rn) as (nodes & ->).
  assert (K : exists kbss, Forall2 (blocks_for X) arch kbss /\ all_bytes (map snd (concat kbss)) = sumN (map put_size ks)).
  { clear - Fk. induction Fk as [|a k arch ks (kbs & B & H) Fk (kbss & Fb & E)]; [exists []; split; [constructor|reflexivity]|].
    exists (kbs :: kbss). split; [constructor; assumption|]. cbn [concat]. rewrite map_app, all_bytes_sum, map_app, sumN_app, <- !all_bytes_sum, E.
    cbn [map]. rewrite sumN_cons. f_equal. destruct a as [p c|p tg|p]; [destruct H as (b0 & r0 & _ & ->); reflexivity|destruct H as (b0 & r0 & _ & ->); reflexivity|].
    rewrite H. cbn [blocks_for] in B. rewrite B. reflexivity. }
  destruct K as (kbss & Fb & Sum). exists ks, n, (nodes ++ [node]), kbss. split; [exact Fk|]. split; [exact Fb|].
  assert (Rn' : results X n (build (after ingest_start ks)) = map (fun x => Ok (Some x)) (nodes ++ [node]) ++ [Ok None]).
  { unfold ingest_start. change (builder_new (TreeOptions (Some (512 * 1024)) true)) with (builder_new ingest_options). rewrite Rn, map_app, <- app_assoc. reflexivity. }
  split; [exact Rn'|]. intros total.
  pose proof (C65_cumulative X ingest_options ks nodes node n Rn') as T. rewrite (all_accepted _ ks C), <- Sum in T.
  unfold total. rewrite all_bytes_sum, map_map. exact T.
Qed.
Print Assumptions C65_ingested.
(** the archive of C62_nonvacuous and C63_nonvacuous *)
Example C65_ingested_nonvacuous : forall dbg, exists fuel root size len,
  ingest_tar (toy dbg) fuel (map Some tar1) [] = Ok (root, size, len) /\ Forall2 entry_of tar1 arch1 /\ Forall sensible arch1.
Proof.
  intros dbg. destruct (C62_nonvacuous dbg) as (_ & F & S & _ & _ & _ & node & N & G).
  exists N, (n_cid node), (n_total_size node), (blen (n_block node)). split; [apply G; lia|]. auto.
Qed.
