(** * Properties C06-C14: the file adder (/repo/src/file/adder.rs).
    Only theorem statements; the proofs are in Adder_proofs.v, Adder_thms.v.
    The vocabulary (canonical tree, session, ...) is in SpecAdder.v. *)
From Coq Require Import Permutation.
From Verif Require Import Base Wire Cid Sha256 Pb Adder SpecAdder Adder_proofs Adder_thms.

(** Every theorem below quantifies over [X : ext] (SHA-256, Cid decoding and the
    kind of build) with [ext_ok X]; the real functions satisfy it. *)
Example ext_ok_real : forall dbg, ext_ok (real_ext dbg).
Proof. exact real_ext_ok. Qed.

(** Sessions exist for every content: none of the theorems is vacuous. *)
Theorem sessions_exist : forall X chunk bf a0 c, ext_ok X -> cfg_ok chunk bf -> adder_new chunk bf = Ok a0 ->
  blen c <= max_content -> exists out a, session X a0 c out a.
Proof. exact (fun X chunk bf a0 c HX => session_exists X HX chunk bf a0 c). Qed.
Print Assumptions sessions_exist.
Example cfg_ok_ex : cfg_ok 262144 174 /\ cfg_ok 1 2 /\ moderate 262144 174
  /\ adder_new 262144 174 = Ok adder_default.
Proof. repeat split; vm_compute; congruence. Qed.

(** The examples below cut "abcde" into chunks of 2 bytes and join 2 blocks under
    a node.  In place of SHA-256, which takes long to compute here: *)
Definition ex_digest (b : bytes) : bytes := firstn 32 ([n2b (blen b); n2b (sumN (map b2n b))] ++ rev b ++ repeat x00 32).
Definition ex_ext (dbg : bool) : ext := Ext ex_digest cid_decode dbg.
Lemma ex_ext_ok dbg : ext_ok (ex_ext dbg).
Proof.
  constructor; cbn [ex_ext ext_sha256 ext_cid_decode].
  - intros b. unfold ex_digest. rewrite firstn_length, !app_length, repeat_length, rev_length. cbn [length]. lia.
  - apply cid_decode_bytes.
  - apply cid_decode_wf.
Qed.
Lemma session_more X a0 c out a1 input a2 bs n c' out' : session X a0 c out a1 -> push X a1 input = Ok (a2, bs, n) ->
  c' = c ++ firstn (N.to_nat n) input -> out' = out ++ bs -> session X a0 c' out' a2.
Proof. intros H P -> ->. exact (session_push X a0 c out a1 input a2 bs n H P). Qed.
Definition abcd : bytes := [x61; x62; x63; x64].
Definition abcde : bytes := abcd ++ [x65].
(** what there is to see of a block: the number of links and the size of the content *)
Definition outline (dbg : bool) (b : cblock) : option (nat * option N) :=
  match try_parse dbg (snd b) with Ok f => Some (length (f_links f), u_filesize (f_data f)) | _ => None end.
(** The hypotheses of C06 to C14 at once: two chunks are pushed, the rest comes
    from finish. *)
Example adder_nonvacuous : forall dbg, exists a0 out a last,
  ext_ok (ex_ext dbg) /\ cfg_ok 2 2 /\ moderate 2 2 /\ adder_new 2 2 = Ok a0 /\ session (ex_ext dbg) a0 abcde out a
  /\ blen abcde <= max_content /\ finish (ex_ext dbg) a = Ok last
  /\ map (outline dbg) out = [Some (0%nat, Some 2); Some (0%nat, Some 2)]
  /\ map (outline dbg) last = [Some (0%nat, Some 1); Some (2%nat, Some 4); Some (1%nat, Some 1); Some (2%nat, Some 5)].
Proof.
  intros dbg.
  assert (H : exists a0 out a last, adder_new 2 2 = Ok a0 /\ session (ex_ext dbg) a0 abcde out a /\ finish (ex_ext dbg) a = Ok last
    /\ map (outline dbg) out = [Some (0%nat, Some 2); Some (0%nat, Some 2)]
    /\ map (outline dbg) last = [Some (0%nat, Some 1); Some (2%nat, Some 4); Some (1%nat, Some 1); Some (2%nat, Some 5)]).
  { destruct dbg; do 4 eexists; (split; [reflexivity|]);
      (split; [eapply (session_more _ _ [x61; x62; x63; x64] _ _ [x65]); [eapply (session_more _ _ [x61; x62] _ _ [x63; x64]); [eapply (session_more _ _ [] _ _ [x61; x62; x63]); [apply session_start|vm_compute; reflexivity|reflexivity|reflexivity]|vm_compute; reflexivity|reflexivity|reflexivity]|vm_compute; reflexivity|reflexivity|reflexivity]|]); repeat (split; [vm_compute; reflexivity|]); vm_compute; reflexivity. }
  destruct H as (a0 & out & a & last & H1 & H2 & H3 & H4 & H5). exists a0, out, a, last.
  split; [apply ex_ext_ok|]. repeat (split; [first [assumption | repeat split; vm_compute; congruence]|]). exact H5.
Qed.

(** C06: after any session that consumed [c], push takes exactly what fits in
    the current chunk (of which |c| mod chunk bytes are there already) *)
Theorem C06_push_progress : forall X chunk bf a0 c out a input,
  ext_ok X -> cfg_ok chunk bf -> adder_new chunk bf = Ok a0 -> session X a0 c out a ->
  blen c + blen input <= max_content ->
  let n := N.min (blen input) (chunk - blen c mod chunk) in
  (exists a' bs, push X a input = Ok (a', bs, n)) /\ (input <> [] -> 1 <= n).
Proof.
  intros X chunk bf a0 c out a input HX Hcfg Hn Hs Hc. split.
  - destruct (session_push_ok X HX chunk bf a0 c out a Hcfg Hn Hs input Hc) as (a' & bs & P & _). eauto.
  - intros Hne. destruct input as [|x l]; [congruence|]. rewrite blen_cons.
    pose proof (N.mod_lt (blen c) chunk). destruct Hcfg as [? _]. lia.
Qed.
Print Assumptions C06_push_progress.

(** C06: size_hint keeps telling the chunk size *)
Theorem C06_size_hint : forall X chunk bf a0 c out a,
  adder_new chunk bf = Ok a0 -> session X a0 c out a -> size_hint a = chunk.
Proof.
  intros X chunk bf a0 c out a Hn Hs. apply adder_new_ok in Hn. subst a0.
  remember (Adder chunk bf [] []) as a0 eqn:E0. revert E0.
  induction Hs as [a|a c out a1 input a2 bs n Hs IH P]; intros ->; [reflexivity|].
  rewrite <- (IH eq_refl). unfold size_hint. unfold push in P.
  destruct (accept _ _ _ _) as [[acc ready]| | |]; cbn [bind] in P; try discriminate.
  destruct (_ && ready).
  - destruct (flush_buffered_leaf _ _ _ _) as [[leaf|] links]; [|discriminate].
    destruct (flush_links _ _ _ _) as [[l' bl]| | |]; cbn [bind] in P; try discriminate. injection P as <- _ _. reflexivity.
  - destruct ready; cbn [negb] in P; [|injection P as <- _ _; reflexivity].
    destruct (flush_buffered_leaf _ _ _ _) as [[leaf|] links]; [|discriminate].
    destruct (flush_links _ _ _ _) as [[l' bl]| | |]; cbn [bind] in P; try discriminate. injection P as <- _ _. reflexivity.
Qed.
Print Assumptions C06_size_hint.

(** C06 for a chunk size of 0: every push panics *)
Theorem C06_zero_chunk_refuted : forall X a0 input bf,
  adder_new 0 bf = Ok a0 -> push X a0 input = Panic.
Proof.
  intros X a0 input bf H. apply adder_new_ok in H. subst. apply zero_chunk; reflexivity.
Qed.
Print Assumptions C06_zero_chunk_refuted.
Example C06_zero_chunk_accepted : exists a0, adder_new 0 174 = Ok a0.
Proof. eexists. reflexivity. Qed.

(** C07: two sessions over the same bytes return the same blocks, and so does
    finish afterwards *)
Theorem C07_slicing_independent : forall X chunk bf a0 c out1 a1 out2 a2,
  ext_ok X -> cfg_ok chunk bf -> adder_new chunk bf = Ok a0 -> blen c <= max_content ->
  session X a0 c out1 a1 -> session X a0 c out2 a2 ->
  out1 = out2 /\ finish X a1 = finish X a2.
Proof. exact (fun X chunk bf a0 c o1 a1 o2 a2 HX => session_det X HX chunk bf a0 c o1 a1 o2 a2). Qed.
Print Assumptions C07_slicing_independent.

Theorem C07_add_file : forall X chunk bf slices1 slices2,
  ext_ok X -> cfg_ok chunk bf -> concat slices1 = concat slices2 -> blen (concat slices1) <= max_content ->
  add_file X chunk bf slices1 = add_file X chunk bf slices2.
Proof. exact (fun X chunk bf s1 s2 HX => add_file_slices X HX chunk bf s1 s2). Qed.
Print Assumptions C07_add_file.
Example C07_nonvacuous : forall dbg, exists bs, length bs = 6%nat
  /\ add_file (ex_ext dbg) 2 2 [[x61; x62; x63]; [x64; x65]] = Ok bs
  /\ add_file (ex_ext dbg) 2 2 [[x61]; []; [x62]; [x63; x64; x65]] = Ok bs.
Proof. intros dbg. destruct dbg; eexists; (split; [|split]); [|vm_compute; reflexivity| | |vm_compute; reflexivity|]; vm_compute; reflexivity. Qed.

(** C08: nothing, one leaf, or one leaf followed by one link block *)
Theorem C08_at_most_two : forall X chunk bf a0 c out a input a' bs n,
  ext_ok X -> cfg_ok chunk bf -> adder_new chunk bf = Ok a0 -> session X a0 c out a ->
  blen c + blen input <= max_content -> push X a input = Ok (a', bs, n) ->
  (length bs <= 2)%nat
  /\ (bs = [] \/ (exists d, bs = [cblock_of X (FLeaf d)])
      \/ (exists d ts, bs = [cblock_of X (FLeaf d); cblock_of X (FNode ts)])).
Proof.
  intros X chunk bf a0 c out a input a' bs n HX Hcfg Hn Hs Hc Hp.
  destruct (session_push_ok X HX chunk bf a0 c out a Hcfg Hn Hs input Hc) as (a2 & bs2 & P & Sh).
  rewrite P in Hp. injection Hp as _ <- _. split; [|exact Sh].
  destruct Sh as [->|[[d ->]|(d & ts & ->)]]; cbn; auto.
Qed.
Print Assumptions C08_at_most_two.
(** the push of "e" and "f" to an adder with two leaves pending *)
Example C08_nonvacuous : forall dbg, exists a0 out a a' bs,
  adder_new 2 2 = Ok a0 /\ session (ex_ext dbg) a0 abcd out a /\ push (ex_ext dbg) a [x65; x66] = Ok (a', bs, 2)
  /\ map (outline dbg) bs = [Some (0%nat, Some 2); Some (2%nat, Some 4)].
Proof.
  intros dbg. destruct dbg; do 5 eexists; (split; [reflexivity|]);
    (split; [eapply (session_more _ _ [x61; x62] _ _ [x63; x64]); [eapply (session_more _ _ [] _ _ [x61; x62]); [apply session_start|vm_compute; reflexivity|reflexivity|reflexivity]|vm_compute; reflexivity|reflexivity|reflexivity]|]); (split; [vm_compute; reflexivity|]); vm_compute; reflexivity.
Qed.

(** C09: all blocks are those of the canonical tree, root last.  [canonical] is
    functional (second theorem), has all leaves at one depth and holds exactly
    the content. *)
Theorem C09_balanced_tree : forall X chunk bf a0 c out a,
  ext_ok X -> cfg_ok chunk bf -> 2 <= bf \/ blen c <= chunk -> adder_new chunk bf = Ok a0 ->
  session X a0 c out a -> blen c <= max_content ->
  exists last r before,
    finish X a = Ok last
    /\ canonical chunk bf c r
    /\ out ++ last = before ++ [cblock_of X r]
    /\ Permutation (out ++ last) (tree_blocks X r).
Proof.
  intros X chunk bf a0 c out a HX Hcfg Hb Hn Hs Hc.
  destruct (session_finish X HX chunk bf a0 c out a Hcfg Hn Hs Hb Hc) as (last & r & all' & F1 & F2 & F3 & _ & F5).
  exists last, r, (map (cblock_of X) all'). rewrite F3. split; [exact F1|]. split; [exact F2|].
  split; [rewrite map_app; reflexivity|]. apply Permutation_map. exact F5.
Qed.
Print Assumptions C09_balanced_tree.

Theorem C09_canonical : forall chunk bf c r,
  1 <= chunk -> 1 <= bf -> canonical chunk bf c r ->
  content r = c /\ (exists h, uniform h r) /\ (forall r', canonical chunk bf c r' -> r' = r).
Proof.
  intros chunk bf c r Hc Hb H. split; [|split].
  - exact (canonical_content chunk bf c r Hc Hb H).
  - exact (canonical_uniform chunk bf c r Hb H).
  - intros r' H'. eapply canonical_unique; eassumption.
Qed.
Print Assumptions C09_canonical.

(** the same through the way callers drive it *)
Theorem C09_add_file : forall X chunk bf slices,
  ext_ok X -> cfg_ok chunk bf -> 2 <= bf \/ blen (concat slices) <= chunk -> blen (concat slices) <= max_content ->
  exists r before, add_file X chunk bf slices = Ok (before ++ [cblock_of X r])
    /\ canonical chunk bf (concat slices) r
    /\ Permutation (before ++ [cblock_of X r]) (tree_blocks X r).
Proof. exact (fun X chunk bf s HX => add_file_ok X HX chunk bf s). Qed.
Print Assumptions C09_add_file.
Example C09_nonvacuous : canonical 2 2 abcde (FNode [FNode [FLeaf [x61; x62]; FLeaf [x63; x64]]; FNode [FLeaf [x65]]]).
Proof.
  unfold canonical. change (map FLeaf (chunks (N.to_nat 2) abcde)) with [FLeaf [x61; x62]; FLeaf [x63; x64]; FLeaf [x65]].
  apply bal_level; [vm_compute; lia|]. apply bal_level; [vm_compute; lia|]. apply bal_one.
Qed.

(** C10: every emitted block parses, and its sizes are those of its subtree *)
Theorem C10_sizes : forall X dbg chunk bf a0 c out a last cd b,
  ext_ok X -> cfg_ok chunk bf -> moderate chunk bf -> 2 <= bf \/ blen c <= chunk ->
  adder_new chunk bf = Ok a0 -> session X a0 c out a -> blen c <= max_content ->
  finish X a = Ok last -> In (cd, b) (out ++ last) ->
  exists r t m,
    canonical chunk bf c r /\ In t (nodes r) /\ cblock_of X t = (cd, b)
    /\ try_parse dbg b = Ok m
    /\ u_type (f_data m) = File
    /\ u_filesize (f_data m) = Some (blen (content t))
    /\ u_blocksizes (f_data m) = map (fun ch => blen (content ch)) (children t)
    /\ (children t <> [] -> sumN (u_blocksizes (f_data m)) = blen (content t))
    /\ u_data (f_data m) = match t with FLeaf (x :: d) => Some (x :: d) | _ => None end
    /\ map l_hash (f_links m) = map (fun ch => Some (cid_bytes (fst (cblock_of X ch)))) (children t)
    /\ map l_tsize (f_links m)
       = map (fun ch => Some (sumN (map (fun b => blen (snd b)) (tree_blocks X ch)))) (children t).
Proof.
  intros X dbg chunk bf a0 c out a last cd b HX Hcfg Hm Hb Hn Hs Hc Hf Hin.
  destruct (session_finish X HX chunk bf a0 c out a Hcfg Hn Hs Hb Hc) as (last' & r & all' & F1 & F2 & F3 & _ & F5).
  rewrite Hf in F1. injection F1 as <-. rewrite F3 in Hin. apply in_map_iff in Hin as (t & Et & Ht).
  apply (Permutation_in _ F5) in Ht.
  destruct (emitted_parse X HX dbg chunk bf c r t Hcfg Hm Hb Hc F2 Ht) as (m & M1 & M2 & M3 & M4 & M5 & M6 & M7 & M8 & _).
  exists r, t, m. unfold cblock_of in Et. injection Et as E1 E2. subst b cd. auto 15.
Qed.
Print Assumptions C10_sizes.

(** C11 (adder part): in every state, whatever it returns is named by its hash:
    version 1, codec 0x70 (dag-pb), hash function 0x12 (SHA-256), its digest *)
Theorem C11_adder_cids : forall X a,
  (forall input a' bs n, push X a input = Ok (a', bs, n) ->
     Forall (fun b => fst b = Cid true 0x70 0x12 (ext_sha256 X (snd b))) bs)
  /\ (forall fuel bs, finish_fuel X fuel a = Ok bs ->
     Forall (fun b => fst b = Cid true 0x70 0x12 (ext_sha256 X (snd b))) bs).
Proof. exact (fun X a => conj (push_named X a) (fun fuel bs => finish_named X fuel a bs)). Qed.
Print Assumptions C11_adder_cids.
(** and such a Cid is, in links, the bytes 01 70 12 20 and the 32 bytes of the digest *)
Theorem C11_cid_bytes : forall X block, ext_ok X ->
  cid_bytes (Cid true 0x70 0x12 (ext_sha256 X block)) = [x01; x70; x12; x20] ++ ext_sha256 X block.
Proof.
  intros X b HX. unfold cid_bytes, mh_bytes. cbn [cid_v1 cid_codec cid_code cid_digest].
  replace (blen (ext_sha256 X b)) with 32 by (unfold blen; rewrite (sha_len X HX b); reflexivity). reflexivity.
Qed.
Print Assumptions C11_cid_bytes.

(** C12: whatever prefix of the blocks has been stored, all links of a stored
    block point to a block stored before it *)
Theorem C12_children_first : forall X dbg chunk bf a0 c out a last before cd b after,
  ext_ok X -> cfg_ok chunk bf -> moderate chunk bf -> 2 <= bf \/ blen c <= chunk ->
  adder_new chunk bf = Ok a0 -> session X a0 c out a -> blen c <= max_content ->
  finish X a = Ok last -> out ++ last = before ++ (cd, b) :: after ->
  exists m, try_parse dbg b = Ok m
    /\ Forall (fun l => exists cd' b', In (cd', b') before /\ l_hash l = Some (cid_bytes cd')) (f_links m).
Proof.
  intros X dbg chunk bf a0 c out a last before cd b after HX Hcfg Hm Hb Hn Hs Hc Hf E.
  destruct (session_finish X HX chunk bf a0 c out a Hcfg Hn Hs Hb Hc) as (last' & r & all' & F1 & F2 & F3 & F4 & F5).
  rewrite Hf in F1. injection F1 as <-. rewrite F3 in E.
  eapply emitted_order; eassumption.
Qed.
Print Assumptions C12_children_first.

(** C13: finish returns, for every branching factor of at least 2, or when the
    file fits in one chunk.  These are all the cases in which it returns: C13_exact
    below. *)
Theorem C13_finish_terminates : forall X chunk bf a0 c out a,
  ext_ok X -> cfg_ok chunk bf -> adder_new chunk bf = Ok a0 -> session X a0 c out a -> blen c <= max_content ->
  2 <= bf \/ blen c <= chunk -> exists last, finish X a = Ok last.
Proof.
  intros X chunk bf a0 c out a HX Hcfg Hn Hs Hc Hb.
  destruct (session_finish X HX chunk bf a0 c out a Hcfg Hn Hs Hb Hc) as (last & _ & _ & F1 & _). eauto.
Qed.
Print Assumptions C13_finish_terminates.

(** C13 refuted: with branching factor 1 finish never returns once there is more
    than one chunk, however many levels it is given *)
Theorem C13_finish_terminates_refuted : forall X chunk a0 c out a,
  ext_ok X -> cfg_ok chunk 1 -> adder_new chunk 1 = Ok a0 -> session X a0 c out a ->
  blen c <= max_content -> chunk < blen c ->
  forall levels blocks, finish_fuel X levels a <> Ok blocks.
Proof.
  intros X chunk a0 c out a HX Hcfg Hn Hs Hc Hbig.
  apply adder_new_ok in Hn. eapply finish_bf1; try eassumption. eapply session_state; eassumption.
Qed.
Print Assumptions C13_finish_terminates_refuted.
(** C13, exactly: finish returns (after some number of levels) if and only if the
    branching factor is at least two or there is a single chunk *)
Theorem C13_exact : forall X chunk bf a0 c out a,
  ext_ok X -> cfg_ok chunk bf -> adder_new chunk bf = Ok a0 -> session X a0 c out a -> blen c <= max_content ->
  (exists levels blocks, finish_fuel X levels a = Ok blocks) <-> 2 <= bf \/ blen c <= chunk.
Proof.
  intros X chunk bf a0 c out a HX Hcfg Hn Hs Hc. split.
  - intros (levels & blocks & H). destruct (N.le_gt_cases 2 bf) as [|B]; [left; assumption|]. destruct (N.le_gt_cases (blen c) chunk) as [|C]; [right; assumption|].
    assert (bf = 1) as -> by (destruct Hcfg as [_ [? _]]; lia).
    destruct (C13_finish_terminates_refuted X chunk a0 c out a HX Hcfg Hn Hs Hc C levels blocks H).
  - intros H. destruct (C13_finish_terminates X chunk bf a0 c out a HX Hcfg Hn Hs Hc H) as [last F]. eexists. exists last. exact F.
Qed.
Print Assumptions C13_exact.
Example C13_refuted_nonvacuous : exists a0 out a,
  session (real_ext true) a0 [x61; x62; x63] out a /\ adder_new 1 1 = Ok a0 /\ cfg_ok 1 1.
Proof.
  destruct (sessions_exist (real_ext true) 1 1 (Adder 1 1 [] []) [x61; x62; x63]) as (out & a & H).
  - apply real_ext_ok.
  - repeat split; vm_compute; congruence.
  - reflexivity.
  - vm_compute. congruence.
  - exists (Adder 1 1 [] []), out, a. split; [exact H|]. split; [reflexivity|]. repeat split; vm_compute; congruence.
Qed.

(** C14: every emitted block is a leaf of at most [chunk] content bytes without
    links, or a link block without data of 1 to [bf] links *)
Theorem C14_limits : forall X dbg chunk bf a0 c out a last cd b,
  ext_ok X -> cfg_ok chunk bf -> moderate chunk bf -> 2 <= bf \/ blen c <= chunk ->
  adder_new chunk bf = Ok a0 -> session X a0 c out a -> blen c <= max_content ->
  finish X a = Ok last -> In (cd, b) (out ++ last) ->
  exists m, try_parse dbg b = Ok m
    /\ (   (f_links m = [] /\ match u_data (f_data m) with Some d => blen d <= chunk | None => c = [] end)
        \/ (u_data (f_data m) = None /\ 1 <= N.of_nat (length (f_links m)) <= bf)).
Proof.
  intros X dbg chunk bf a0 c out a last cd b HX Hcfg Hm Hb Hn Hs Hc Hf Hin.
  destruct (session_finish X HX chunk bf a0 c out a Hcfg Hn Hs Hb Hc) as (last' & r & all' & F1 & F2 & F3 & _ & F5).
  rewrite Hf in F1. injection F1 as <-. rewrite F3 in Hin. apply in_map_iff in Hin as (t & Et & Ht).
  apply (Permutation_in _ F5) in Ht.
  destruct (emitted_parse X HX dbg chunk bf c r t Hcfg Hm Hb Hc F2 Ht) as (m & M1 & M2 & M3 & M4 & M5 & M6 & M7 & _).
  unfold cblock_of in Et. injection Et as E1 E2. subst b cd. exists m. split; [exact M1|].
  destruct Hcfg as [Hc1 Hc2].
  pose proof (canonical_limits chunk bf c r (proj1 Hc1) (proj1 Hc2) F2) as HL. rewrite Forall_forall in HL.
  specialize (HL t Ht). apply (f_equal (@length _)) in M7. rewrite !map_length in M7.
  destruct t as [d|ts]; cbn [node_ok children] in *.
  - left. split; [destruct (f_links m); [reflexivity | discriminate]|].
    rewrite M6. destruct d as [|x d]; [|exact HL].
    eapply canonical_empty_leaf; [exact (proj1 Hc1) | exact (proj1 Hc2) | exact F2 | exact Ht].
  - right. split; [exact M6|]. rewrite M7. exact HL.
Qed.
Print Assumptions C14_limits.

(** C14: the default adder is the one with chunks of 256 KiB and up to 174 links *)
Theorem C14_defaults : adder_new 262144 174 = Ok adder_default /\ size_hint adder_default = 262144.
Proof. split; reflexivity. Qed.
Print Assumptions C14_defaults.
