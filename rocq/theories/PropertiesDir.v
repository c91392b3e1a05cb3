(** * Properties C25-C29 and the directory parts of C24 and C46: resolving names
    (/repo/src/dir.rs, /repo/src/dir/sharded_lookup.rs).
    Only theorem statements and short glue; the proofs are in Dir_proofs.v, the
    vocabulary in SpecDir.v, the concrete directories in Examples_dir.v. *)
From Coq Require Import Permutation.
From Verif Require Import Base Tac Wire Utf8 Cid Sha256 Pb Reader Dir SpecFile SpecDir Parse_safety Parsed
  Dir_proofs Examples_file Examples_dir.

(** ** C25 *)

Lemma named_none links n : named links n = [] <-> forall l, In l links -> name_of l <> n.
Proof.
  unfold named. induction links as [|l ls IH]; cbn [filter]; [split; [intros _ l []|reflexivity]|].
  destruct (bytes_eqb (name_of l) n) eqn:E.
  - apply bytes_eqb_eq in E. split; [discriminate|]. intros H. exfalso. apply (H l); [left; reflexivity|exact E].
  - apply bytes_eqb_neq in E. rewrite IH. split; intros H l0; [intros [->|I]; auto|intros I; apply H; right; exact I].
Qed.
Lemma named_at pre l post n :
  name_of l = n -> (forall l, In l pre -> name_of l <> n) -> named (pre ++ l :: post) n = l :: named post n.
Proof.
  intros N P. unfold named. rewrite filter_app. fold (named pre n). rewrite (proj2 (named_none pre n) P).
  cbn [app filter]. rewrite N, bytes_eqb_refl. reflexivity.
Qed.

(** resolve on a directory: one link with the name, none, several, or one
    whose hash is no Cid *)
Theorem C25_plain : forall X block links needle k,
  lists X block links ->
  let r := fst (resolve X block needle k) in
  (forall c, r = Ok (Found c) <-> exists l, named links needle = [l] /\ link_cid X l = Some c)
  /\ (r = Ok NotFound <-> named links needle = [])
  /\ (forall c, (exists m, r = Err (RLookup (LMultiple m)) /\ multiple_into_inner m = c)
        <-> exists l l2 ls, named links needle = l :: l2 :: ls /\ link_cid X l = Some c)
  /\ ((exists e, r = Err (RLookup (LInvalidCid e)))
        <-> exists l ls, named links needle = l :: ls /\ link_cid X l = None)
  /\ snd (resolve X block needle k) = k.
Proof.
  intros X block links needle k L r. subst r. rewrite (resolve_lists X block links needle k L). cbn [fst snd].
  pose proof (resolve_plain_case X links needle) as C. generalize dependent (resolve_plain X links needle).
  intros r C. unfold plain_case in C.
  destruct C as [[H ->]|(pre & l & post & -> & N & P & [[C ->]|(c & C & [[Q ->]|(mid & l2 & post2 & -> & N2 & P2 & ->)])])].
  - apply named_none in H. rewrite H. repeat split; try discriminate;
      intros; repeat match goal with H : exists _, _ |- _ => destruct H end; intuition discriminate.
  - rewrite (named_at _ _ _ _ N P).
    split; [intros c; split; [discriminate|intros (l0 & E & E2); injection E as <- _; congruence]|].
    split; [split; discriminate|].
    split; [intros c; split; [intros (m & E & _); discriminate|intros (l0 & l2 & ls & E & E2); injection E as <- _; congruence]|].
    split; [|reflexivity]. split; [intros _; eauto|eauto].
  - apply named_none in Q. rewrite (named_at _ _ _ _ N P), Q.
    split; [intros c0; split; [intros E; injection E as <-; eauto|intros (l0 & E & E2); injection E as <-; congruence]|].
    split; [split; discriminate|].
    split; [intros c0; split; [intros (m & E & _); discriminate|intros (l0 & l2 & ls & E & E2); discriminate]|].
    split; [|reflexivity]. split; [intros (e & E); discriminate|intros (l0 & ls & E & E2); injection E as <- _; congruence].
  - rewrite (named_at _ _ _ _ N P), (named_at _ _ _ _ N2 P2).
    split; [intros c0; split; [discriminate|intros (l0 & E & E2); discriminate]|].
    split; [split; discriminate|].
    split; [intros c0; split|].
    + intros (m & E & M). injection E as <-. exists l, l2, (named post2 needle). split; [reflexivity|].
      destruct (link_cid X l2); cbn in M; congruence.
    + intros (l0 & l3 & ls & E & E2). injection E as <- _. eexists. split; [reflexivity|].
      destruct (link_cid X l2); cbn; congruence.
    + split; [|reflexivity]. split; [intros (e & E); discriminate|intros (l0 & ls & E & E2); injection E as <- _; congruence].
Qed.
Print Assumptions C25_plain.

(** the indices reported with several links are those of the first two *)
Theorem C25_indices : forall X block links needle k m,
  lists X block links -> fst (resolve X block needle k) = Err (RLookup (LMultiple m)) ->
  exists i j l1 l2 c1, (i < j)%nat
    /\ nth_error links i = Some l1 /\ nth_error links j = Some l2
    /\ name_of l1 = needle /\ name_of l2 = needle
    /\ (forall n l, (n < j)%nat -> n <> i -> nth_error links n = Some l -> name_of l <> needle)
    /\ link_cid X l1 = Some c1
    /\ m = match link_cid X l2 with
           | Some c2 => Two (i, c1) (j, c2)
           | None => OneValid (i, c1) (InvalidCidInLink j (match l_hash l2 with Some h => h | None => [] end) needle)
           end.
Proof.
  intros X block links needle k m L H. rewrite (resolve_lists X block links needle k L) in H. cbn [fst] in H.
  pose proof (resolve_plain_case X links needle) as C. rewrite H in C.
  destruct C as [[_ E]|(pre & l & post & -> & N & P & [[C E]|(c & C & [[Q E]|(mid & l2 & post2 & -> & N2 & P2 & E)])])];
    try discriminate.
  exists (length pre), (S (length pre) + length mid)%nat, l, l2, c.
  assert (S1 : nth_error (pre ++ l :: mid ++ l2 :: post2) (length pre) = Some l).
  { rewrite nth_error_app2, Nat.sub_diag by lia. reflexivity. }
  assert (S2 : nth_error (pre ++ l :: mid ++ l2 :: post2) (S (length pre) + length mid) = Some l2).
  { rewrite nth_error_app2 by lia. replace (S (length pre) + length mid - length pre)%nat with (S (length mid)) by lia.
    cbn [nth_error]. rewrite nth_error_app2, Nat.sub_diag by lia. reflexivity. }
  split; [lia|]. split; [exact S1|]. split; [exact S2|]. split; [exact N|]. split; [exact N2|].
  split.
  { intros n l0 Hn Hi E0. destruct (Nat.lt_ge_cases n (length pre)) as [G|G].
    - rewrite nth_error_app1 in E0 by exact G. apply P. eapply nth_error_In; exact E0.
    - rewrite nth_error_app2 in E0 by exact G. destruct (n - length pre)%nat as [|n'] eqn:D; [lia|].
      cbn [nth_error] in E0. rewrite nth_error_app1 in E0 by lia. apply P2. eapply nth_error_In; exact E0. }
  split; [exact C|]. injection E as ->.
  destruct (link_cid X l2); [reflexivity|]. unfold invalid_cid_of, opt.
  unfold name_of in N2. destruct (l_name l2), (l_hash l2); rewrite <- N2; reflexivity.
Qed.
Print Assumptions C25_indices.
Example C25_nonvacuous : forall X, ext_ok X -> exists block links,
  lists X block links /\ length links = 4%nat
  /\ fst (resolve X block [x62] None) = Ok (Found (idc 2))
  /\ fst (resolve X block [x63] None) = Ok NotFound
  /\ fst (resolve X block [x61] None) = Err (RLookup (LMultiple (Two (0%nat, idc 1) (2%nat, idc 3)))).
Proof.
  intros X HX. exists (flat_write d_plain), (f_links d_plain). pose proof (d_plain_lists X) as L. split; [exact L|].
  split; [reflexivity|].
  destruct (C25_plain X _ _ [x62] None L) as (F & _). destruct (C25_plain X _ _ [x63] None L) as (_ & NF & _).
  split; [apply F; exists (nlnk 2 [x62]); split; [reflexivity|apply nlnk_cid, HX]|].
  split; [apply NF; reflexivity|].
  destruct (C25_plain X _ _ [x61] None L) as (_ & _ & M & _).
  destruct (proj2 (M (idc 1))) as (m & E & _).
  { exists (nlnk 1 [x61]), (nlnk 3 [x61]), []. split; [reflexivity|apply nlnk_cid, HX]. }
  destruct (C25_indices X _ _ _ _ _ L E) as (i & j & l1 & l2 & c1 & LT & A & B & NA & NB & O & C1 & ->).
  rewrite E. f_equal. f_equal. f_equal.
  assert (I : i = 0%nat /\ j = 2%nat).
  { destruct i as [|[|[|[|i]]]]; cbn in A; try (injection A as <-); try discriminate NA.
    - split; [reflexivity|]. destruct j as [|[|[|[|j]]]]; cbn in B; try (injection B as <-); try discriminate NB; try lia.
      destruct j; discriminate.
    - destruct j as [|[|[|[|j]]]]; cbn in B; try (injection B as <-); try discriminate NB; try lia; destruct j; discriminate.
    - destruct i; discriminate. }
  destruct I as [-> ->]. cbn in A, B. injection A as <-. injection B as <-.
  rewrite nlnk_cid in C1 |- * by exact HX. injection C1 as <-. reflexivity.
Qed.

(** ** C26 *)

(** Every block is classified by its contents, and success is only possible for
    directories (of the two kinds) and dag-pb nodes which are no UnixFS *)
Theorem C26_classify : forall X block needle k,
  let r := fst (resolve X block needle k) in
  (forall e, try_parse (ext_dbg X) block = Err (InvalidDagPb e) -> r = Err (RRead e))
  /\ (forall f, try_parse (ext_dbg X) block = Ok f ->
       u_type (f_data f) <> Directory -> u_type (f_data f) <> HAMTShard ->
       r = Err (RUnexpectedType (u_type (f_data f))))
  /\ (forall f, try_parse (ext_dbg X) block = Ok f -> u_type (f_data f) = Directory -> ~ supported_dir (f_data f) ->
       r = Err (RUnexpectedDirProperties
              (DirProps (u_filesize (f_data f)) (u_blocksizes (f_data f)) (u_hashtype (f_data f))
                 (u_fanout (f_data f)) (u_data (f_data f)))))
  /\ (forall f, try_parse (ext_dbg X) block = Ok f -> u_type (f_data f) = HAMTShard -> ~ supported_shard (f_data f) ->
       (~ (u_fanout (f_data f) = Some 256 /\ u_hashtype (f_data f) = Some 34) /\
        r = Err (RLookup (LShard (UnsupportedProperties (u_hashtype (f_data f)) (u_fanout (f_data f))))))
       \/ ((u_fanout (f_data f) = Some 256 /\ u_hashtype (f_data f) = Some 34) /\
        r = Err (RLookup (LShard (UnexpectedProperties (u_filesize (f_data f)) (u_blocksizes (f_data f)))))))
  /\ (forall a, r = Ok a ->
       (exists links, lists X block links /\ final a)
       \/ exists f, try_parse (ext_dbg X) block = Ok f /\ supported_shard (f_data f)).
Proof.
  intros X block needle k r. subst r. unfold resolve.
  split; [intros e ->; reflexivity|].
  split; [intros f -> D H; destruct (u_type (f_data f)); try congruence; reflexivity|].
  split.
  { intros f -> T NS. rewrite T. destruct (check_dir_ok f T) as [[S _]|[_ ->]]; [tauto|reflexivity]. }
  split.
  { intros f -> T NS. rewrite T. unfold lookup_or_start.
    destruct (check_shard_ok f T) as [[S _]|[_ [[A ->]|[A ->]]]]; [tauto|left; split; [exact A|reflexivity]|right; split; [exact A|reflexivity]]. }
  intros a. destruct (try_parse (ext_dbg X) block) as [f|[]| |] eqn:P; cbn [fst]; try discriminate.
  - destruct (u_type (f_data f)) eqn:T; cbn [fst]; try discriminate.
    + destruct (check_dir_ok f T) as [[S C]|[_ C]]; rewrite C; cbn [fst]; [|discriminate].
      intros E. left. exists (f_links f). split; [apply lists_dir; assumption|].
      destruct a; [exact I| |exact I]. exfalso. eapply resolve_plain_final; exact E.
    + unfold lookup_or_start. destruct (check_shard_ok f T) as [[S C]|[_ [[_ C]|[_ C]]]]; rewrite C; cbn [fst]; try discriminate.
      intros _. right. exists f. split; [reflexivity|exact S].
  - intros E. left. exists (n_links n). split; [apply lists_nodata; assumption|].
    destruct a; [exact I| |exact I]. exfalso. eapply resolve_plain_final; exact E.
  - intros E. left. exists (n_links n). split; [eapply lists_other; eassumption|].
    destruct a; [exact I| |exact I]. exfalso. eapply resolve_plain_final; exact E.
Qed.
Print Assumptions C26_classify.
(** the same for the further buckets: anything but a supported shard is an error *)
Theorem C26_buckets : forall X v block k,
  lk_links v <> [] ->
  let r := fst (lk_continue_walk X v block k) in
  (forall e, try_parse (ext_dbg X) block = Err (InvalidDagPb e) -> r = Err (LRead (Some e)))
  /\ (forall e n, try_parse (ext_dbg X) block = Err (InvalidUnixFs e n) -> r = Err (LRead (Some e)))
  /\ (forall n, try_parse (ext_dbg X) block = Err (NoData n) -> r = Err (LRead None))
  /\ (forall f, try_parse (ext_dbg X) block = Ok f -> u_type (f_data f) <> HAMTShard ->
       r = Err (LUnexpectedBucketType (u_type (f_data f))))
  /\ (forall a, r = Ok a -> exists f, try_parse (ext_dbg X) block = Ok f /\ supported_shard (f_data f)).
Proof.
  intros X v block k NE r. subst r. unfold lk_continue_walk. destruct (lk_links v) as [|c cs]; [congruence|].
  split; [intros e ->; reflexivity|]. split; [intros e n ->; reflexivity|]. split; [intros n ->; reflexivity|].
  split; [intros f -> T; destruct (u_type (f_data f)); try congruence; reflexivity|].
  intros a. destruct (try_parse (ext_dbg X) block) as [f|[]| |] eqn:P; cbn [fst]; try discriminate.
  destruct (u_type (f_data f)) eqn:T; cbn [fst is_hamt]; try discriminate.
  destruct (check_shard_ok f T) as [[S C]|[_ [[_ C]|[_ C]]]]; rewrite C; cbn [fst]; try discriminate.
  intros _. exists f. split; [reflexivity|exact S].
Qed.
Print Assumptions C26_buckets.
Example C26_nonvacuous :
  (exists f, try_parse true (flat_write (leafm File [x61])) = Ok f /\ u_type (f_data f) = File)
  /\ (exists f b, try_parse true b = Ok f /\ u_type (f_data f) = HAMTShard /\ ~ supported_shard (f_data f))
  /\ (exists f b, try_parse true b = Ok f /\ u_type (f_data f) = Directory /\ ~ supported_dir (f_data f))
  /\ (exists e b, try_parse true b = Err (InvalidDagPb e)).
Proof.
  split; [exists (leafm File [x61]); split; vm_compute; reflexivity|].
  split.
  { exists (Flat [] (UnixFs HAMTShard None None [] (Some 33) (Some 256) None None)),
      (flat_write (Flat [] (UnixFs HAMTShard None None [] (Some 33) (Some 256) None None))). split; [vm_compute; reflexivity|]. split; [reflexivity|]. intros (_ & _ & H & _). discriminate. }
  split.
  { exists (Flat [] (UnixFs Directory None (Some 3) [] None None None None)),
      (flat_write (Flat [] (UnixFs Directory None (Some 3) [] None None None None))). split; [vm_compute; reflexivity|]. split; [reflexivity|]. intros (_ & H & _). discriminate. }
  exists EEof, [x0a]. vm_compute. reflexivity.
Qed.

(** ** C27 *)

(** A lookup in a sharded directory: the answers are right, and there is one *)
Theorem C27_sharded_lookup : forall X get block its needle,
  sharded X get block its ->
  (forall asked c, looks_up X get block needle asked (Ok (Found c)) -> In (needle, c) (entries its))
  /\ (forall asked, looks_up X get block needle asked (Ok NotFound) -> ~ In needle (map fst (entries its)))
  /\ (forall c, only_entry (entries its) needle c -> exists asked, looks_up X get block needle asked (Ok (Found c)))
  /\ (~ In needle (map fst (entries its)) -> exists asked, looks_up X get block needle asked (Ok NotFound)).
Proof.
  intros X get block its needle SH.
  split; [intros asked c; apply lookup_sound; exact SH|].
  split; [intros asked L; eapply lookup_not_found; eassumption|].
  split; [intros c; apply lookup_complete; exact SH|].
  intros N. eexists. apply lookup_absent; eassumption.
Qed.
Print Assumptions C27_sharded_lookup.
(** The result does not depend on the caches used, nor on chance *)
Theorem C27_deterministic : forall X get block needle a r a' r',
  looks_up X get block needle a r -> looks_up X get block needle a' r' -> a = a' /\ r = r'.
Proof. exact looks_det. Qed.
Print Assumptions C27_deterministic.
(** With repeated names, the first shard in breadth first order (the root
    included) which contains the name decides: its only entry is the answer,
    several in the same shard are an error naming the first. *)
Theorem C27_first_shard_decides : forall X get block its needle,
  sharded X get block its ->
  (forall asked r, looks_up X get block needle asked r ->
     r = Ok NotFound \/ (exists c, r = Ok (Found c)) \/ exists m, r = Err (RLookup (LMultiple m)))
  /\ (forall pre s post, its :: map snd (breadth_first its) = pre ++ s :: post ->
       (forall s', In s' pre -> hits needle s' = []) ->
       (forall d, hits needle s = [d] -> exists asked, looks_up X get block needle asked (Ok (Found d)))
       /\ (forall d e ds, hits needle s = d :: e :: ds -> exists asked m,
             looks_up X get block needle asked (Err (RLookup (LMultiple m))) /\ multiple_into_inner m = d)).
Proof.
  intros X get block its needle SH. split.
  - intros asked r L. destruct (lookup_cases X get block its needle SH) as [(_ & _ & L2)|(pre & post & s & d & ds & r2 & E & P & H & A & L2)];
      destruct (looks_det _ _ _ _ _ _ _ _ L L2) as [_ ->]; [auto|].
    destruct ds; cbn in A; [subst r2; right; left; eexists; reflexivity|].
    destruct A as (m & -> & _). right. right. eexists; reflexivity.
  - intros pre s post E P. destruct (lookup_cases X get block its needle SH) as [(H0 & H1 & L2)|(pre2 & post2 & s2 & d2 & ds2 & r2 & E2 & P2 & H & A & L2)].
    + assert (Z : hits needle s = []).
      { assert (I : In s (its :: map snd (breadth_first its))) by (rewrite E; apply in_or_app; right; left; reflexivity).
        destruct I as [<-|I]; [exact H0|]. apply in_map_iff in I as (b & <- & I). apply H1; exact I. }
      split; intros; congruence.
    + assert (U : hits needle s <> [] -> s = s2).
      { intros NE. rewrite E in E2. clear -E2 P P2 NE H. revert pre2 E2 P2. induction pre as [|x pre IH]; intros pre2 E2 P2.
        - destruct pre2 as [|y pre2]; cbn in E2; [congruence|]. injection E2 as <- _.
          exfalso. apply NE. apply P2. left; reflexivity.
        - destruct pre2 as [|y pre2]; cbn in E2.
          + injection E2 as <- _. rewrite (P x) in H by (left; reflexivity). discriminate.
          + injection E2 as <- E2. apply (IH (fun s' I => P s' (or_intror I)) pre2 E2).
            intros; apply P2; right; assumption. }
      split.
      * intros d HD. assert (s = s2) by (apply U; congruence). subst s2. rewrite HD in H. injection H as <- <-.
        cbn in A. subst r2. eexists; exact L2.
      * intros d e ds HD. assert (s = s2) by (apply U; congruence). subst s2. rewrite HD in H. injection H as <- <-.
        cbn in A. destruct A as (m & -> & M). exists (firstn (length pre2) (map fst (breadth_first its))), m. split; [exact L2|exact M].
Qed.
Print Assumptions C27_first_shard_decides.
Example C27_nonvacuous : forall X, ext_ok X -> exists get block its,
  sharded X get block its /\ bucket_count its = 3%nat /\ only_entry (entries its) [x63] (idc 8)
  /\ ~ In [x7a] (map fst (entries its)).
Proof.
  intros X HX. exists s_get, (flat_write s_root), s_items. split; [apply s_sharded, HX|]. split; [reflexivity|]. split.
  - exists [([x61], idc 1); ([x62], idc 7)], []. split; [reflexivity|]. split; [intros [H|[H|[]]]; discriminate|intros []].
  - intros [H|[H|[H|[]]]]; discriminate.
Qed.

(** ** C28 *)

(** Every lookup ends; the blocks asked for are an initial part of the buckets
    in breadth first order (all of them before answering NotFound), so never
    more than there are buckets *)
Theorem C28_breadth_first : forall X get block its needle,
  sharded X get block its ->
  (exists asked r, looks_up X get block needle asked r)
  /\ (forall asked r, looks_up X get block needle asked r ->
       (exists rest, map fst (breadth_first its) = asked ++ rest) /\ (length asked <= bucket_count its)%nat)
  /\ (forall asked, looks_up X get block needle asked (Ok NotFound) -> asked = map fst (breadth_first its)).
Proof.
  intros X get block its needle SH. split.
  { destruct (lookup_cases X get block its needle SH) as [(_ & _ & L2)|(pre & post & s & d & ds & r2 & E & P & H & A & L2)]; eauto. }
  split; [intros asked r; apply lookup_bfs; exact SH|].
  intros asked L. eapply lookup_not_found; eassumption.
Qed.
Print Assumptions C28_breadth_first.
(** breadth first order contains each bucket once, level by level *)
Theorem C28_all_buckets : forall its,
  length (breadth_first its) = bucket_count its
  /\ Permutation (entries its) (flat_map own_entries (its :: map snd (breadth_first its))).
Proof. intros its. split; [apply bfs_length|apply bfs_entries]. Qed.
Print Assumptions C28_all_buckets.
Example C28_instance : map fst (breadth_first s_items) = [idc 2; idc 5; idc 3].
Proof. reflexivity. Qed.

(** ** C29 *)

(** The property as stated is false: a shard with a name whose third byte is
    inside a character makes resolve panic, in every build and for every needle *)
Theorem C29_refuted : forall X, exists block, forall needle k,
  fst (resolve X block needle k) = Panic.
Proof. intros X. exists (flat_write s_evil). intros needle k. apply s_evil_panics. Qed.
Print Assumptions C29_refuted.
(** That is the only way besides the parser's own (C04): [resolve] and
    [continue_walk] return Ok or Err on every block which the parser accepts or
    rejects, unless it is a supported shard with such a name *)
Theorem C29_only_ways : forall X block needle k v,
  (try_parse (ext_dbg X) block <> Panic /\ try_parse (ext_dbg X) block <> Diverge) ->
  (forall f l, try_parse (ext_dbg X) block = Ok f -> supported_shard (f_data f) -> In l (f_links f) -> ~ splits_char l) ->
  lk_links v <> [] ->
  ((exists a, fst (resolve X block needle k) = Ok a) \/ exists e, fst (resolve X block needle k) = Err e)
  /\ ((exists a, fst (lk_continue_walk X v block k) = Ok a) \/ exists e, fst (lk_continue_walk X v block k) = Err e).
Proof.
  intros X block needle k v [A B] S NE.
  assert (NB : ~ bad_block X block).
  { intros [H|[H|(f & l & P & SU & I & SP)]]; [tauto..|]. eapply S; eassumption. }
  split.
  - destruct (fst (resolve X block needle k)) eqn:E; [eauto..| |];
      exfalso; apply NB; eapply resolve_bad; rewrite E; auto.
  - destruct (fst (lk_continue_walk X v block k)) eqn:E; [eauto..| |];
      exfalso; apply NB; eapply continue_bad; try exact NE; rewrite E; auto.
Qed.
Print Assumptions C29_only_ways.
(** Shards whose names start with two ASCII characters (as all real ones do) are safe *)
Theorem C29_ascii : forall X block f l,
  try_parse (ext_dbg X) block = Ok f -> In l (f_links f) -> ascii_prefix l -> ~ splits_char l.
Proof. intros X. apply (ascii_not_split X). Qed.
Print Assumptions C29_ascii.
(** In a build without overflow checks the parser itself never panics, so
    resolve panics exactly for such shards *)
Theorem C29_release_panics : forall X block needle k,
  ext_dbg X = false -> fst (resolve X block needle k) = Panic ->
  exists f l, try_parse false block = Ok f /\ supported_shard (f_data f) /\ In l (f_links f) /\ splits_char l.
Proof.
  intros X block needle k D P.
  destruct (try_parse (ext_dbg X) block) as [f|e| |] eqn:E.
  3:{ exfalso. rewrite D in E. eapply try_parse_release_no_panic; exact E. }
  3:{ exfalso. unfold resolve in P. rewrite E in P. discriminate. }
  all: destruct (resolve_bad X block needle k (or_introl P)) as [H|[H|(f' & l & P' & H)]]; try congruence;
    rewrite D in P'; eauto.
Qed.
Print Assumptions C29_release_panics.
Example C29_nonvacuous : forall X, ext_ok X -> exists block f v,
  try_parse (ext_dbg X) block = Ok f /\ supported_shard (f_data f) /\ length (f_links f) = 3%nat
  /\ (forall l, In l (f_links f) -> ~ splits_char l)
  /\ fst (resolve X block [x62] None) = Ok (NeedToLoadMore v) /\ lk_links v = [idc 2; idc 5].
Proof.
  intros X HX.
  assert (P : try_parse (ext_dbg X) (flat_write s_root) = Ok s_root) by (destruct (ext_dbg X); vm_compute; reflexivity).
  exists (flat_write s_root), s_root, (Lookup [idc 2; idc 5] [x62]). split; [exact P|]. split; [apply shardm_ok|].
  split; [reflexivity|]. split.
  { intros l I. eapply C29_ascii; [exact P|exact I|].
    destruct I as [<-|[<-|[<-|[]]]]; do 3 eexists; (split; [reflexivity|split; reflexivity]). }
  split; [|reflexivity].
  apply (resolve_shard X s_get (flat_write s_root) s_items [x62] None (or_introl eq_refl) (s_sharded X HX)).
Qed.

(** ** Caches (C24) and pending links (C46) *)

(** Every cache a lookup leaves behind is empty, and the results with and
    without a cache are the same *)
Theorem C24_resolve_cache : forall X block needle v k1 k2,
  clean k1 -> clean k2 ->
  fst (resolve X block needle k1) = fst (resolve X block needle k2)
  /\ fst (lk_continue_walk X v block k1) = fst (lk_continue_walk X v block k2)
  /\ clean (snd (resolve X block needle k1)) /\ clean (snd (lk_continue_walk X v block k1)).
Proof.
  intros X block needle v k1 k2 C1 C2.
  split; [apply clean_resolve; assumption|]. split; [apply continue_cache|].
  split; [apply resolve_cache_clean; assumption|apply continue_cache_clean; assumption].
Qed.
Print Assumptions C24_resolve_cache.
Example C24_resolve_nonvacuous : forall X, ext_ok X -> clean (snd (resolve X (flat_write s_root) [x61] None))
  /\ snd (resolve X (flat_write s_root) [x61] None) <> None.
Proof.
  intros X HX. split; [apply resolve_cache_clean; left; reflexivity|].
  unfold resolve.
  assert (P : try_parse (ext_dbg X) (flat_write s_root) = Ok s_root) by (destruct (ext_dbg X); vm_compute; reflexivity).
  rewrite P. unfold s_root at 1. cbn [f_data shardm u_type].
  unfold lookup_or_start. replace (check_supported s_root) with (@Ok shard_error _ tt) by reflexivity.
  destruct (s_sharded X HX) as (f & P' & _ & SL). rewrite P in P'. injection P' as <-.
  pose proof (partition_shard X s_get _ _ SL 0 [x61] None []) as Q. cbn zeta in Q.
  change (hits [x61] s_items) with [idc 1] in Q. cbn [opt]. rewrite Q. cbn. discriminate.
Qed.

(** The first pending link is the block [continue_walk] takes; afterwards the
    others come first and then the buckets of the block, in its order *)
Theorem C46_lookup_pending : forall X v block k v',
  fst (lk_continue_walk X v block k) = Ok (NeedToLoadMore v') ->
  exists c others f new, lk_pending_links v = Ok (c, others)
    /\ lk_links v' = others ++ new /\ lk_links v' <> []
    /\ try_parse (ext_dbg X) block = Ok f
    /\ map (link_cid X) (filter (fun l => Nat.eqb (length (name_of l)) 2) (f_links f)) = map Some new.
Proof.
  intros X v block k v' H. pose proof (more_pending_walk X _ _ _ _ H) as NE.
  unfold lk_continue_walk, lk_pending_links in *. destruct (lk_links v) as [|c others]; [discriminate|].
  destruct (try_parse (ext_dbg X) block) as [f|[]| |] eqn:P; try discriminate H.
  destruct (is_hamt _); [|discriminate H]. destruct (check_supported f); try discriminate H.
  destruct (partition _ _ _ _ _ _) as [[o q]| | |] eqn:Q; try discriminate H.
  destruct (partition_work X _ _ _ _ _ _ _ Q) as (new & -> & M).
  exists c, others, f, new. split; [reflexivity|]. split; [|split; [exact NE|split; [reflexivity|exact M]]].
  destruct o; cbn in H; [discriminate|]. destruct (others ++ new) eqn:E; cbn in H; [discriminate|].
  injection H as <-. reflexivity.
Qed.
Print Assumptions C46_lookup_pending.
(** and [pending_links] never panics on a lookup that was handed out *)
Theorem C46_lookup_nonempty : forall X block needle k v b k2 v',
  fst (resolve X block needle k) = Ok (NeedToLoadMore v) ->
  (exists c others, lk_pending_links v = Ok (c, others)) /\
  (fst (lk_continue_walk X v b k2) = Ok (NeedToLoadMore v') -> exists c others, lk_pending_links v' = Ok (c, others)).
Proof.
  intros X block needle k v b k2 v' H. apply more_pending in H. split.
  - unfold lk_pending_links. destruct (lk_links v); [congruence|eauto].
  - intros H2. apply more_pending_walk in H2. unfold lk_pending_links. destruct (lk_links v'); [congruence|eauto].
Qed.
Print Assumptions C46_lookup_nonempty.
