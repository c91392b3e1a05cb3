(** * Property C50: the root Cid vouches for everything below it.
    The vocabulary is in SpecTrust.v, the proofs in Trust_proofs.v. *)
From Verif Require Import Base Tac Wire Utf8 Cid Sha256 Pb Adder SpecAdder Adder_proofs Adder_thms Reader Visit Dir Walk
  SpecFile SpecDir SpecWalk SpecTrust Visit_proofs Visit_thms Walk_sim Trust_proofs Examples_file Examples_walk Examples_builder
  PropertiesAdder PropertiesFile PropertiesDir PropertiesWalk.

(** C50: [mine] holds something; [theirs] is any other store (e.g. filled by
    peers), from which blocks may be missing.  If the blocks of both were
    checked against their Cids and there is no SHA-256 collision between them,
    then: under a Cid both hold the same tree... *)
Theorem C50_tree : forall X mine theirs root n n',
  checked X mine -> checked X theirs -> no_collision X mine theirs ->
  stored X mine root n -> stored X theirs root n' -> n = n'.
Proof.
  intros X mine theirs root n n' C1 C2 N S1 S2.
  eapply (proj1 (stored_fun X (merge mine theirs))).
  - eapply (proj1 (stored_mono X _ _ (merge_l mine theirs))). exact S1.
  - eapply (proj1 (stored_mono X _ _ (merge_r X mine theirs C1 C2 N))). exact S2.
Qed.
Print Assumptions C50_tree.

(** ...every visit of a file over their blocks, whether it gets to the end or
    not, returns the beginning of my file's content (or target range of it), all
    of it if it gets to the end... *)
Theorem C50_visit : forall X mine theirs c b b' f content target bs asked out ov,
  checked X mine -> checked X theirs -> no_collision X mine theirs ->
  mine c = Some b -> try_parse (ext_dbg X) b = Ok f -> file_dag X mine f content -> blen content < two64 ->
  theirs c = Some b' -> visit X (store theirs) target (b' :: bs) asked out ov ->
  exists rest,
    out ++ rest = match target with None => content | Some (s, e) => byte_range s e content end
    /\ (ov = None -> rest = []).
Proof.
  intros X mine theirs c b b' f content target bs asked out ov C1 C2 N G P D L G' V.
  pose proof (merge_r X mine theirs C1 C2 N) as I.
  pose proof (merge_l mine theirs c b G) as M1. pose proof (I c b' G') as M2. rewrite M1 in M2. injection M2 as <-.
  apply (visit_mono X _ _ _ _ _ _ _ I) in V.
  apply (proj1 (dag_mono X _ _ (merge_l mine theirs))) in D.
  assert (R : reads X (merge mine theirs) target b (match target with None => content | Some (s, e) => byte_range s e content end)).
  { destruct target as [[s e]|]; [eapply C17_range|eapply C16_reads_all]; try eassumption; reflexivity. }
  destruct (visit_prefix X _ _ _ _ _ _ _ _ V R) as (rest & E & Z). exists rest. auto.
Qed.
Print Assumptions C50_visit.

(** ...every walk over their blocks returns a part of what a walk of my tree
    returns, from the start, and only ends at the end... *)
Theorem C50_walk : forall X mine theirs root name n,
  checked X mine -> checked X theirs -> no_collision X mine theirs ->
  ~ In x2f name -> stored X mine root n ->
  exists items0, all reported (as_told (sights true name root n)) items0
  /\ forall items w, walk_from X theirs root name items w ->
     ext_dbg X = true \/ no_dots_told items \/ no_dots (sights true name root n) ->
     exists rest, items0 = items ++ rest /\ (should_continue w = false -> rest = []).
Proof.
  intros X mine theirs root name n C1 C2 N Hn S.
  apply (stored_mono X _ _ (merge_l mine theirs)) in S.
  destruct (C39_exact X _ root name n Hn S) as (items0 & A & H & _). exists items0. split; [exact A|].
  intros items w W ND. apply (walk_from_mono X _ _ _ _ _ _ (merge_r X mine theirs C1 C2 N)) in W.
  destruct (H items w W ND) as (rest & E & _ & SC & _). exists rest. split; [exact E|].
  intros F. rewrite F in SC. destruct rest; [reflexivity|]. exfalso. assert (false = true) by (apply SC; discriminate). discriminate.
Qed.
Print Assumptions C50_walk.

(** ...and every lookup over their blocks that finds an entry, or finds out that
    there is none, is right about my sharded directory. *)
Theorem C50_lookup : forall X mine theirs c b b' its needle asked,
  checked X mine -> checked X theirs -> no_collision X mine theirs ->
  mine c = Some b -> sharded X mine b its -> theirs c = Some b' ->
  (forall d, looks_up X theirs b' needle asked (Ok (Found d)) -> In (needle, d) (entries its))
  /\ (looks_up X theirs b' needle asked (Ok NotFound) -> ~ In needle (map fst (entries its))).
Proof.
  intros X mine theirs c b b' its needle asked C1 C2 N G S G'.
  pose proof (merge_r X mine theirs C1 C2 N) as I.
  pose proof (merge_l mine theirs c b G) as M1. pose proof (I c b' G') as M2. rewrite M1 in M2. injection M2 as <-.
  apply (sharded_mono X _ _ _ _ (merge_l mine theirs)) in S.
  destruct (C27_sharded_lookup X _ b its needle S) as (F & Z & _). split.
  - intros d L. eapply F, looks_mono; [exact I|exact L].
  - intros L. eapply Z, looks_mono; [exact I|exact L].
Qed.
Print Assumptions C50_lookup.

(** In particular, two files added with whatever settings whose root Cids are
    the same have the same content, or there is a collision among the blocks. *)
Theorem C50_root_cid : forall X chunk1 bf1 chunk2 bf2 a1 a2 c1 c2 out1 out2 b1 b2 last1 last2 before1 before2 root blk1 blk2,
  ext_ok X ->
  cfg_ok chunk1 bf1 -> moderate chunk1 bf1 -> 2 <= bf1 \/ blen c1 <= chunk1 -> blen c1 <= max_content ->
  cfg_ok chunk2 bf2 -> moderate chunk2 bf2 -> 2 <= bf2 \/ blen c2 <= chunk2 -> blen c2 <= max_content ->
  adder_new chunk1 bf1 = Ok a1 -> session X a1 c1 out1 b1 -> finish X b1 = Ok last1 ->
  adder_new chunk2 bf2 = Ok a2 -> session X a2 c2 out2 b2 -> finish X b2 = Ok last2 ->
  out1 ++ last1 = before1 ++ [(root, blk1)] -> out2 ++ last2 = before2 ++ [(root, blk2)] ->
  (forall b b', In b (map snd ((out1 ++ last1) ++ (out2 ++ last2))) -> In b' (map snd ((out1 ++ last1) ++ (out2 ++ last2))) ->
     ext_sha256 X b = ext_sha256 X b' -> b = b') ->
  c1 = c2.
Proof.
  intros X chunk1 bf1 chunk2 bf2 a1 a2 c1 c2 out1 out2 b1 b2 last1 last2 before1 before2 root blk1 blk2
    HX K1 M1 B1 L1 K2 M2 B2 L2 N1 S1 F1 N2 S2 F2 E1 E2 NC.
  set (all' := (out1 ++ last1) ++ (out2 ++ last2)) in *.
  assert (Named : forall cd b, In (cd, b) all' -> cd = Cid true 0x70 0x12 (ext_sha256 X b)).
  { assert (Q : forall a c out b last, session X a c out b -> finish X b = Ok last ->
       forall cd blk, In (cd, blk) (out ++ last) -> cd = Cid true 0x70 0x12 (ext_sha256 X blk)).
    { intros a c out b last S F cd blk I. apply in_app_or in I as [I|I].
      - pose proof (session_named X _ _ _ _ S) as H. rewrite Forall_forall in H. exact (H _ I).
      - pose proof (proj2 (C11_adder_cids X b) _ _ F) as H. rewrite Forall_forall in H. exact (H _ I). }
    intros cd b I. apply in_app_or in I as [I|I]; [exact (Q _ _ _ _ _ S1 F1 _ _ I)|exact (Q _ _ _ _ _ S2 F2 _ _ I)]. }
  assert (G : forall cd b, In (cd, b) all' -> from_list all' cd = Some b).
  { intros cd b I. apply from_list_find; [exact I|]. intros cd' b' I' ->.
    apply NC; [apply in_map_iff; exists (cd, b'); auto|apply in_map_iff; exists (cd, b); auto|].
    pose proof (Named _ _ I) as Q1. pose proof (Named _ _ I') as Q2. congruence. }
  destruct (C15_read_back X chunk1 bf1 a1 c1 out1 b1 last1 (from_list all') HX K1 M1 B1 N1 S1 L1 F1) as (p1 & r1 & Q1 & R1 & _).
  { intros cd b I. apply G. apply in_or_app. left. exact I. }
  destruct (C15_read_back X chunk2 bf2 a2 c2 out2 b2 last2 (from_list all') HX K2 M2 B2 N2 S2 L2 F2) as (p2 & r2 & Q2 & R2 & _).
  { intros cd b I. apply G. apply in_or_app. right. exact I. }
  rewrite E1 in Q1. rewrite E2 in Q2. apply app_inj_tail in Q1 as [_ Q1], Q2 as [_ Q2].
  assert (r1 = r2).
  { assert (I1 : from_list all' root = Some blk1) by (apply G, in_or_app; left; rewrite E1; apply in_or_app; right; left; reflexivity).
    assert (I2 : from_list all' root = Some blk2) by (apply G, in_or_app; right; rewrite E2; apply in_or_app; right; left; reflexivity).
    congruence. }
  subst r2. pose proof (proj2 (R1 c1) eq_refl) as R. apply R2 in R. exact R.
Qed.
Print Assumptions C50_root_cid.

(** all hypotheses are met by the three blocks of a file "abcd" on one side, its
    root and first leaf on the other *)
Definition leaf1 : bytes := flat_write (leafm Raw [x61; x62]).
Definition leaf2 : bytes := flat_write (leafm File [x63; x64]).
Definition two_leaves (dbg : bool) : flat :=
  Flat [PBLink (Some (cid_bytes (block_cid (toy dbg) leaf1))) (Some []) None;
        PBLink (Some (cid_bytes (block_cid (toy dbg) leaf2))) (Some []) None]
       (UnixFs File None (Some 4) [2; 2] None None None None).
Definition three (dbg : bool) : list (cid * bytes) :=
  map (fun b => (block_cid (toy dbg) b, b)) [flat_write (two_leaves dbg); leaf1; leaf2].
Example C50_nonvacuous : forall dbg,
  let mine := from_list (three dbg) in let theirs := from_list (firstn 2 (three dbg)) in
  let X := toy dbg in let root := block_cid X (flat_write (two_leaves dbg)) in
  checked X mine /\ checked X theirs /\ no_collision X mine theirs
  /\ mine root = Some (flat_write (two_leaves dbg)) /\ theirs root = Some (flat_write (two_leaves dbg))
  /\ try_parse dbg (flat_write (two_leaves dbg)) = Ok (two_leaves dbg)
  /\ file_dag X mine (two_leaves dbg) ([x61; x62] ++ [x63; x64])
  /\ stored X mine root (FsFile (MData None None) ([x61; x62] ++ [x63; x64]))
  /\ mine (block_cid X leaf2) <> None /\ theirs (block_cid X leaf2) = None.
Proof.
  intros dbg mine theirs X root.
  assert (Ck : forall l, Forall (fun x => fst x = block_cid X (snd x)) l -> checked X (from_list l)).
  { intros l F c b H. apply from_list_in in H. rewrite Forall_forall in F. specialize (F _ H). cbn [fst snd] in F. subst c. split; reflexivity. }
  assert (C3 : Forall (fun x => fst x = block_cid X (snd x)) (three dbg)) by (repeat constructor).
  assert (G : forall l, In l [flat_write (two_leaves dbg); leaf1; leaf2] -> mine (block_cid X l) = Some l).
  { intros l [<-|[<-|[<-|[]]]]; destruct dbg; vm_compute; reflexivity. }
  assert (PP : try_parse dbg (flat_write (two_leaves dbg)) = Ok (two_leaves dbg)) by (destruct dbg; vm_compute; reflexivity).
  assert (D : file_dag X mine (two_leaves dbg) ([x61; x62] ++ [x63; x64])).
  { change ([x61; x62] ++ [x63; x64]) with (concat [[x61; x62]; [x63; x64]]).
    apply dag_node; [repeat split; left; reflexivity|discriminate|reflexivity|reflexivity|].
    apply (dags_cons X mine _ (block_cid X leaf1) leaf1 (leafm Raw [x61; x62]));
      [apply (decode_bytes X (toy_ok dbg)); destruct dbg; vm_compute; reflexivity|apply G; unfold In; tauto|destruct dbg; vm_compute; reflexivity|split; reflexivity| |].
    { apply (dag_leaf X mine (leafm Raw [x61; x62])); try reflexivity. repeat split. right. reflexivity. }
    apply (dags_cons X mine _ (block_cid X leaf2) leaf2 (leafm File [x63; x64]));
      [apply (decode_bytes X (toy_ok dbg)); destruct dbg; vm_compute; reflexivity|apply G; unfold In; tauto|destruct dbg; vm_compute; reflexivity|split; reflexivity| |constructor].
    apply (dag_leaf X mine (leafm File [x63; x64])); try reflexivity. repeat split. left. reflexivity. }
  split; [apply Ck, C3|]. split; [apply Ck; inversion C3 as [|? ? ? C2]; inversion C2; subst; repeat constructor|].
  split.
  { intros c c' b b' H1 H2. apply from_list_in in H1, H2.
    destruct H1 as [H1|[H1|[H1|[]]]], H2 as [H2|[H2|[]]]; injection H1 as <- <-; injection H2 as <- <-;
      try (intros _; reflexivity); intros E; exfalso; revert E; clear; destruct dbg; vm_compute; discriminate. }
  split; [apply G; unfold In; tauto|]. split; [destruct dbg; vm_compute; reflexivity|]. split; [exact PP|]. split; [exact D|].
  split; [|split; [rewrite G by (unfold In; tauto); discriminate|destruct dbg; vm_compute; reflexivity]].
  change (MData None None) with (says (f_data (two_leaves dbg))).
  eapply stored_file; [apply G; unfold In; tauto|exact PP|exact D|vm_compute; reflexivity].
Qed.
