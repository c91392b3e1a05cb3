(** * Property C76: visits, walks, lookups and the example programs come to an
    end on stores without cycles, and when.
    The vocabulary is in SpecEnds.v, the proofs in Ends_proofs.v and Ends_walk.v. *)
From Coq Require Import Arith.
From Verif Require Import Base Tac Wire Utf8 Cid Pb Pb_proofs Codec_proofs SpecWire Parse_safety Reader Visit Dir Walk SpecAdder SpecFile SpecDir SpecWalk
  Visit_proofs Examples_file Examples_dir Examples_walk PropertiesCodec PropertiesFile.
From Verif Require SpecFileSteps SpecWalkSteps SpecLookupSteps.
From Verif Require Import Programs SpecPrograms Store_proofs SpecRuns Runs_proofs PropertiesPrograms PropertiesRuns SpecEnds Ends_proofs Ends_walk.

(** C76: in a finite store without cycles, every Cid stands for finitely many
    blocks, and it is one number *)
Theorem C76_finite : forall X get, ext_ok X -> finite get -> no_cycles X get ->
  forall c, exists n, unfolded X get [c] n /\ forall m, unfolded X get [c] m -> m = n.
Proof.
  intros X get HX F N c. destruct (acc_unfolds X get c (finite_acc X get HX F N c)) as (n & U). exists n. split; [exact U|]. exact (un_unique X get _ _ U).
Qed.
Print Assumptions C76_finite.

(** a store has no cycles if the blocks were stored after those they link to *)
Theorem C76_children_first : forall X kept get, ext_ok X -> children_first X kept -> NoDup (map fst kept) ->
  (forall c b, cid_wf c = true -> get c = Some b -> In (c, b) kept) -> finite get /\ no_cycles X get.
Proof.
  intros X kept get HX C ND G. split.
  { exists (map fst kept). intros c b Wf H. apply G in H; [|exact Wf]. change c with (fst (c, b)). apply in_map, H. }
  assert (Has : forall c d, cid_wf c = true -> reaches X get c d -> exists b, In (c, b) kept).
  { intros c d Wf R. inversion R as [(b2 & ? & ? & ? & _)|? (b2 & ? & ? & ? & _)]; exists b2; apply G; assumption. }
  assert (Q : forall c d, reaches X get c d -> cid_wf c = true -> forall earlier b later, kept = earlier ++ (c, b) :: later -> ~ In d (map fst ((c, b) :: later))).
  { assert (One : forall c earlier b later b', kept = earlier ++ (c, b) :: later -> In (c, b') kept -> b' = b).
    { intros c earlier b later b' E I. subst kept. rewrite map_app in ND. cbn [map fst] in ND. apply NoDup_remove_2 in ND.
      apply in_app_or in I as [I|[I|I]]; [exfalso|congruence|exfalso]; apply ND, in_or_app; [left|right]; change c with (fst (c, b')); apply in_map, I. }
    induction 1 as [c d (b' & f & l & Gc & P & I & L)|c d e (b' & f & l & Gc & P & I & L) R IH]; intros Wf earlier b later E;
      apply G in Gc; [|exact Wf| |exact Wf]; rewrite (One _ _ _ _ _ E Gc) in P; pose proof (C _ _ _ _ E f l _ P I L) as N; [exact N|].
    assert (We : cid_wf e = true) by exact (decode_wf X HX _ _ L).
    destruct (Has e d We R) as (b2 & B). rewrite E in B. apply in_app_or in B as [B|B].
    - apply in_split in B as (p1 & p2 & ->). specialize (IH We p1 b2 (p2 ++ (c, b) :: later)). rewrite <- app_assoc in E. specialize (IH E).
      intros J. apply IH. cbn [map]. right. rewrite map_app. apply in_or_app. right. exact J.
    - exfalso. apply N. change e with (fst (e, b2)). apply in_map, B. }
  intros c R. assert (Wf : cid_wf c = true).
  { assert (T : forall c d, reaches X get c d -> cid_wf d = true) by (induction 1; [eapply linked_wf; eassumption|assumption]). exact (T _ _ R). }
  destruct (Has c c Wf R) as (b & B). apply in_split in B as (p1 & p2 & E). apply (Q _ _ R Wf _ _ _ E). left. reflexivity.
Qed.
Print Assumptions C76_children_first.

(** a visit of the file [c], with any target, asks for fewer blocks than that *)
Theorem C76_file : forall X get c n target root bs asked out ov,
  unfolded X get [c] n -> get c = Some root -> (forall a b, target = Some (a, b) -> a < two64 /\ b < two64) ->
  visit X (store get) target (root :: bs) asked out ov -> (length asked < n)%nat.
Proof.
  intros X get c n target root bs asked out ov U G T V. eapply visit_ends; [|exact U|exact G|exact V].
  destruct target as [[a b]|]; [|exact Logic.I]. exact (T a b eq_refl).
Qed.
Print Assumptions C76_file.
(** a visit of all of the file asks for all of them *)
Theorem C76_file_all : forall X get c n root bs asked out,
  unfolded X get [c] n -> get c = Some root ->
  visit X (store get) None (root :: bs) asked out None -> S (length asked) = n.
Proof. intros X get c n root bs asked out U G V. exact (visit_counts X get c root bs asked out n U G V). Qed.
Print Assumptions C76_file_all.

(** a walk from [c] asks for that many blocks at most *)
Theorem C76_walk : forall X get c n name bs asked items w,
  unfolded X get [c] n -> walks X (store get) (walker_new c name) bs asked items w -> (length asked <= n)%nat.
Proof. intros X get c n name bs asked items w U W. exact (walk_ends X get c name bs asked items w n U W). Qed.
Print Assumptions C76_walk.

(** a lookup of a name in the directory [c] asks for fewer *)
Theorem C76_lookup : forall X get c n block needle asked r,
  unfolded X get [c] n -> get c = Some block -> looks_up X get block needle asked r -> (length asked < n)%nat.
Proof. intros X get c n block needle asked r U G L. exact (lookup_ends X get c block needle asked r n U G L). Qed.
Print Assumptions C76_lookup.

(** the programs come to an end, in that many rounds; the files of other Cids may
    be missing or unreadable *)
Theorem C76_programs : forall X get ipfs dir fs, ext_ok X -> blocks_place ipfs dir ->
  (forall c b, on_disk fs dir c (Contents b) -> get c = Some b) -> finite get -> no_cycles X get -> parsable X get ->
  (forall c n, unfolded X get [c] n -> forall fuel, (n <= fuel)%nat ->
     fst (cat_walk X fuel fs dir c) <> Diverge /\ fst (get_walk X fuel fs dir c) <> Diverge)
  /\ (forall c path, exists N, forall fuel, (N <= fuel)%nat -> resolve_walk X fuel fs dir c path None <> Diverge).
Proof.
  intros X get ipfs dir fs HX PL D F N P. pose proof (place_good _ _ PL) as G. split.
  - intros c n U fuel L. split; [eapply cat_walk_ends|eapply get_walk_ends]; eassumption.
  - intros c path. destruct (resolve_ends X get fs dir G D P (fun c => acc_unfolds X get c (finite_acc X get HX F N c)) path c) as (M & H).
    exists M. intros fuel L. apply H; [exact L|left; reflexivity].
Qed.
Print Assumptions C76_programs.

(** so each has one of the runs of C70 *)
Theorem C76_runs : forall X get ipfs dir fs, ext_ok X -> ext_dbg X = true -> blocks_place ipfs dir ->
  (forall c b, on_disk fs dir c (Contents b) -> get c = Some b) -> finite get -> no_cycles X get ->
  (forall c, exists res out, cat_run X fs dir c res out)
  /\ (forall c, exists res lines, get_on X fs dir (SpecWalkSteps.beginning c []) res lines)
  /\ (forall c path, exists res, path_on X fs dir c path res).
Proof.
  intros X get ipfs dir fs HX E PL D F N.
  assert (P : parsable X get) by (intros c b _; rewrite E; apply try_parse_terminates).
  destruct (C76_programs X get ipfs dir fs HX PL D F N P) as (H1 & H2). split; [|split].
  - intros c. destruct (C76_finite X get HX F N c) as (n & U & _). destruct (H1 c n U n (le_n n)) as [H _].
    destruct (cat_walk X n fs dir c) as [res out] eqn:W. destruct (C70_cat X ipfs dir fs c PL) as (_ & _ & C). exists res, out. exact (C n res out W H).
  - intros c. destruct (C76_finite X get HX F N c) as (n & U & _). destruct (H1 c n U n (le_n n)) as [_ H].
    destruct (get_walk X n fs dir c) as [res lines] eqn:W. destruct (C70_get X ipfs dir fs c E PL) as (_ & _ & C). exists res, lines. exact (C n res lines W H).
  - intros c path. destruct (H2 c path) as (M & H). destruct (C70_resolve X ipfs dir fs c path PL) as (_ & _ & C). eexists. exact (C M (H M (le_n M))).
Qed.
Print Assumptions C76_runs.

(** Few blocks may make a visit very long: with [n + 1] blocks, the visit of a
    file without any byte asks for w + w^2 + ... + w^n blocks *)
Lemma geometric_pow w n : (w ^ n <= geometric w n)%nat.
Proof. induction n as [|n IH]; cbn [Nat.pow geometric]; [lia|]. pose proof (Nat.mul_le_mono_l _ _ w IH). lia. Qed.
Lemma targets_copies X w c : ext_ok X -> cid_wf c = true -> targets X (f_links (copies w c)) = repeat c w.
Proof.
  intros HX W. unfold copies, targets. cbn [f_links]. induction w as [|w IH]; [reflexivity|]. cbn [repeat flat_map]. rewrite IH.
  unfold link_cid. cbn [l_hash]. rewrite (decode_bytes X HX c W). reflexivity.
Qed.
Lemma copies_parse dbg w c : blen (flat_write (copies w c)) < two32 -> try_parse dbg (flat_write (copies w c)) = Ok (copies w c).
Proof.
  intros L. apply C01_round_trip; [| |exact L]; unfold copies; cbn [f_links f_data].
  - apply Forall_forall. intros l I. apply repeat_spec in I as ->. split; [reflexivity|]. reflexivity.
  - repeat split; try exact Logic.I. apply Forall_forall. intros v I. apply repeat_spec in I as ->. reflexivity.
Qed.
Lemma un_repeat X get c m w : unfolded X get [c] m -> unfolded X get (repeat c w) (w * m).
Proof. intros U. induction w as [|w IH]; cbn [repeat Nat.mul]; [constructor|]. apply (un_app X get [c]). eauto. Qed.

Theorem C76_amplified : forall X get id w n root, ext_ok X -> (0 < w)%nat ->
  (forall k, (k < n)%nat -> cid_wf (id k) = true /\ blen (flat_write (copies w (id k))) < two32) ->
  get (id O) = Some (flat_write empty_file) ->
  (forall k, (k < n)%nat -> get (id (S k)) = Some (flat_write (copies w (id k)))) ->
  get (id n) = Some root ->
  exists bs asked, visit X (store get) None (root :: bs) asked [] None
  /\ S (length asked) = geometric w n /\ (w ^ n <= geometric w n)%nat
  /\ forall c, In c asked -> exists k, (k < n)%nat /\ c = id k.
Proof.
  intros X get id w n root HX W K G0 GS Gn.
  set (m := fun k => match k with O => empty_file | S k => copies w (id k) end).
  assert (G : forall k, (k <= n)%nat -> get (id k) = Some (flat_write (m k)) /\ try_parse (ext_dbg X) (flat_write (m k)) = Ok (m k)).
  { intros [|k] L; cbn [m]; (split; [first [exact G0|apply GS; lia]|]); [destruct (ext_dbg X); vm_compute; reflexivity|].
    apply copies_parse. apply K. lia. }
  assert (Dag : forall k, (k <= n)%nat -> file_dag X get (m k) []).
  { induction k as [|k IH]; intros L; [apply (dag_leaf X get empty_file); repeat split; left; reflexivity|].
    assert (Z : @concat byte (repeat [] w) = []) by (clear; induction w; [reflexivity|exact IHw]).
    rewrite <- Z. apply dag_node; cbn [m copies f_data f_links u_blocksizes u_filesize].
    - repeat split. left. reflexivity.
    - destruct w; [lia|discriminate].
    - clear. induction w; [reflexivity|]. cbn. f_equal. assumption.
    - rewrite Z. reflexivity.
    - assert (Ds : file_dag X get (m k) []) by (apply IH; lia). destruct (G k ltac:(lia)) as [Gk Pk]. clear - HX K L Ds Gk Pk.
      assert (Wk : cid_wf (id k) = true) by (apply K; lia).
      assert (M : no_metadata (f_data (m k))) by (destruct k; split; reflexivity). clear K L. clearbody m. generalize w. clear w. intros w.
      induction w as [|v IHv]; [constructor|]. cbn [repeat]. eapply dags_cons; [|exact Gk|exact Pk|exact M|exact Ds|exact IHv].
      unfold link_cid. cbn [l_hash]. apply (decode_bytes X HX). exact Wk. }
  assert (Un : forall k, (k <= n)%nat -> unfolded X get [id k] (geometric w k)).
  { induction k as [|k IH]; intros L; destruct (G _ L) as [Gk Pk].
    - eapply (un_node X get (id O) _ _ [] 0 0); [exact Gk|exact Pk|constructor|constructor].
    - cbn [geometric]. replace (1 + w * geometric w k)%nat with (S (w * geometric w k + 0)) by lia.
      eapply (un_node X get); [exact Gk|exact Pk| |constructor]. cbn [m]. rewrite targets_copies by (exact HX || (apply K; lia)). apply un_repeat, IH. lia. }
  destruct (G n (le_n n)) as [Gr Pr]. assert (root = flat_write (m n)) as -> by congruence.
  destruct (proj2 (C16_reads_all X get _ _ [] Pr (Dag n (le_n n)) eq_refl []) eq_refl) as (bs & asked & V).
  exists bs, asked. split; [exact V|]. split; [exact (C76_file_all X get (id n) _ _ _ _ _ (Un n (le_n n)) Gr V)|]. split; [apply geometric_pow|].
  assert (Down : forall k f ds, (k <= n)%nat -> try_parse (ext_dbg X) (flat_write (m k)) = Ok f -> map (link_cid X) (f_links f) = map Some ds ->
    forall c, In c ds -> exists j, (j < n)%nat /\ c = id j).
  { intros k f ds L P Q c I. destruct (G k L) as [_ P']. rewrite P' in P. injection P as <-.
    assert (T : In (Some c) (map (link_cid X) (f_links (m k)))) by (rewrite Q; apply in_map, I). apply in_map_iff in T as (l & T & J).
    destruct k as [|k]; [destruct J|]. cbn [m copies f_links] in J. apply repeat_spec in J as ->.
    unfold link_cid in T. cbn [l_hash] in T. rewrite (decode_bytes X HX) in T by (apply K; lia). exists k. split; [lia|congruence]. }
  assert (Bl : forall cs kbs, blocks_below X get cs kbs -> (forall c, In c cs -> exists k, (k < n)%nat /\ c = id k) ->
    forall c, In c (map fst kbs) -> exists k, (k < n)%nat /\ c = id k).
  { induction 1 as [|c b f ds more kbs Gc P Q B IH]; intros A c' I; [destruct I|]. destruct (A c (or_introl eq_refl)) as (k & Lk & ->).
    cbn [map fst] in I. destruct I as [<-|I]; [exists k; auto|]. apply IH; [|exact I].
    destruct (G k ltac:(lia)) as [Gk _]. rewrite Gk in Gc. injection Gc as <-.
    intros c'' J. apply in_app_or in J as [J|J]; [|apply A; right; exact J]. eapply Down; [|exact P|exact Q|exact J]. lia. }
  pose proof (Programs_proofs.visit_below X get (id n) _ bs asked [] Gr V) as B. inversion B as [|c0 b0 f0 ds more kbs Gc P Q B' E1 E2]; subst.
  assert (Lb : map fst (combine asked bs) = asked).
  { assert (LC : forall v bs asked out ov, continues X (store get) v bs asked out ov -> length bs = length asked) by (induction 1; cbn; congruence).
    assert (L : length asked = length bs) by (inversion V; subst; [reflexivity|symmetry; eapply LC; eassumption]).
    clear - L. revert bs L. induction asked as [|x xs IH]; intros [|y ys] L; try discriminate L; [reflexivity|]. cbn. f_equal. apply IH. injection L as L. exact L. }
  intros c I. rewrite <- Lb in I. eapply Bl; [exact B'| |exact I]. intros c' J. rewrite app_nil_r in J. eapply Down; [apply le_n|exact P|exact Q|exact J].
Qed.
Print Assumptions C76_amplified.

(** three blocks stored in this order; 2 and 3 times the one before *)
Definition three : list (cid * bytes) :=
  [(idc 0, flat_write empty_file); (idc 1, flat_write (copies 2 (idc 0))); (idc 2, flat_write (copies 3 (idc 1)))].
Lemma three_first X : ext_ok X -> children_first X three.
Proof.
  intros HX earlier c b later E f l d P I L. unfold three in E.
  destruct earlier as [|e1 [|e2 [|e3 earlier]]]; cbn [app] in E.
  4: { injection E as _ _ _ E. destruct earlier; discriminate E. }
  - injection E as <- <- <-. assert (Q : try_parse (ext_dbg X) (flat_write empty_file) = Ok empty_file) by (destruct (ext_dbg X); vm_compute; reflexivity).
    rewrite Q in P. injection P as <-. destruct I.
  - injection E as _ <- <- <-. rewrite copies_parse in P by (vm_compute; reflexivity). injection P as <-.
    apply repeat_spec in I as ->. unfold link_cid in L. cbn [l_hash] in L. rewrite (decode_bytes X HX) in L by reflexivity. injection L as <-.
    cbn [map fst]. intros [H|[H|[]]]; discriminate H.
  - injection E as _ _ <- <- <-. rewrite copies_parse in P by (vm_compute; reflexivity). injection P as <-.
    apply repeat_spec in I as ->. unfold link_cid in L. cbn [l_hash] in L. rewrite (decode_bytes X HX) in L by reflexivity. injection L as <-.
    cbn [map fst]. intros [H|[]]; discriminate H.
Qed.
Example C76_nonvacuous : forall X, ext_ok X -> exists get fs,
  (forall c b, cid_wf c = true -> get c = Some b -> In (c, b) three) /\ children_first X three /\ NoDup (map fst three)
  /\ finite get /\ no_cycles X get /\ parsable X get
  /\ (forall c b, on_disk fs ex_dir c (Contents b) -> get c = Some b)
  /\ (exists b, on_disk fs ex_dir (idc 2) (Contents b))
  /\ unfolded X get [idc 2] 10.
Proof.
  intros X HX. destruct (C54_store [x2f] ex_dir three ex_place) as (fs & St & At). exists (holding three), fs.
  assert (Has : forall c b, cid_wf c = true -> holding three c = Some b -> In (c, b) three).
  { intros c b Wf H. unfold holding in H. destruct (find _ three) as [[c' b']|] eqn:F; [|discriminate H]. injection H as ->.
    apply find_some in F as [I E]. apply bytes_eqb_eq in E. cbn [fst] in E.
    assert (Wf' : cid_wf c' = true) by (cbn in I; destruct I as [I|[I|[I|[]]]]; injection I as <- _; reflexivity).
    rewrite (cid_bytes_inj X _ _ HX Wf' Wf E) in I. exact I. }
  assert (ND : NoDup (map fst three)) by (repeat (constructor; [intros I; cbn in I; repeat (destruct I as [I|I]; [discriminate I|]); exact I|]); constructor).
  destruct (C76_children_first X three (holding three) HX (three_first X HX) ND Has) as [F N].
  assert (P : forall b, In b (map snd three) -> try_parse (ext_dbg X) b <> Diverge).
  { intros b I. cbn [map snd three] in I. destruct I as [<-|[<-|[<-|[]]]].
    - destruct (ext_dbg X); vm_compute; discriminate.
    - rewrite copies_parse by (vm_compute; reflexivity). discriminate.
    - rewrite copies_parse by (vm_compute; reflexivity). discriminate. }
  split; [exact Has|]. split; [exact (three_first X HX)|]. split; [exact ND|]. split; [exact F|]. split; [exact N|]. split; [|split; [|split]].
  - intros c b H. apply P. unfold holding in H. destruct (find _ three) as [[c' b']|] eqn:Fd; [|discriminate H]. injection H as ->.
    apply find_some in Fd as [I _]. change b with (snd (c', b)). apply in_map, I.
  - intros c b O. destruct (holding three c) as [b'|] eqn:H.
    + destruct (C54_path Empty_set [x2f] ex_dir c ex_place) as (q & _ & U). specialize (St c b' q H (proj2 (U q) eq_refl)). specialize (O q (proj2 (U q) eq_refl)). congruence.
    + specialize (At c H). destruct (C54_path Empty_set [x2f] ex_dir c ex_place) as (q & _ & U). specialize (At q (proj2 (U q) eq_refl)). specialize (O q (proj2 (U q) eq_refl)). congruence.
  - exists (flat_write (copies 3 (idc 1))). intros p. apply St. vm_compute. reflexivity.
  - assert (G : forall n b, In (idc n, b) three -> holding three (idc n) = Some b).
    { intros n b I. cbn [three In] in I. destruct I as [I|[I|[I|[]]]]; injection I as Hn <-; unfold idc in *; rewrite <- Hn; vm_compute; reflexivity. }
    assert (U0 : unfolded X (holding three) [idc 0] 1).
    { eapply (un_node X _ _ _ empty_file [] 0 0); [apply G; left; reflexivity| |constructor|constructor]. destruct (ext_dbg X); vm_compute; reflexivity. }
    assert (U1 : unfolded X (holding three) [idc 1] 3).
    { eapply (un_node X _ _ _ (copies 2 (idc 0)) [] 2 0); [apply G; right; left; reflexivity|apply copies_parse; vm_compute; reflexivity| |constructor].
      rewrite targets_copies by (exact HX || reflexivity). exact (un_repeat X _ _ 1 2 U0). }
    eapply (un_node X _ _ _ (copies 3 (idc 1)) [] 9 0); [apply G; right; right; left; reflexivity|apply copies_parse; vm_compute; reflexivity| |constructor].
    rewrite targets_copies by (exact HX || reflexivity). exact (un_repeat X _ _ 3 3 U1).
Qed.

(** 201 blocks, and at least 2^200 of them to visit *)
Definition twice_get (c : cid) : option bytes :=
  match cid_digest c with
  | [x] => match N.to_nat (b2n x) with O => Some (flat_write empty_file) | S k => Some (flat_write (copies 2 (idc (N.of_nat k)))) end
  | _ => None
  end.
Example C76_amplified_nonvacuous : forall X, ext_ok X -> exists id root,
  (forall k, (k < 200)%nat -> cid_wf (id k) = true /\ blen (flat_write (copies 2 (id k))) < two32)
  /\ twice_get (id O) = Some (flat_write empty_file)
  /\ (forall k, (k < 200)%nat -> twice_get (id (S k)) = Some (flat_write (copies 2 (id k))))
  /\ twice_get (id 200%nat) = Some root.
Proof.
  intros X HX. exists (fun k => idc (N.of_nat k)), (flat_write (copies 2 (idc 199))).
  assert (B : forall k, (k <= 200)%nat -> b2n (n2b (N.of_nat k)) = N.of_nat k) by (intros k L; rewrite b2n_n2b; apply N.mod_small; lia).
  split; [|split; [|split]].
  - intros k L. split; [reflexivity|]. apply N.ltb_lt.
    assert (F : forallb (fun k => blen (flat_write (copies 2 (idc (N.of_nat k)))) <? two32) (seq 0 200) = true) by (vm_compute; reflexivity).
    rewrite forallb_forall in F. apply F. apply in_seq. lia.
  - reflexivity.
  - intros k L. unfold twice_get, idc at 1. cbn [cid_digest]. rewrite (B (S k)) by lia. rewrite Nat2N.id. reflexivity.
  - vm_compute. reflexivity.
Qed.
