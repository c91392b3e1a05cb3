(** * Ingest_tree: the tree that ingest_tar makes *)
From Coq Require Import Sorting.Sorted Sorting.Permutation.
From Verif Require Import Base Tac Wire Utf8 Cid Pb Dagpb Codec_proofs Parse_safety Reader Visit Dir Builder Walk Adder SpecAdder Adder_proofs Adder_thms
  Programs_proofs SpecFile SpecDir Visit_thms SpecBuilder Paths_proofs Builder_proofs Builder_thms Builder_use SpecWalk SpecBuilt Built_proofs
  Programs SpecPrograms PropertiesBuilder PropertiesBuilt Trust_proofs Ingest SpecIngest Ingest_proofs.

Definition member_for (a : archived) : member :=
  match a with Regular _ content => MFile content | Linked _ target => MLink target | Folder _ => MFolder end.
Definition node_for (a : archived) : fsnode :=
  match a with
  | Regular _ content => FsFile (MData None None) content
  | Linked _ target => FsSymlink (MData None None) target
  | Folder _ => FsDir (MData None None) []
  end.

Lemma accepted_all b ks : Forall (eq (Ok tt)) (returns b ks) -> accepted b ks = ks.
Proof.
  revert b. induction ks as [|k ks IH]; intros b F; [reflexivity|]. cbn [returns accepted] in *. apply Forall_cons_iff in F as [E F].
  rewrite <- E. cbn [app]. rewrite IH by exact F. reflexivity.
Qed.

Section tree.
Context (X : ext) (HX : ext_ok X) (get : cid -> option bytes).

Lemma stored_for a p c s : sensible a -> call_for X a (Put p c s) ->
  (forall kbs c b, blocks_for X a kbs -> In (c, b) kbs -> get c = Some b) ->
  stored X get c (node_for a) /\ archived_at a = p /\ ~ is_folder a /\ is_member X c (node_for a) (member_for a).
Proof.
  intros (_ & Se) (kbs & B & H) G. destruct a as [q x|q x|q]; [| |discriminate H].
  - destruct H as (before & root & E & Q). injection Q as <- -> _. cbn [archived_at is_folder node_for member_for is_member].
    destruct B as (r & Cn & Bk).
    destruct (canonical_last X r) as (bef & Er). rewrite Bk, Er in E. apply app_inj_tail in E as [_ <-]. cbn [cblock_of fst].
    split; [|split; [reflexivity|split; [tauto|split; [reflexivity|eauto]]]].
    assert (G' : forall c b, In (c, b) (tree_blocks X r) -> get c = Some b).
    { intros c b I. apply (G kbs); [exists r; auto|rewrite Bk; exact I]. }
    destruct (adder_dag X HX get 262144 174 x r default_cfg) as (f & P & NM & D); [split; vm_compute; congruence|left; lia|exact Se|exact Cn|exact G'|].
    assert (Gr : get (block_cid X (block X r)) = Some (block X r)).
    { apply G'. rewrite Er. apply in_app_iff. right. left. reflexivity. }
    assert (Sy : says (f_data f) = MData None None) by (destruct NM as [Nm Nt]; unfold says; rewrite Nm, Nt; reflexivity).
    rewrite <- Sy. eapply stored_file; [exact Gr|exact P|exact D|]. unfold max_content, two64 in *. lia.
  - destruct H as (before & root & E & Q). injection Q as <- -> _. cbn [archived_at is_folder node_for member_for is_member].
    destruct Se as [_ Se]. destruct (symlink_parse (ext_dbg X) x [] Se) as (blk & Eb & P).
    assert (Q : symlink_block x = blk) by exact Eb. cbn [blocks_for] in B. rewrite B in E. change [?y] with ([] ++ [y]) in E at 1.
    apply app_inj_tail in E as [_ <-]. cbn [fst].
    split; [|split; [reflexivity|split; [tauto|split; reflexivity]]].
    assert (Gr : get (block_cid X (symlink_block x)) = Some (symlink_block x)) by (apply (G kbs); [exact B|rewrite B; left; reflexivity]).
    rewrite Q in *. exact (stored_symlink X get _ blk _ Gr P eq_refl).
Qed.

Context (arch : list archived) (ks : list call).
Definition holds_cid (c : cid) (ak : archived * call) : bool := match snd ak with Put _ c' _ => cid_eqb c' c | _ => false end.
Definition what (c : cid) : fsnode :=
  match find (holds_cid c) (combine arch ks) with
  | Some (a, _) => node_for a
  | None => FsDir (MData None None) []
  end.

Context (Hk : Forall2 (call_for X) arch ks) (Hs : Forall sensible arch).
Context (Hg : forall a kbs c b, In a arch -> blocks_for X a kbs -> In (c, b) kbs -> get c = Some b).

Lemma pairs_call a k : In (a, k) (combine arch ks) -> In a arch /\ In k ks /\ sensible a /\ call_for X a k.
Proof.
  intros I. split; [eapply in_combine_l, I|]. split; [eapply in_combine_r, I|]. split.
  - rewrite Forall_forall in Hs. apply Hs. eapply in_combine_l, I.
  - clear Hg. revert I. induction Hk as [|a' k' l l' C F IH]; [intros []|]. intros [E|I]; [congruence|]. apply Forall_cons_iff in Hs as [_ Hs']. auto.
Qed.
Lemma pair_of_call k : In k ks -> exists a, In (a, k) (combine arch ks).
Proof.
  clear Hg Hs. induction Hk as [|a' k' l l' C F IH]; [intros []|]. intros [->|I]; [exists a'; left; reflexivity|].
  destruct (IH F I) as (a & Q). exists a. right. exact Q.
Qed.
Lemma pair_of_entry a : In a arch -> exists k, In (a, k) (combine arch ks).
Proof.
  clear Hg Hs. induction Hk as [|a' k' l l' C F IH]; [intros []|]. intros [->|I]; [exists k'; left; reflexivity|].
  destruct (IH F I) as (k & Q). exists k. right. exact Q.
Qed.

Lemma what_stored a p c s : In (a, Put p c s) (combine arch ks) ->
  stored X get c (what c) /\ what c = node_for a /\ archived_at a = p /\ ~ is_folder a /\ is_member X c (node_for a) (member_for a).
Proof.
  intros I.
  assert (St : forall a p s, In (a, Put p c s) (combine arch ks) -> stored X get c (node_for a) /\ archived_at a = p /\ ~ is_folder a /\ is_member X c (node_for a) (member_for a)).
  { clear I a p s. intros a p s I. apply pairs_call in I as (Ia & _ & Se & C). apply (stored_for a p c s Se C). intros kbs c' b' B Ib. exact (Hg a kbs c' b' Ia B Ib). }
  destruct (St a p s I) as (S1 & S2 & S3 & S4).
  assert (W : what c = node_for a); [|rewrite W; auto 6].
  unfold what. destruct (find (holds_cid c) (combine arch ks)) as [[a' k']|] eqn:F.
  - apply find_some in F as [I' Q]. unfold holds_cid in Q. cbn [snd] in Q. destruct k' as [p' c' s'|]; [|discriminate].
    apply cid_eqb_eq in Q. subst c'. destruct (St a' p' s' I') as (S1' & _). apply (proj1 (stored_fun X get) c _ S1' _ S1).
  - exfalso. apply (find_none _ _ F) in I. unfold holds_cid in I. cbn [snd] in I.
    assert (cid_eqb c c = true) by (apply cid_eqb_eq; reflexivity). congruence.
Qed.

Lemma what_put p c s : In (Put p c s) ks -> exists a, In a arch /\ sensible a /\ what c = node_for a /\ archived_at a = p /\ ~ is_folder a /\ stored X get c (what c)
  /\ is_member X c (what c) (member_for a).
Proof.
  intros I. destruct (pair_of_call _ I) as (a & Q). exists a. pose proof (pairs_call _ _ Q) as (Ia & _ & Se & _).
  destruct (what_stored a p c s Q) as (A & B & C & D & E). rewrite <- B in E. auto 10.
Qed.
Lemma what_no_dir p c s : In (Put p c s) ks -> stored X get c (what c) /\ no_dir (what c).
Proof.
  intros I. destruct (what_put p c s I) as (a & _ & _ & W & _ & F & S & _). split; [exact S|]. rewrite W. unfold no_dir.
  destruct a as [q x|q x|q]; cbn; [left; eauto|right; eauto|]. destruct F. exact Logic.I.
Qed.

(** *** The members of the tree *)
Section members.
Context (t : tree) (Ht : holds t ks).

Lemma leaf_has names c s : leaf_in ks names c s -> exists m, has arch names m /\ is_member X c (what c) m.
Proof.
  intros (p & I & Sg). destruct (what_put p c s I) as (a & Ia & _ & W & Ea & F & _ & M). subst p. exists (member_for a). split; [|exact M]. destruct a as [q x|q x|q].
  - eapply has_file; eassumption.
  - eapply has_link; eassumption.
  - destruct F. exact Logic.I.
Qed.
Lemma has_leaf names m : has arch names m -> m <> MFolder -> exists c s, leaf_in ks names c s /\ is_member X c (what c) m.
Proof.
  intros H N.
  assert (G : forall a, In a arch -> segments (archived_at a) names -> ~ is_folder a -> exists c s, leaf_in ks names c s /\ is_member X c (what c) (member_for a)).
  { intros a Ia Sg F. destruct (pair_of_entry a Ia) as (k & Q). pose proof (pairs_call _ _ Q) as (_ & Ik & _ & C). apply call_kind in C as [P K].
    destruct k as [p c s|]; [|destruct (proj2 K F)]. destruct (what_stored a p c s Q) as (_ & W & E & _ & M). exists c, s. rewrite W. split; [|exact M].
    exists p. split; [exact Ik|]. rewrite <- E. exact Sg. }
  destruct H as [p x names Ia Sg|p x names Ia Sg| | |]; try congruence.
  - apply (G _ Ia Sg). cbn. tauto.
  - apply (G _ Ia Sg). cbn. tauto.
Qed.
Lemma folder_has names : has arch names MFolder <-> names = [] \/ dir_in ks names.
Proof.
  split.
  - intros H. remember MFolder as m eqn:Em. destruct H as [p x names Ia Sg|p x names Ia Sg| |p names Ia Sg|a names n rest Ia Sg]; try discriminate; [auto| |].
    + right. destruct (pair_of_entry _ Ia) as (k & Q). apply pairs_call in Q as (_ & Ik & _ & (kbs & _ & E)). cbn in E. subst k.
      split; [apply Sg|]. left. eauto.
    + destruct (pair_of_entry _ Ia) as (k & Q). apply pairs_call in Q as (_ & Ik & _ & C). apply call_kind in C as [P _].
      destruct names as [|n0 names]; [auto|]. right. split; [discriminate|]. right. exists k, n, rest. rewrite P. auto.
  - intros [->|[N [(p & md & I & Sg)|(k & n & rest & I & Sg)]]]; [apply has_top| |].
    + destruct (pair_of_call _ I) as (a & Q). apply pairs_call in Q as (Ia & _ & _ & C). pose proof (call_kind X _ _ C) as [P K]. cbn in P.
      destruct a as [q x|q x|q]; [exfalso; apply K; cbn; tauto|exfalso; apply K; cbn; tauto|]. cbn in P. subst q. eapply has_folder; eassumption.
    + destruct (pair_of_call _ I) as (a & Q). apply pairs_call in Q as (Ia & _ & _ & C). pose proof (call_kind X _ _ C) as [P K].
      rewrite P in Sg. eapply has_parent; eassumption.
Qed.

Definition no_dirs_in (u : tree) : Prop := forall names c s, subtree u names = Some (Leaf c s) -> below_node (what c) = None.
Lemma leaves_plain : no_dirs_in t.
Proof.
  intros names c s S. apply (proj1 (proj2 Ht)) in S as (p & I & _). destruct (what_no_dir p c s I) as [_ [(md & x & ->)|(md & x & ->)]]; reflexivity.
Qed.
Lemma leads_grow u : ordered u -> forall names u', subtree u names = Some u' ->
  leads_to (fst (link_of X u)) (grow X what u) names (fst (link_of X u')) (grow X what u').
Proof.
  intros O names. revert u O. induction names as [|m names IH]; intros u O u' S.
  - injection S as <-. constructor.
  - destruct u as [c s|es]; [discriminate|]. cbn [subtree] in S. destruct (find_name m es) as [v|] eqn:F; [|discriminate]. apply find_in in F.
    eapply leads_below; [reflexivity| |apply (IH v); [eapply ordered_entry; eassumption|exact S]].
    apply in_map_iff. exists (m, v). auto.
Qed.
Lemma grow_leads c n names c' n' : leads_to c n names c' n' -> forall u, c = fst (link_of X u) -> n = grow X what u -> ordered u -> no_dirs_in u ->
  exists u', subtree u names = Some u' /\ c' = fst (link_of X u') /\ n' = grow X what u'.
Proof.
  induction 1 as [c n|c n es name c1 n1 rest c' n' B I L IH]; intros u Ec En O ND; [|clear Ec].
  - exists u. auto.
  - destruct u as [c0 s|es0].
    + subst n. cbn [grow] in B. rewrite (ND [] c0 s eq_refl) in B. discriminate.
    + subst n. cbn [grow below_node] in B. injection B as <-. apply in_map_iff in I as ([m v] & E & I). cbn [fst snd] in E. injection E as -> <- <-.
      assert (Fn : find_name name es0 = Some v) by (apply find_sorted; [apply (O []); reflexivity|exact I]).
      destruct (IH v eq_refl eq_refl) as (u' & S & A1 & A2); [eapply ordered_entry; eassumption| |].
      * intros nms c0 s0 S. apply (ND (name :: nms) c0 s0). cbn. rewrite Fn. exact S.
      * exists u'. split; [cbn; rewrite Fn; exact S|auto].
Qed.

Lemma reached_member names c' n' : leads_to (fst (link_of X t)) (grow X what t) names c' n' -> exists m, has arch names m /\ is_member X c' n' m.
Proof.
  destruct Ht as (O & Lf & Dr). intros L. destruct (grow_leads _ _ _ _ _ L t eq_refl eq_refl O leaves_plain) as (u' & S & -> & ->). destruct u' as [c s|es].
  - apply Lf in S. exact (leaf_has names c s S).
  - exists MFolder. split; [|cbn; eauto]. apply folder_has. apply Dr. exists es. exact S.
Qed.
Lemma member_same c n m m' : is_member X c n m -> is_member X c n m' -> m = m'.
Proof. destruct m, m'; cbn; intros H H'; repeat match goal with Q : _ /\ _ |- _ => destruct Q | Q : exists es, n = FsDir _ es |- _ => destruct Q end; congruence. Qed.
Lemma tree_members names m : has arch names m <-> exists c' n', leads_to (fst (link_of X t)) (grow X what t) names c' n' /\ is_member X c' n' m.
Proof.
  destruct Ht as (O & Lf & Dr). split.
  - intros H.
    assert (DM : m = MFolder \/ m <> MFolder) by (destruct m; auto; right; discriminate). destruct DM as [->|N].
    + apply folder_has in H. apply Dr in H as (es & S). exists (fst (link_of X (Dir es))), (grow X what (Dir es)).
      split; [apply leads_grow; assumption|]. cbn. eauto.
    + destruct (has_leaf names m H N) as (c & s & L & M). apply Lf in L. exists c, (what c). split; [|exact M].
      apply (leads_grow t O names (Leaf c s) L).
  - intros (c' & n' & L & M). destruct (reached_member names c' n' L) as (m' & H & M'). rewrite (member_same c' n' m m' M M'). exact H.
Qed.
Lemma tree_unambiguous : unambiguous (fst (link_of X t)) (grow X what t).
Proof.
  intros path c' n' es L B. destruct (grow_leads _ _ _ _ _ L t eq_refl eq_refl (proj1 Ht) leaves_plain) as (u' & S & _ & ->). destruct u' as [c s|es0].
  - cbn [grow] in B. rewrite (leaves_plain _ _ _ S) in B. discriminate.
  - cbn [grow below_node] in B. injection B as <-. rewrite map_map. cbn [fst]. pose proof (proj1 Ht _ _ S) as Srt. clear - Srt.
    induction Srt as [|[n u] es St IH F]; [constructor|]. cbn [map fst]. constructor; [|exact IH]. intros I. apply in_map_iff in I as ([n' u'] & E & I).
    cbn [fst] in E. subst n'. rewrite Forall_forall in F. apply (name_lt_irrefl n), (F _ I).
Qed.
End members.
End tree.

(** ** The whole *)
Section whole_tree.
Context (X : ext) (HX : ext_ok X) (get : cid -> option bytes) (arch : list archived) (ks : list call).
Context (Hk : Forall2 (call_for X) arch ks) (Ha : Forall api_call ks) (Hs : Forall sensible arch) (Hc : consistent arch).
Context (Hg : forall a kbs c b, In a arch -> blocks_for X a kbs -> In (c, b) kbs -> get c = Some b).
Notation b := (after (builder_new ingest_options) ks).
Context (He : forall node, emitted X b node -> get (n_cid node) = Some (n_block node)).

Lemma entry_has names : entry_in ks names -> exists m, has arch names m.
Proof.
  intros [D|(c & s & L)].
  - exists MFolder. apply (folder_has X arch ks Hk Hs). auto.
  - destruct (leaf_has X HX get arch ks Hk Hs Hg names c s L) as (m & H & _). eauto.
Qed.
Lemma has_entry names m : has arch names m -> names <> [] -> entry_in ks names.
Proof.
  intros H N. assert (DM : m = MFolder \/ m <> MFolder) by (destruct m; auto; right; discriminate). destruct DM as [->|M].
  - left. apply (folder_has X arch ks Hk Hs) in H as [?|H]; [contradiction|exact H].
  - right. assert (G : forall a, In a arch -> segments (archived_at a) names -> ~ is_folder a -> exists c s, leaf_in ks names c s).
    { intros a Ia Sg F. destruct (pair_of_entry X arch ks Hk a Ia) as (k & Q). pose proof (pairs_call X arch ks Hk Hs _ _ Q) as (_ & Ik & _ & C). apply call_kind in C as [P K].
      destruct k as [p c s|]; [|destruct (proj2 K F)]. exists c, s, p. split; [exact Ik|]. cbn in P. rewrite P. exact Sg. }
    destruct H as [p x names Ia Sg|p x names Ia Sg| | |]; try congruence; apply (G _ Ia Sg); cbn; tauto.
Qed.
Context (Hn : forall m, ~ has arch [[]] m).

Lemma ingested_tree : succeeds X b ->
  exists node Nf, finally X b node
  /\ (forall fuel last, (Nf <= fuel)%nat -> last_node X fuel (build b) last = Ok (Some (seen_node node)))
  /\ exists n, stored X get (n_cid node) n /\ unambiguous (n_cid node) n
  /\ (forall c p, ~ In (SeenBucket c p) (sights true [] (n_cid node) n)) /\ text_targets (sights true [] (n_cid node) n)
  /\ (forall names c' n', leads_to (n_cid node) n names c' n' -> exists m, has arch names m /\ is_member X c' n' m)
  /\ forall names m, has arch names m <-> exists c' n', leads_to (n_cid node) n names c' n' /\ is_member X c' n' m.
Proof.
  intros Su.
  assert (All : accepted (builder_new ingest_options) ks = ks).
  { apply accepted_all. apply (consistent_calls X ingest_options arch ks eq_refl Hk), Hc. }
  destruct (C30_tree ingest_options ks) as (t & Ht & _).
  destruct (last_of_wrapped X ingest_options ks t Ht eq_refl) as [(node & Nf & es & Fi & Et & En & Q)|[NS _]]; [|destruct (NS Su)].
  exists node, Nf. split; [exact Fi|]. split; [exact Q|].
  assert (Ht' : holds t ks) by (rewrite <- All; exact Ht).
  assert (Store : forall node, emitted X b node -> blen (n_block node) < two32 /\ get (n_cid node) = Some (n_block node)).
  { intros nd E. split; [|apply He, E]. destruct (emitted_at X ingest_options ks t Ht nd E) as (nms & es' & _ & _ & -> & _ & TL & _).
    cbn [too_large ingest_options block_size_limit default_options] in TL. cbn [node_of n_block]. apply N.ltb_ge in TL. unfold two32. lia. }
  assert (Links : forall p c s, In (Put p c s) (accepted (builder_new ingest_options) ks) -> stored X get c (what arch ks c) /\ no_dir (what arch ks c)).
  { rewrite All. intros p c s I. exact (what_no_dir X HX get arch ks Hk Hs Hg p c s I). }
  assert (NE : ([] : list bytes) <> [] \/ ~ entry_in (accepted (builder_new ingest_options) ks) [[]]).
  { right. rewrite All. intros E. apply entry_has in E as (m & H). exact (Hn m H). }
  assert (Em : emitted X b (node_of X [] es)).
  { destruct Fi as (_ & k & before & R). exists k. rewrite R, <- En. apply in_app_iff. right. left. reflexivity. }
  assert (Sb : subtree t [] = Some (Dir es)) by (rewrite Et; reflexivity).
  pose proof (root_stored X ingest_options ks get (what arch ks) t HX Ha Ht Store (fun p c s I => proj1 (Links p c s I)) [] (Forall_nil _) NE es Sb Em) as St.
  pose proof (built_shown X ingest_options ks (what arch ks) t Ht [] [] (Forall_nil _) NE (Forall_nil _) es Em Sb) as Sh.
  assert (Ec : n_cid node = fst (link_of X t)) by (rewrite En, Et; reflexivity). rewrite Ec, <- Et in *. clear En.
  pose proof (shown_members X b _ (what arch ks) [] [] _ (fun p c s I => proj2 (Links p c s I)) Sh) as M.
  exists (grow X (what arch ks) t). split; [exact St|]. split; [exact (tree_unambiguous X HX get arch ks Hk Hs Hg t Ht')|]. split; [|split].
  - intros c p I. apply M in I as [(? & _ & _ & Z)|[(? & ? & _ & _ & _ & _ & Z)|[(? & ? & ? & ? & ? & _ & _ & Z)|(? & ? & ? & ? & ? & _ & _ & Z)]]]; discriminate.
  - intros c p md tg I. apply M in I as [(? & _ & _ & Z)|[(? & ? & _ & _ & _ & _ & Z)|[(? & ? & ? & ? & ? & _ & _ & Z)|(nms & c0 & s0 & md0 & tg0 & L & Wc & Z)]]]; try discriminate.
    injection Z as _ _ _ ->. destruct L as (q & I & _). rewrite All in I.
    destruct (what_put X HX get arch ks Hk Hs Hg q c0 s0 I) as (a & _ & Se & W & _). rewrite Wc in W. destruct a as [a1 a2|a1 a2|a1]; try discriminate.
    injection W as _ ->. destruct Se as (_ & U & _). apply Text_proofs.valid_text, U.
  - split; [exact (reached_member X HX get arch ks Hk Hs Hg t Ht')|exact (tree_members X HX get arch ks Hk Hs Hg t Ht')].
Qed.
End whole_tree.
