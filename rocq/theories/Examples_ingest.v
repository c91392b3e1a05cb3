(** * Examples_ingest: archives used as witnesses and counterexamples *)
From Verif Require Import Base Tac Wire Utf8 Cid Pb Dagpb Reader Visit Dir Builder Walk Adder SpecAdder Adder_proofs Adder_thms
  SpecFile SpecDir SpecBuilder Paths_proofs Builder_proofs Builder_thms Builder_use SpecWalk Programs SpecPrograms Programs_proofs
  Examples_file Examples_builder PropertiesBuilt Ingest SpecIngest Ingest_proofs Ingest_tree.

(** small files are a single leaf *)
Lemma small_chunk (c : bytes) : c <> [] -> blen c <= 262144 -> chunks (N.to_nat 262144) c = [c].
Proof.
  intros N L. unfold chunks. destruct c as [|x c]; [congruence|]. unfold pieces. cbn [length pieces_go].
  assert (E : (length (x :: c) <= N.to_nat 262144)%nat) by (unfold blen in L; lia).
  rewrite firstn_all2, skipn_all2 by exact E. destruct (length c); reflexivity.
Qed.
Lemma small_canonical c : c <> [] -> blen c <= 262144 -> canonical 262144 174 c (FLeaf c).
Proof. intros N L. unfold canonical. rewrite (small_chunk c N L). constructor. Qed.
Lemma small_blocks X c kbs p : c <> [] -> blen c <= 262144 ->
  blocks_for X (Regular p c) kbs -> kbs = [(block_cid X (block X (FLeaf c)), block X (FLeaf c))].
Proof.
  intros N L (r & C & ->). rewrite (canonical_unique 262144 174 c r (FLeaf c) C (small_canonical c N L)). reflexivity.
Qed.

(** the calls for a list of small things *)
Definition call_of (X : ext) (a : archived) : call :=
  match a with
  | Regular p c => Put p (block_cid X (block X (FLeaf c))) (blen (block X (FLeaf c)))
  | Linked p t => Put p (block_cid X (symlink_block t)) (blen (symlink_block t))
  | Folder p => SetMetadata p (MData None None)
  end.
Definition small (a : archived) : Prop := match a with Regular _ c => c <> [] /\ blen c <= 262144 | _ => True end.
Lemma call_small X a k : small a -> call_for X a k -> k = call_of X a.
Proof.
  intros S (kbs & B & H). destruct a as [p c|p t|p]; cbn in S.
  - destruct S as [N L]. apply (small_blocks X c kbs p N L) in B. subst kbs. destruct H as (before & root & E & ->).
    change [?y] with ([] ++ [y]) in E at 1. apply app_inj_tail in E as [_ <-]. unfold all_bytes. cbn [map concat snd fst archived_at call_of]. rewrite app_nil_r. reflexivity.
  - cbn [blocks_for] in B. subst kbs. destruct H as (before & root & E & ->).
    change [?y] with ([] ++ [y]) in E at 1. apply app_inj_tail in E as [_ <-]. unfold all_bytes. cbn [map concat snd fst archived_at call_of]. rewrite app_nil_r. reflexivity.
  - exact H.
Qed.
Lemma calls_small X arch ks : Forall small arch -> Forall2 (call_for X) arch ks -> ks = map (call_of X) arch.
Proof.
  intros S F. induction F as [|a k arch ks C F IH]; [reflexivity|]. apply Forall_cons_iff in S as [Sa S].
  cbn [map]. rewrite (call_small X a k Sa C), (IH S). reflexivity.
Qed.
Definition blocks_of (X : ext) (a : archived) : list (cid * bytes) :=
  match a with
  | Regular _ c => [(block_cid X (block X (FLeaf c)), block X (FLeaf c))]
  | Linked _ t => [(block_cid X (symlink_block t), symlink_block t)]
  | Folder _ => []
  end.
Lemma blocks_small X a kbs : small a -> blocks_for X a kbs -> kbs = blocks_of X a.
Proof. intros S B. destruct a as [p c|p t|p]; cbn in S; [destruct S; eapply small_blocks; eassumption|exact B|exact B]. Qed.

(** "./", "./f" with the content "ab" read in two pieces, and the link "l" to
    "./f" *)
Definition tar1 : list tar_entry :=
  [TarEntry [x2e; x2f] None []; TarEntry [x2e; x2f; x66] None [Some [x61]; Some [x62]; Some []]; TarEntry [x6c] (Some [x2e; x2f; x66]) []].
Definition arch1 : list archived := [Folder [x2e]; Regular [x2e; x2f; x66] [x61; x62]; Linked [x6c] [x2e; x2f; x66]].
Lemma tar1_arch : Forall2 entry_of tar1 arch1 /\ Forall sensible arch1 /\ Forall small arch1
  /\ forall path content, In (Regular path content) arch1 -> blen content <> 262144.
Proof.
  split; [|split; [|split]].
  - constructor; [apply (of_folder [x2e] [])|]. constructor; [|constructor; [apply of_link|constructor]].
    apply (of_file [x2e; x2f; x66] [[x61]; [x62]] [Some []]).
    + intros (q & E). change [x2e; x2f; x66] with ([x2e; x2f] ++ [x66]) in E. apply app_inj_tail in E as [_ E]. discriminate.
    + repeat constructor; vm_compute; congruence.
    + right. exists []. reflexivity.
  - repeat constructor; vm_compute; congruence.
  - repeat constructor; vm_compute; congruence.
  - intros p c [E|[E|[E|[]]]]; try discriminate. injection E as <- <-. vm_compute. congruence.
Qed.
Definition calls1 (dbg : bool) : list call := map (call_of (toy dbg)) arch1.
Definition tree1 (dbg : bool) : tree :=
  Dir [([x2e], Dir [([x66], Leaf (block_cid (toy dbg) (block (toy dbg) (FLeaf [x61; x62]))) 10)]);
       ([x6c], Leaf (block_cid (toy dbg) (symlink_block [x2e; x2f; x66])) 9)].
Lemma holds1 dbg : holds (tree1 dbg) (accepted (builder_new ingest_options) (calls1 dbg)).
Proof.
  pose proof (inv_holds _ _ (proj1 (run_new ingest_options (calls1 dbg)))) as H.
  replace (tree1 dbg) with (erase (b_root (after (builder_new ingest_options) (calls1 dbg)))); [exact H|]. destruct dbg; vm_compute; reflexivity.
Qed.
Lemma call_of_for X a : small a -> call_for X a (call_of X a).
Proof.
  intros S. exists (blocks_of X a). destruct a as [p c|p t|p]; cbn in S.
  - destruct S as [N L]. split; [exists (FLeaf c); split; [apply small_canonical; assumption|reflexivity]|].
    eexists [], _. split; [reflexivity|]. unfold all_bytes. cbn [map concat snd fst archived_at call_of blocks_of]. rewrite app_nil_r. reflexivity.
  - split; [reflexivity|]. eexists [], _. split; [reflexivity|]. unfold all_bytes. cbn [map concat snd fst archived_at call_of blocks_of]. rewrite app_nil_r. reflexivity.
  - split; reflexivity.
Qed.
Lemma calls_of_for X arch : Forall small arch -> Forall2 (call_for X) arch (map (call_of X) arch).
Proof. induction 1; constructor; [apply call_of_for|]; assumption. Qed.

(** the names in an archive *)
Lemma names_of arch names m : has arch names m -> names = [] \/ exists a rest, In a arch /\ split_slash (archived_at a) = names ++ rest.
Proof.
  intros H. destruct H as [p x names I S|p x names I S| |p names I S|a names n rest I S]; [right|right|left; reflexivity|right|right].
  - exists (Regular p x), []. split; [exact I|]. rewrite app_nil_r. symmetry. apply segments_split, S.
  - exists (Linked p x), []. split; [exact I|]. rewrite app_nil_r. symmetry. apply segments_split, S.
  - exists (Folder p), []. split; [exact I|]. rewrite app_nil_r. symmetry. apply segments_split, S.
  - exists a, (n :: rest). split; [exact I|]. symmetry. apply segments_split, S.
Qed.
Lemma arch_path arch : (forall a, In a arch -> path_names (split_slash (archived_at a))) -> forall names m, has arch names m -> path_names names.
Proof.
  intros F names m H. apply names_of in H as [->|(a & rest & I & E)]; [exact Logic.I|]. specialize (F a I). rewrite E in F. apply Built_proofs.path_prefix in F. exact F.
Qed.

Lemma consistent1 : consistent arch1.
Proof.
  apply (consistent_calls (toy true) ingest_options arch1 (calls1 true) eq_refl); [apply calls_of_for, tar1_arch|]. vm_compute. repeat constructor.
Qed.
Lemma path1 : forall names m, has arch1 names m -> path_names names.
Proof.
  apply arch_path. intros a [<-|[<-|[<-|[]]]]; cbn; repeat constructor; try discriminate; cbn; intros [Q|Q]; try discriminate; destruct Q.
Qed.
Definition nodes1 (dbg : bool) : list tree_node :=
  [node_of (toy dbg) [[x2e]] [([x66], Leaf (block_cid (toy dbg) (block (toy dbg) (FLeaf [x61; x62]))) 10)];
   node_of (toy dbg) [] match tree1 dbg with Dir es => es | _ => [] end].
Lemma succeeds1 dbg : succeeds (toy dbg) (after (builder_new ingest_options) (calls1 dbg)).
Proof.
  assert (R : results (toy dbg) 3 (build (after (builder_new ingest_options) (calls1 dbg))) = map (fun n => Ok (Some n)) (nodes1 dbg) ++ [Ok None])
    by (destruct dbg; vm_compute; reflexivity).
  apply (succeeds_by (toy dbg) ingest_options (calls1 dbg) _ (holds1 dbg) 3); rewrite R.
  - right. right. left. reflexivity.
  - intros r [<-|[<-|[<-|[]]]]; eauto.
Qed.
Lemma emitted1 dbg node : emitted (toy dbg) (after (builder_new ingest_options) (calls1 dbg)) node -> In node (nodes1 dbg).
Proof.
  intros E. destruct (emitted_at (toy dbg) ingest_options (calls1 dbg) _ (holds1 dbg) node E) as (names & es & S & _ & -> & _).
  clear E. unfold nodes1. destruct names as [|n names]; [injection S as <-; right; left; reflexivity|].
  cbn -[block_cid] in S. destruct (bytes_eqb n [x2e]) eqn:B.
  - apply bytes_eqb_eq in B as ->. destruct names as [|m names]; [injection S as <-; left; reflexivity|]. cbn -[block_cid] in S.
    destruct (bytes_eqb m [x66]); [destruct names; discriminate|discriminate].
  - destruct (bytes_eqb n [x6c]); [destruct names; discriminate|discriminate].
Qed.
(** all blocks *)
Definition get1 (dbg : bool) : cid -> option bytes :=
  holding (map (fun n => (n_cid n, n_block n)) (nodes1 dbg) ++ flat_map (blocks_of (toy dbg)) arch1).
Lemma get1_blocks dbg a kbs c b : In a arch1 -> blocks_for (toy dbg) a kbs -> In (c, b) kbs -> get1 dbg c = Some b.
Proof.
  intros I B J. assert (Sm : small a) by (pose proof tar1_arch as (_ & _ & S & _); rewrite Forall_forall in S; apply S, I).
  apply (blocks_small _ _ _ Sm) in B. subst kbs. destruct I as [<-|[<-|[<-|[]]]].
  - destruct J.
  - destruct J as [J|[]]. injection J as <- <-. destruct dbg; vm_compute; reflexivity.
  - destruct J as [J|[]]. injection J as <- <-. destruct dbg; vm_compute; reflexivity.
Qed.
Lemma get1_nodes dbg ks node : Forall2 (call_for (toy dbg)) arch1 ks -> emitted (toy dbg) (after (builder_new ingest_options) ks) node ->
  get1 dbg (n_cid node) = Some (n_block node).
Proof.
  intros F E. apply calls_small in F; [|apply tar1_arch]. subst ks. apply emitted1 in E as [<-|[<-|[]]]; destruct dbg; vm_compute; reflexivity.
Qed.

(** "a/./c" and "b" *)
Definition tar2 : list tar_entry := [TarEntry [x61; x2f; x2e; x2f; x63] None [Some [x61]]; TarEntry [x62] None [Some [x61]]].
Definition arch2 : list archived := [Regular [x61; x2f; x2e; x2f; x63] [x61]; Regular [x62] [x61]].
Lemma tar2_arch : Forall2 entry_of tar2 arch2 /\ Forall sensible arch2 /\ Forall small arch2
  /\ forall path content, In (Regular path content) arch2 -> blen content <> 262144.
Proof.
  split; [|split; [|split]].
  - constructor; [|constructor; [|constructor]].
    + apply (of_file [x61; x2f; x2e; x2f; x63] [[x61]] []).
      * intros (q & E). change [x61; x2f; x2e; x2f; x63] with ([x61; x2f; x2e; x2f] ++ [x63]) in E. apply app_inj_tail in E as [_ E]. discriminate.
      * repeat constructor; vm_compute; congruence.
      * left. reflexivity.
    + apply (of_file [x62] [[x61]] []).
      * intros (q & E). change [x62] with ([] ++ [x62]) in E. apply app_inj_tail in E as [_ E]. discriminate.
      * repeat constructor; vm_compute; congruence.
      * left. reflexivity.
  - repeat constructor; vm_compute; congruence.
  - repeat constructor; vm_compute; congruence.
  - intros p c [E|[E|[]]]; injection E as <- <-; vm_compute; congruence.
Qed.
Definition calls2 (dbg : bool) : list call := map (call_of (toy dbg)) arch2.
Definition leaf2 (dbg : bool) : tree := Leaf (block_cid (toy dbg) (block (toy dbg) (FLeaf [x61]))) 9.
Definition es2 (dbg : bool) : list (bytes * tree) := [([x61], Dir [([x2e], Dir [([x63], leaf2 dbg)])]); ([x62], leaf2 dbg)].
Lemma holds2 dbg : holds (Dir (es2 dbg)) (accepted (builder_new ingest_options) (calls2 dbg)).
Proof.
  pose proof (inv_holds _ _ (proj1 (run_new ingest_options (calls2 dbg)))) as H.
  replace (Dir (es2 dbg)) with (erase (b_root (after (builder_new ingest_options) (calls2 dbg)))); [exact H|]. destruct dbg; vm_compute; reflexivity.
Qed.
Definition nodes2 (dbg : bool) : list tree_node :=
  [node_of (toy dbg) [[x61]; [x2e]] [([x63], leaf2 dbg)]; node_of (toy dbg) [[x61]] [([x2e], Dir [([x63], leaf2 dbg)])]; node_of (toy dbg) [] (es2 dbg)].
Lemma consistent2 : consistent arch2.
Proof.
  apply (consistent_calls (toy true) ingest_options arch2 (calls2 true) eq_refl); [apply calls_of_for, tar2_arch|]. vm_compute. repeat constructor.
Qed.
Lemma results2 dbg : results (toy dbg) 4 (build (after (builder_new ingest_options) (calls2 dbg))) = map (fun n => Ok (Some n)) (nodes2 dbg) ++ [Ok None].
Proof. destruct dbg; vm_compute; reflexivity. Qed.
Lemma succeeds2 dbg : succeeds (toy dbg) (after (builder_new ingest_options) (calls2 dbg)).
Proof.
  apply (succeeds_by (toy dbg) ingest_options (calls2 dbg) _ (holds2 dbg) 4); rewrite results2.
  - right. right. right. left. reflexivity.
  - intros r [<-|[<-|[<-|[<-|[]]]]]; eauto.
Qed.
Lemma emitted2 dbg node : emitted (toy dbg) (after (builder_new ingest_options) (calls2 dbg)) node -> In node (nodes2 dbg).
Proof.
  intros E. destruct (emitted_at (toy dbg) ingest_options (calls2 dbg) _ (holds2 dbg) node E) as (names & es & S & _ & -> & _).
  clear E. unfold nodes2. destruct names as [|n names]; [injection S as <-; right; right; left; reflexivity|].
  cbn -[leaf2] in S. destruct (bytes_eqb n [x61]) eqn:B.
  - apply bytes_eqb_eq in B as ->. destruct names as [|m names]; [injection S as <-; right; left; reflexivity|]. cbn -[leaf2] in S.
    destruct (bytes_eqb m [x2e]) eqn:B2; [|discriminate]. apply bytes_eqb_eq in B2 as ->. destruct names as [|k names]; [injection S as <-; left; reflexivity|].
    cbn -[leaf2] in S. destruct (bytes_eqb k [x63]); [destruct names; discriminate|discriminate].
  - destruct (bytes_eqb n [x62]); [destruct names; discriminate|discriminate].
Qed.
Definition get2 (dbg : bool) : cid -> option bytes :=
  holding (map (fun n => (n_cid n, n_block n)) (nodes2 dbg) ++ flat_map (blocks_of (toy dbg)) arch2).
Lemma get2_blocks dbg a kbs c b : In a arch2 -> blocks_for (toy dbg) a kbs -> In (c, b) kbs -> get2 dbg c = Some b.
Proof.
  intros I B J. assert (Sm : small a) by (pose proof tar2_arch as (_ & _ & S & _); rewrite Forall_forall in S; apply S, I).
  apply (blocks_small _ _ _ Sm) in B. subst kbs. destruct I as [<-|[<-|[]]]; destruct J as [J|[]]; injection J as <- <-; destruct dbg; vm_compute; reflexivity.
Qed.
Lemma get2_nodes dbg ks node : Forall2 (call_for (toy dbg)) arch2 ks -> emitted (toy dbg) (after (builder_new ingest_options) ks) node ->
  get2 dbg (n_cid node) = Some (n_block node).
Proof.
  intros F E. apply calls_small in F; [|apply tar2_arch]. subst ks. apply emitted2 in E as [<-|[<-|[<-|[]]]]; destruct dbg; vm_compute; reflexivity.
Qed.
Definition root2 (dbg : bool) : cid := n_cid (node_of (toy dbg) [] (es2 dbg)).
Lemma panics2 dbg : strolls_to_panic (toy dbg) (get2 dbg) (if dbg then 2 else 4)%nat (walker_new (root2 dbg) []) = true.
Proof. destruct dbg; vm_compute; reflexivity. Qed.
