(** * Built_proofs: walking what the tree builder builds *)
From Coq Require Import Sorting.Sorted.
From Verif Require Import Base Tac Wire Utf8 Cid Pb Reader Visit Dir Builder Walk SpecFile SpecDir SpecBuilder SpecWalk SpecBuilt
  Paths_proofs Dir_proofs Builder_proofs Builder_iter Builder_thms Builder_use Walk_proofs Walk_sim Walk_steps.

Lemma plain_loose n : plain_name n -> loose_name n.
Proof. intros (N & _ & F). split; assumption. Qed.
Lemma all_plain_loose ns : Forall plain_name ns -> Forall loose_name ns.
Proof. apply Forall_impl, plain_loose. Qed.
Lemma path_all_loose ns : path_names ns -> Forall loose_name ns.
Proof. destruct ns as [|n ns]; [constructor|]. intros [L F]. constructor; [exact L|apply all_plain_loose, F]. Qed.
Lemma path_of_plain ns : Forall plain_name ns -> path_names ns.
Proof. intros F. destruct F as [|n ns P F]; [exact Logic.I|]. split; [apply plain_loose, P|exact F]. Qed.
Lemma path_prefix a b : path_names (a ++ b) -> path_names a.
Proof. destruct a as [|n a]; [intros _; exact Logic.I|]. intros [L F]. apply Forall_app in F as [F _]. split; assumption. Qed.
Lemma path_rest a b : a <> [] -> path_names (a ++ b) -> Forall plain_name b.
Proof. destruct a as [|n a]; [congruence|]. intros _ [L F]. apply Forall_app in F as [_ F]. exact F. Qed.

Lemma loose_free n : loose_name n -> slash_free n.
Proof. intros (_ & F). exact F. Qed.
Lemma join_loose a b : Forall loose_name a -> Forall loose_name b -> join a = join b -> a = b.
Proof.
  intros A B E.
  assert (N : forall l, Forall loose_name l -> join l = [] -> l = []).
  { intros [|n l] F J; [reflexivity|]. apply Forall_cons_iff in F as [(N & _) F]. exfalso. destruct l as [|m l]; [exact (N J)|].
    cbn [join] in J. apply app_eq_nil in J as [J _]. exact (N J). }
  destruct a as [|n a]; [symmetry; apply N; [exact B|symmetry; exact E]|].
  destruct b as [|m b]; [apply N; [exact A|exact E]|].
  apply join_inj; [discriminate|discriminate| | |exact E]; eapply Forall_impl; [|eassumption| |eassumption]; exact loose_free.
Qed.
Lemma join_path a b : path_names a -> path_names b -> join a = join b -> a = b.
Proof. intros A B. apply join_loose; apply path_all_loose; assumption. Qed.
Lemma child_join base n : Forall loose_name base -> child (join base) n = join (base ++ [n]).
Proof.
  intros F. destruct base as [|m base]; [reflexivity|].
  rewrite join_app by discriminate. unfold child. destruct (join (m :: base)) eqn:E; [|reflexivity].
  exfalso. apply (join_loose (m :: base) []) in E; [discriminate|exact F|constructor].
Qed.

(** all paths of a tree in pre-order *)
Fixpoint down (t : tree) : list (list bytes) :=
  [] :: match t with
        | Leaf _ _ => []
        | Dir es => flat_map (fun e => map (cons (fst e)) (down (snd e))) es
        end.

Lemma down_in t : ordered t -> forall names, In names (down t) <-> subtree t names <> None.
Proof.
  induction t as [c s|es IH] using tree_ind'; intros O names.
  - cbn. destruct names as [|n names]; cbn; split; [discriminate|auto|intros [E|[]]; discriminate|congruence].
  - destruct names as [|n names]; [cbn; split; [discriminate|auto]|]. cbn [down subtree]. split.
    + intros [E|I]; [discriminate|]. apply in_flat_map in I as ([m u] & I & J). cbn [fst snd] in J.
      apply in_map_iff in J as (q & E & J). injection E as -> ->.
      rewrite (find_sorted n es u); [|apply (O []); reflexivity|exact I].
      apply (IH n u I); [|exact J]. eapply ordered_entry; eassumption.
    + intros Q. destruct (find_name n es) as [u|] eqn:F; [|congruence]. apply find_in in F. right.
      apply in_flat_map. exists (n, u). split; [exact F|]. cbn [fst snd]. apply in_map.
      apply (IH n u F); [eapply ordered_entry; eassumption|exact Q].
Qed.

Lemma ssorted_app {A} (R : A -> A -> Prop) a b : StronglySorted R a -> StronglySorted R b ->
  (forall x y, In x a -> In y b -> R x y) -> StronglySorted R (a ++ b).
Proof.
  intros Sa Sb C. induction Sa as [|x a Sa IH F]; [exact Sb|]. cbn. constructor.
  - apply IH. intros; apply C; [right|]; assumption.
  - apply Forall_app. split; [exact F|]. apply Forall_forall. intros y I. apply C; [left; reflexivity|exact I].
Qed.

Lemma down_sorted t : ordered t -> StronglySorted path_before (down t).
Proof.
  induction t as [c s|es IH] using tree_ind'; intros O; [repeat constructor|]. cbn [down].
  assert (Srt : sorted_entries es) by (apply (O []); reflexivity).
  assert (OE : forall n t, In (n, t) es -> ordered t) by (intros; eapply ordered_entry; eassumption).
  clear O. constructor.
  - induction Srt as [|[n u] es S IHs F]; [constructor|]. cbn [flat_map fst snd]. apply ssorted_app.
    + specialize (IH n u (or_introl eq_refl) (OE n u (or_introl eq_refl))).
      induction IH as [|p l Sl IHl Fl]; [constructor|]. cbn [map]. constructor; [exact IHl|].
      apply Forall_map. eapply Forall_impl; [|exact Fl]. intros q [(m & r & ->)|(a & x & y & p' & q' & -> & -> & L)].
      * left. exists m, r. reflexivity.
      * right. exists (n :: a), x, y, p', q'. auto.
    + apply IHs; intros; [eapply IH|eapply OE]; try right; eassumption.
    + intros p q Ip Iq. apply in_map_iff in Ip as (p' & <- & _). apply in_flat_map in Iq as ([m v] & J & Iq).
      apply in_map_iff in Iq as (q' & <- & _). right. exists [], n, m, p', q'. split; [reflexivity|]. split; [reflexivity|].
      rewrite Forall_forall in F. apply (F (m, v) J).
  - apply Forall_forall. intros p I. apply in_flat_map in I as ([m v] & J & I). apply in_map_iff in I as (q & <- & _).
    left. exists m, q. reflexivity.
Qed.

(** accepted calls have well-formed paths *)
Lemma accepted_well bb H ks k : inv bb H -> In k (accepted bb ks) -> well_formed (call_path k).
Proof.
  revert bb H. induction ks as [|k0 ks IH]; intros bb H Iv I; [destruct I|]. cbn [accepted] in I.
  destruct (call_step bb H k0 Iv) as [(Ac & E & Iv2 & _)|(e & _ & E & Same)]; rewrite E in I.
  - destruct I as [<-|I]; [apply Ac|]. exact (IH _ _ Iv2 I).
  - cbn [app] in I. destruct (same_tree_run ks _ _ Same) as (_ & Ea & _). rewrite Ea in I. exact (IH _ _ Iv I).
Qed.
Lemma entry_names opts ks names : entry_in (accepted (builder_new opts) ks) names -> names = [[]] \/ Forall loose_name names.
Proof.
  intros E. assert (G : exists k rest, In k (accepted (builder_new opts) ks) /\ segments (call_path k) (names ++ rest) /\ names <> []).
  { destruct E as [(Nn & [(p & md & I & S)|(k & n & rest & I & S)])|(c & s & p & I & S)].
    - exists (SetMetadata p md), []. rewrite app_nil_r. auto.
    - exists k, (n :: rest). auto.
    - exists (Put p c s), []. rewrite app_nil_r. split; [exact I|]. split; [exact S|]. apply S. }
  destruct G as (k & rest & I & S & Nn).
  pose proof (accepted_well _ _ _ _ (inv_new opts) I) as W. pose proof (well_formed_segments _ _ S W) as [Q|Q].
  - left. destruct names as [|n names]; [congruence|]. injection Q as -> Q. apply app_eq_nil in Q as [-> _]. reflexivity.
  - right. destruct S as (_ & F & _). apply Forall_app in Q as [Q _]. apply Forall_app in F as [F _].
    apply Forall_forall. intros n Hn. rewrite Forall_forall in Q, F. split; [apply Q, Hn|apply F, Hn].
Qed.

(** one link that panics, and none that fails *)
Lemma push_panic convert ls : (forall i l, In (i, l) ls -> (exists e, convert i l = Ok e) \/ convert i l = Panic) ->
  (exists i l, In (i, l) ls /\ convert i l = Panic) -> forall pending, fst (push_links convert ls pending) = Panic.
Proof.
  induction ls as [|[i l] ls IH]; intros All (i0 & l0 & I & P) pending; [destruct I|]. cbn [push_links].
  destruct (All i l (or_introl eq_refl)) as [(e & E)|E]; rewrite E; [|reflexivity].
  destruct I as [I|I]; [congruence|]. apply IH; [intros; apply All; right; assumption|eauto].
Qed.
Lemma in_seq_combine {A} (l : list A) x : In x l -> forall n, exists i, In (i, x) (combine (seq n (length l)) l).
Proof.
  induction l as [|y l IH]; intros I n; [destruct I|]. cbn. destruct I as [->|I]; [eauto|].
  destruct (IH I (S n)) as (i & J). eauto.
Qed.

Section built.
Context (X : ext) (opts : tree_options) (ks : list call) (get : cid -> option bytes) (what : cid -> fsnode) (t : tree).
Notation b := (after (builder_new opts) ks).
Notation H := (accepted (builder_new opts) ks).
Context (HX : ext_ok X) (A : Forall api_call ks) (Ht : holds t H).
Context (Store : forall node, emitted X b node -> blen (n_block node) < two32 /\ get (n_cid node) = Some (n_block node)).
Context (Links : forall p c s, In (Put p c s) H -> stored X get c (what c)).

(** the tree with what is stored at the links *)
Fixpoint grow (u : tree) : fsnode :=
  match u with
  | Leaf c _ => what c
  | Dir es => FsDir (MData None None) (map (fun e => (fst e, fst (link_of X (snd e)), grow (snd e))) es)
  end.

Lemma in_tree names : subtree t names <> None <-> names = [] \/ entry_in H names.
Proof.
  destruct Ht as (_ & L & D). split.
  - intros N. destruct (subtree t names) as [[c s|es]|] eqn:S; [| |congruence].
    + right. right. exists c, s. apply L, S.
    + assert (Q : is_dir t names) by (exists es; exact S). apply D in Q as [Q|Q]; [auto|]. right. left. exact Q.
  - intros [E|[Q|(c & s & Q)]].
    + subst. discriminate.
    + assert (is_dir t names) as (es & ->) by (apply D; auto). discriminate.
    + apply L in Q. congruence.
Qed.
Lemma tree_names names : subtree t names <> None -> names = [[]] \/ Forall loose_name names.
Proof. intros N. apply in_tree in N as [->|N]; [right; constructor|apply (entry_names opts ks), N]. Qed.

(** an entry at the empty path *)
Lemma empty_root es : subtree t [] = Some (Dir es) -> entry_in H [[]] -> blen (n_block (node_of X [] es)) < two32 ->
  forall name k, fst (fst (walk_next X (walker_new (n_cid (node_of X [] es)) name) (n_block (node_of X [] es)) k)) = Panic.
Proof.
  intros S Em Sm name k.
  assert (P : try_parse (ext_dbg X) (dir_block X es) = Ok (directory_message (dir_links X es)))
    by (exact (block_parses X opts ks t Ht HX A [] es S Sm)).
  assert (NF : forall ie, w_current (walker_new (n_cid (node_of X [] es)) name) = Some ie -> in_file (ie_kind ie) = false) by discriminate.
  change (n_block (node_of X [] es)) with (dir_block X es).
  rewrite (next_not_file X _ _ _ NF _ P). cbn [u_type f_data directory_message].
  destruct (check_directory_supported (directory_message (dir_links X es))) as [f0| | |] eqn:CS; [|discriminate..].
  injection CS as <-. cbn [w_next walker_new]. unfold finish_dir.
  assert (I : exists u, In ([], u) es).
  { destruct (in_tree [[]]) as [_ Q]. specialize (Q (or_intror Em)).
    cbn in S. injection S as ->. cbn in Q.
    destruct (find_name [] es) as [u|] eqn:Fd; [|congruence]. exists u. apply find_in, Fd. }
  assert (PL : forall d, fst (push_links (convert_link X d) (enumerate_rev (f_links (directory_message (dir_links X es)))) (w_pending (walker_new (n_cid (node_of X [] es)) name))) = Panic).
  { intros d. assert (LT : forall i n u, In (n, u) es -> link_target X i (entry_link n (link_of X u)) = Ok (fst (link_of X u))).
    { intros i n u Il. destruct (entry_ok opts ks t Ht A [] es n u S Il) as (_ & _ & _ & W). apply link_target_ok. unfold link_cid. cbn [entry_link l_hash].
      apply (decode_bytes X HX), (link_wf X HX u W). }
    apply push_panic.
    - intros i l Il. unfold enumerate_rev in Il. apply in_rev in Il. apply in_combine_r in Il. cbn [f_links directory_message] in Il.
      unfold dir_links in Il. apply in_map_iff in Il as ([n u] & <- & Il). cbn [fst snd]. unfold convert_link. rewrite (LT i n u Il).
      cbn [bind entry_link l_name]. destruct n as [|x n]; [auto|]. cbn [bind].
      unfold assert. destruct (negb (has_slash (x :: n))); cbn [bind]; [left; eauto|auto].
    - destruct I as (u & I). assert (Il : In (entry_link [] (link_of X u)) (dir_links X es)) by (unfold dir_links; apply in_map_iff; exists ([], u); auto).
      destruct (in_seq_combine _ _ Il 0%nat) as (i & J). exists i, (entry_link [] (link_of X u)). split.
      + unfold enumerate_rev. rewrite <- in_rev. exact J.
      + unfold convert_link. rewrite (LT i [] u I). reflexivity. }
  match goal with |- context [convert_link X ?d] => specialize (PL d) end.
  destruct (push_links _ _ _) as [r pend]. cbn [fst] in PL. subst r. reflexivity.
Qed.

Context (pre base : list bytes).
Context (Pre : Forall loose_name pre) (NoEmpty : pre <> [] \/ ~ entry_in H [[]]).

Lemma below_loose names : subtree t (pre ++ names) <> None -> Forall loose_name (pre ++ names).
Proof.
  intros N. pose proof N as N0. apply tree_names in N as [E|F]; [|exact F]. exfalso. rewrite E in N0.
  apply in_tree in N0 as [N0|N0]; [discriminate|]. destruct NoEmpty as [Np|Ne]; [|exact (Ne N0)].
  destruct pre as [|p pre']; [congruence|]. injection E as -> _. apply Forall_cons_iff in Pre as [[Q _] _]. congruence.
Qed.
(** the paths below [pre] stand for one entry only *)
Lemma below_unique names names2 : subtree t (pre ++ names) <> None -> subtree t names2 <> None ->
  join names2 = join (pre ++ names) -> names2 = pre ++ names.
Proof.
  intros N N2 E. pose proof (below_loose names N) as F. pose proof (tree_names names2 N2) as [->|F2]; [|apply join_loose; assumption].
  exfalso. change (join [[]]) with (join []) in E. apply join_loose in E; [|constructor|exact F]. symmetry in E.
  apply app_eq_nil in E as [E _]. apply in_tree in N2 as [N2|N2]; [discriminate|]. destruct NoEmpty as [Q|Q]; auto.
Qed.

Lemma at_pre node : emitted X b node -> n_path node = join pre ->
  exists es, subtree t pre = Some (Dir es) /\ node = node_of X pre es.
Proof.
  intros E Ep. destruct (emitted_at X opts ks t Ht node E) as (names & es & S & Wr & -> & _). cbn in Ep.
  assert (names = pre) as <-; [|eauto].
  destruct (tree_names names) as [->|F]; [congruence| |apply join_loose; assumption].
  exfalso. change (join [[]]) with (join []) in Ep. apply join_loose in Ep; [|constructor|exact Pre].
  destruct NoEmpty as [Q|Q]; [congruence|]. apply Q. destruct (in_tree [[]]) as [Z _]. destruct Z as [Z|Z]; [congruence|discriminate|exact Z].
Qed.

(** the block of the directory at [pre ++ names] *)
Lemma block_at names es : subtree t (pre ++ names) = Some (Dir es) -> emitted X b (node_of X (pre ++ names) es) ->
  exists blk, get (fst (link_of X (Dir es))) = Some blk
  /\ try_parse (ext_dbg X) blk = Ok (directory_message (dir_links X es))
  /\ forall n u, In (n, u) es -> subtree t (pre ++ names ++ [n]) = Some u /\ loose_name n
       /\ link_cid X (entry_link n (link_of X u)) = Some (fst (link_of X u))
       /\ forall sub, u = Dir sub -> emitted X b (node_of X (pre ++ names ++ [n]) sub).
Proof.
  intros S E. destruct (Store _ E) as [Sm G]. cbn [node_of n_block n_cid] in Sm, G.
  destruct (emitted_at X opts ks t Ht _ E) as (names2 & es2 & S2 & _ & EQ & _ & _ & _ & Subs).
  assert (names2 = pre ++ names).
  { apply (f_equal n_path) in EQ. cbn in EQ. symmetry in EQ. apply below_unique; congruence. }
  subst names2. rewrite S in S2. injection S2 as <-. clear EQ.
  eexists. split; [exact G|]. split; [exact (block_parses X opts ks t Ht HX A (pre ++ names) es S Sm)|].
  intros n u I. destruct (entry_ok opts ks t Ht A (pre ++ names) es n u S I) as (S' & _ & _ & W). rewrite <- app_assoc in S'. split; [exact S'|].
  assert (F : Forall loose_name (pre ++ names ++ [n])) by (apply below_loose; congruence).
  rewrite app_assoc in F. apply Forall_app in F as [_ F]. apply Forall_cons_iff in F as [F _].
  split; [exact F|]. split; [|intros sub ->; rewrite app_assoc; apply Subs, I].
  unfold link_cid. cbn [entry_link l_hash]. apply (decode_bytes X HX), (link_wf X HX u W).
Qed.

Lemma grow_entries es : (forall n u, In (n, u) es -> loose_name n /\ link_cid X (entry_link n (link_of X u)) = Some (fst (link_of X u))
    /\ stored X get (fst (link_of X u)) (grow u)) ->
  stored_entries X get (dir_links X es) (map (fun e => (fst e, fst (link_of X (snd e)), grow (snd e))) es).
Proof.
  induction es as [|[n u] es IH]; intros EN; [constructor|]. cbn [dir_links map]. cbn [fst snd].
  destruct (EN n u (or_introl eq_refl)) as (Pn & C & St).
  apply entries_cons; [reflexivity|exact Pn|exact C|exact St|apply IH; intros; apply EN; right; assumption].
Qed.

Lemma grow_stored u : forall names, subtree t (pre ++ names) = Some u ->
  (forall es, u = Dir es -> emitted X b (node_of X (pre ++ names) es)) ->
  stored X get (fst (link_of X u)) (grow u).
Proof.
  induction u as [c s|es IH] using tree_ind'; intros names S E.
  - cbn. apply (proj1 (proj2 Ht)) in S as (p & I & _). apply (Links p c s I).
  - destruct (block_at names es S (E es eq_refl)) as (blk & G & P & EN).
    cbn [grow]. change (MData None None) with (says (f_data (directory_message (dir_links X es)))).
    eapply stored_dir; [exact G|exact P|repeat split; left; reflexivity|].
    apply grow_entries. intros n u I. destruct (EN n u I) as (S' & PN & C & Em).
    split; [exact PN|]. split; [exact C|].
    apply (IH n u I (names ++ [n])); [exact S'|exact Em].
Qed.

(** the node the walk starts at *)
Lemma root_stored es : subtree t pre = Some (Dir es) -> emitted X b (node_of X pre es) ->
  stored X get (fst (link_of X (Dir es))) (grow (Dir es)).
Proof.
  intros S E. apply (grow_stored (Dir es) []); rewrite app_nil_r; [exact S|]. intros es' Q. injection Q as <-. exact E.
Qed.

Context (Base : Forall loose_name base).

(** what is seen at a path of the subtree [u] at [pre ++ rel] *)
Definition part_at (u : tree) (rel names : list bytes) : list seen :=
  match subtree u names with
  | Some (Leaf c s) => sights false (join (base ++ rel ++ names)) c (what c)
  | Some (Dir es) => [SeenDirectory (fst (link_of X (Dir es))) (join (base ++ rel ++ names)) (MData None None)]
  | None => []
  end.

Lemma part_under es n u rel : sorted_entries es -> In (n, u) es ->
  map (part_at (Dir es) rel) (map (cons n) (down u)) = map (part_at u (rel ++ [n])) (down u).
Proof.
  intros S I. rewrite map_map. apply map_ext. intros q. unfold part_at. cbn [subtree].
  rewrite (find_sorted n es u S I). rewrite <- !app_assoc. reflexivity.
Qed.

Lemma entries_sights es rel : sorted_entries es -> Forall loose_name rel ->
  (forall n u, In (n, u) es -> sights false (join (base ++ rel ++ [n])) (fst (link_of X u)) (grow u)
     = concat (map (part_at u (rel ++ [n])) (down u))) ->
  flat_map (fun e => sights false (child (join (base ++ rel)) (fst (fst e))) (snd (fst e)) (snd e))
    (map (fun e => (fst e, fst (link_of X (snd e)), grow (snd e))) es)
  = concat (map (part_at (Dir es) rel) (flat_map (fun e => map (cons (fst e)) (down (snd e))) es)).
Proof.
  intros Srt F HS.
  assert (G : forall es0, (forall n u, In (n, u) es0 -> In (n, u) es) ->
     flat_map (fun e => sights false (child (join (base ++ rel)) (fst (fst e))) (snd (fst e)) (snd e))
       (map (fun e => (fst e, fst (link_of X (snd e)), grow (snd e))) es0)
     = concat (map (part_at (Dir es) rel) (flat_map (fun e => map (cons (fst e)) (down (snd e))) es0))); [|apply G; auto].
  induction es0 as [|[n u] es0 IH]; intros Sub; [reflexivity|]. cbn [flat_map map fst snd].
  rewrite map_app, concat_app, <- IH by (intros; apply Sub; right; assumption). f_equal.
  rewrite (part_under es n u rel Srt) by (apply Sub; left; reflexivity).
  rewrite <- HS by (apply Sub; left; reflexivity).
  rewrite child_join by (apply Forall_app; auto). rewrite <- app_assoc. reflexivity.
Qed.

Lemma grow_sights u : ordered u -> forall rel, Forall loose_name rel ->
  (forall names, subtree u names <> None -> Forall loose_name names) ->
  sights false (join (base ++ rel)) (fst (link_of X u)) (grow u) = concat (map (part_at u rel) (down u)).
Proof.
  induction u as [c s|es IH] using tree_ind'; intros O rel F PN.
  - cbn [down map concat grow link_of fst]. unfold part_at. cbn [subtree]. rewrite !app_nil_r. reflexivity.
  - cbn [down map concat grow sights]. unfold part_at at 1. cbn [subtree app]. rewrite app_nil_r. f_equal.
    assert (Srt : sorted_entries es) by (apply (O []); reflexivity).
    apply entries_sights; [exact Srt|exact F|]. intros n u I. 
    assert (Q : forall names, subtree u names <> None -> Forall loose_name (n :: names)).
    { intros names Nn. apply PN. cbn. rewrite (find_sorted n es u Srt I). exact Nn. }
    apply (IH n u I); [eapply ordered_entry; eassumption| |].
    + apply Forall_app. split; [exact F|]. apply (Q []). discriminate.
    + intros names Nn. apply Q in Nn. apply Forall_cons_iff in Nn as [_ Nn]. exact Nn.
Qed.

Lemma built_shown es : emitted X b (node_of X pre es) -> subtree t pre = Some (Dir es) ->
  shown_all X b H what pre base (sights true (join base) (fst (link_of X (Dir es))) (grow (Dir es))).
Proof.
  intros E S.
  assert (SA : forall names, subtree t (pre ++ names) = subtree (Dir es) names) by (intros; rewrite subtree_app, S; reflexivity).
  assert (O : ordered (Dir es)) by (intros names es' Q; rewrite <- SA in Q; apply (proj1 Ht _ _ Q)).
  assert (Srt : sorted_entries es) by (apply (O []); reflexivity).
  assert (Em : forall names es', subtree (Dir es) names = Some (Dir es') -> emitted X b (node_of X (pre ++ names) es')).
  { induction names as [|m names IH] using rev_ind; intros es' Q; [injection Q as <-; rewrite app_nil_r; exact E|].
    rewrite subtree_app in Q. destruct (subtree (Dir es) names) as [[|es1]|] eqn:Q1; [discriminate| |discriminate].
    specialize (IH es1 eq_refl). destruct (emitted_at X opts ks t Ht _ IH) as (names2 & es2 & S2 & _ & EQ & _ & _ & _ & Subs).
    assert (names2 = pre ++ names).
    { apply (f_equal n_path) in EQ. cbn in EQ. symmetry in EQ. apply below_unique; [rewrite SA, Q1; discriminate|congruence|exact EQ]. }
    subst names2. rewrite SA, Q1 in S2. injection S2 as <-. cbn in Q. destruct (find_name m es1) as [v|] eqn:Fv; [|discriminate].
    injection Q as ->. rewrite app_assoc. apply Subs, find_in, Fv. }
  exists (down (Dir es)), (map (fun names => match names with
     | [] => [SeenRootDirectory (fst (link_of X (Dir es))) (join base) (MData None None)] | _ => part_at (Dir es) [] names end) (down (Dir es))).
  split; [apply down_sorted, O|]. split; [|split].
  - intros names. rewrite down_in by exact O. rewrite <- SA, in_tree. split.
    + intros [Q|Q]; [|auto]. apply app_eq_nil in Q as [_ ->]. auto.
    + intros [->|Q]; [|auto]. rewrite app_nil_r. apply in_tree. congruence.
  - assert (G : forall l, (forall names, In names l -> subtree (Dir es) names <> None) ->
       Forall2 (shown X b H what pre base) l (map (fun names => match names with
         | [] => [SeenRootDirectory (fst (link_of X (Dir es))) (join base) (MData None None)] | _ => part_at (Dir es) [] names end) l)).
    { induction l as [|names l IH]; intros Hl; cbn [map]; [constructor|]. constructor; [|apply IH; intros; apply Hl; right; assumption].
      specialize (Hl names (or_introl eq_refl)). destruct names as [|n names].
      - change (fst (link_of X (Dir es))) with (n_cid (node_of X pre es)). apply shown_start; [exact E|reflexivity].
      - unfold part_at. cbn [app]. set (q := n :: names) in *. assert (Nq : q <> []) by discriminate. clearbody q.
        destruct (subtree (Dir es) q) as [[c s|es']|] eqn:Q; [| |congruence].
        + apply shown_link with (s := s). apply (proj1 (proj2 Ht)). rewrite SA. exact Q.
        + change (fst (link_of X (Dir es'))) with (n_cid (node_of X (pre ++ q) es')).
          apply shown_dir; [exact Nq| |apply Em, Q|reflexivity].
          assert (D : is_dir t (pre ++ q)) by (exists es'; rewrite SA; exact Q). apply (proj2 (proj2 Ht)) in D as [D|D]; [|exact D].
          apply app_eq_nil in D as [_ D]. congruence. }
    apply G. intros names I. apply down_in in I; [exact I|exact O].
  - cbn [grow sights down map concat app]. f_equal.
    pose proof (entries_sights es [] Srt (Forall_nil _)) as G. rewrite app_nil_r in G. cbn [app] in G. rewrite G.
    + f_equal. apply map_ext_in. intros names I. apply in_flat_map in I as ([m v] & _ & I). apply in_map_iff in I as (q & <- & _). reflexivity.
    + intros n u I. pose proof (grow_sights u (ordered_entry _ _ _ O I) [n]) as Q. apply Q.
      * assert (PP : Forall loose_name (pre ++ [n])). { apply below_loose. rewrite SA. cbn. rewrite (find_sorted n es u Srt I). discriminate. }
        apply Forall_app in PP. apply PP.
      * intros names Nn. assert (PP : Forall loose_name (pre ++ [n] ++ names)).
        { apply below_loose. rewrite SA. cbn. rewrite (find_sorted n es u Srt I). exact Nn. }
        rewrite app_assoc in PP. apply Forall_app in PP. apply PP.
Qed.
End built.
