(** * Builder_iter: the post order iterator against the tree it is built from *)
From Coq Require Import Sorting.Sorted Sorting.Permutation.
From Verif Require Import Base Tac Wire Utf8 Cid Pb Reader Builder SpecBuilder Paths_proofs Codec_proofs Builder_proofs.

(** ** Fuel *)
Definition total_work (vs : list visited) : nat := list_sum (map work vs).

Lemma total_work_cons v l : total_work (v :: l) = (work v + total_work l)%nat.
Proof. reflexivity. Qed.
Lemma total_work_app a b : total_work (a ++ b) = (total_work a + total_work b)%nat.
Proof. unfold total_work. rewrite map_app. apply list_sum_app. Qed.
Lemma total_work_rev a : total_work (rev a) = total_work a.
Proof. induction a as [|x a IH]; [reflexivity|]. cbn [rev]. rewrite total_work_app, IH, !total_work_cons. change (total_work []) with O. lia. Qed.

Definition entries_count (ns : list (bytes * entry dirb)) : nat :=
  list_sum (map (fun e => match snd e with EDir d => dir_count d | ELeaf _ _ => O end) ns).
Lemma entries_count_cons n e ns :
  entries_count ((n, e) :: ns) = (match e with EDir d => dir_count d | ELeaf _ _ => O end + entries_count ns)%nat.
Proof. reflexivity. Qed.
Lemma dir_count_eq d : dir_count d = S (entries_count (d_nodes d)).
Proof. destruct d. reflexivity. Qed.

Lemma partition_work depth ns : forall i, total_work (fst (partition_children depth i ns)) = (2 * entries_count ns)%nat.
Proof.
  induction ns as [|[k v] ns IH]; intros i; [reflexivity|]. cbn [partition_children].
  specialize (IH (S i)). destruct (partition_children depth (S i) ns) as [ch ls]. cbn [fst] in IH. rewrite entries_count_cons.
  destruct v as [c s|d]; cbn [fst].
  - rewrite IH. reflexivity.
  - rewrite total_work_cons, IH. cbn [work]. lia.
Qed.

Lemma nodup_app {A} (a b : list A) : NoDup (a ++ b) -> NoDup a /\ NoDup b /\ forall x, In x a -> ~ In x b.
Proof.
  induction a as [|y a IH]; cbn [app]; intros N; [repeat split; [constructor|exact N|intros x []]|].
  inversion N as [|? ? N1 N2]; subst. destruct (IH N2) as (A1 & A2 & A3). rewrite in_app_iff in N1. split; [|split].
  - constructor; tauto.
  - exact A2.
  - intros x [->|I]; [tauto|apply A3, I].
Qed.

Section iter.
Context (X : ext).

Lemma visit_work it v rest it' :
  visit_one X it v rest = Again it' -> S (total_work (p_pending it')) = total_work (v :: rest).
Proof.
  unfold visit_one. destruct v as [d|d name depth index|pid depth name index ls|ls].
  - destruct (update_full_path _ _ _ _ _) as [[path old]|e| |]; try discriminate.
    pose proof (partition_work 0 (d_nodes d) 0) as W. destruct (partition_children 0 0 (d_nodes d)) as [ch l].
    destruct (stash_leaves _ _ _ _) as [sto st]. intros E. injection E as <-. cbn [p_pending fst] in *.
    rewrite total_work_app, total_work_rev, W. rewrite !total_work_cons. cbn [work]. rewrite dir_count_eq. lia.
  - destruct (update_full_path _ _ _ _ _) as [[path old]|e| |]; try discriminate.
    pose proof (partition_work depth (d_nodes d) 0) as W. destruct (partition_children depth 0 (d_nodes d)) as [ch l].
    destruct (d_parent d); [|discriminate].
    destruct (stash_leaves _ _ _ _) as [sto st]. intros E. injection E as <-. cbn [p_pending fst] in *.
    rewrite total_work_app, total_work_rev, W. rewrite !total_work_cons. cbn [work]. rewrite dir_count_eq. lia.
  - destruct (update_full_path _ _ _ _ _) as [[path old]|e| |]; try discriminate.
    destruct (into_inner _ _) as [[l st]|e| |]; try discriminate. unfold finish_directory.
    destruct (render_directory _ _ _ _) as [[[c t]|e| |] b]; try discriminate. destruct (tell_parent _ _ _ _); discriminate.
  - destruct (update_full_path _ _ _ _ _) as [[path old]|e| |]; try discriminate.
    destruct (into_inner _ _) as [[l st]|e| |]; try discriminate. destruct (wrap_with_directory _); [|discriminate].
    unfold finish_directory. destruct (render_directory _ _ _ _) as [[[c t]|e| |] b]; discriminate.
Qed.

Lemma next_nil it : p_pending it = [] -> next X it = (Ok None, it).
Proof. intros E. unfold next. rewrite E. cbn. rewrite E. reflexivity. Qed.
Lemma work_pos v : (1 <= work v)%nat.
Proof. destruct v; cbn [work]; try lia; rewrite dir_count_eq; lia. Qed.
Lemma next_cons it v rest : p_pending it = v :: rest ->
  next X it = match visit_one X it v rest with Again it => next X it | Return r it => (r, it) end.
Proof.
  intros E. unfold next. change (list_sum (map work ?l)) with (total_work l).
  assert (W : exists n, total_work (p_pending it) = S n).
  { rewrite E, total_work_cons. pose proof (work_pos v). exists (work v + total_work rest - 1)%nat. lia. }
  destruct W as (n & W). rewrite W. cbn [next_loop]. rewrite E.
  destruct (visit_one X it v rest) as [it'|r it'] eqn:V; [|reflexivity].
  apply visit_work in V. rewrite <- E, W in V. injection V as V. rewrite <- V. reflexivity.
Qed.

(** ** Runs: the results of whole stretches of the iteration; [None]: panicked *)
Inductive runs : post_order -> list (outcome construct_error (option tree_node)) -> option post_order -> Prop :=
| runs_nil : forall it, runs it [] (Some it)
| runs_again : forall it v rest it' rs o,
    p_pending it = v :: rest -> visit_one X it v rest = Again it' -> runs it' rs o -> runs it rs o
| runs_return : forall it v rest r it' rs o,
    p_pending it = v :: rest -> visit_one X it v rest = Return r it' -> r <> Panic -> runs it' rs o -> runs it (r :: rs) o
| runs_panic : forall it v rest it' rs,
    p_pending it = v :: rest -> visit_one X it v rest = Return Panic it' -> runs it (Panic :: rs) None.

Lemma runs_app it a it' b o : runs it a (Some it') -> runs it' b o -> runs it (a ++ b) o.
Proof.
  remember (Some it') as s eqn:E. intros R. revert E. induction R; intros E R2; try discriminate.
  - injection E as ->. exact R2.
  - eapply runs_again; eauto.
  - cbn [app]. eapply runs_return; eauto.
Qed.
Lemma runs_app_panic it a b : runs it a None -> runs it (a ++ b) None.
Proof.
  remember None as s eqn:E. intros R. revert E. induction R; intros E; try discriminate.
  - eapply runs_again; eauto.
  - cbn [app]. eapply runs_return; eauto.
  - cbn [app]. eapply runs_panic; eauto.
Qed.

Lemma results_cons n it r it' : next X it = (r, it') -> r <> Panic -> results X (S n) it = r :: results X n it'.
Proof. intros E N. cbn. rewrite E. destruct r; congruence. Qed.
Lemma results_next n it it2 : next X it = next X it2 -> results X n it = results X n it2.
Proof. intros E. destruct n; [reflexivity|]. cbn. rewrite E. reflexivity. Qed.

Lemma results_end n it : p_pending it = [] -> results X n it = repeat (Ok None) n.
Proof.
  intros E. induction n as [|n IH]; [reflexivity|]. cbn [repeat]. erewrite results_cons; [|apply next_nil, E|discriminate]. rewrite IH. reflexivity.
Qed.

Lemma results_runs it rs o :
  runs it rs o -> (forall it', o = Some it' -> p_pending it' = []) ->
  forall n, results X n it = firstn n (until_panic (rs ++ repeat (Ok None) n)).
Proof.
  induction 1 as [it|it v rest it' rs o E V R IH|it v rest r it' rs o E V NP R IH|it v rest it' rs E V]; intros Fin n.
  - cbn [app]. rewrite results_end by auto.
    assert (U : until_panic (repeat (@Ok construct_error (option tree_node) None) n) = repeat (Ok None) n).
    { clear. induction n; [reflexivity|]. cbn. rewrite IHn. reflexivity. }
    rewrite U. rewrite firstn_all2 by (rewrite repeat_length; lia). reflexivity.
  - rewrite <- IH by exact Fin. apply results_next. rewrite (next_cons it v rest E), V. reflexivity.
  - assert (Nx : next X it = (r, it')) by (rewrite (next_cons it v rest E), V; reflexivity).
    destruct n as [|n]; [reflexivity|]. rewrite (results_cons n it r it' Nx NP), (IH Fin).
    assert (U : until_panic ((r :: rs) ++ repeat (Ok None) (S n)) = r :: until_panic (rs ++ repeat (Ok None) (S n))).
    { destruct r; cbn; congruence. }
    rewrite U. cbn [firstn]. f_equal.
    replace (S n) with (n + 1)%nat by lia. rewrite repeat_app, app_assoc.
    set (l := rs ++ repeat (Ok None) n). assert (L : (n <= length l)%nat) by (unfold l; rewrite app_length, repeat_length; lia).
    clearbody l. clear -L. revert n L. induction l as [|x l IH]; intros n L; [cbn in L; replace n with O by lia; reflexivity|].
    destruct n as [|n]; [reflexivity|]. cbn in L. destruct x; cbn; f_equal; apply IH; lia.
  - destruct n as [|n]; [reflexivity|]. cbn [results]. rewrite (next_cons it v rest E), V. cbn. destruct n; reflexivity.
Qed.

(** ** Paths *)
Definition compat (ps : list bytes) (path : bytes) (old : nat) : Prop :=
  exists ext, path = join (ps ++ ext) /\ old = length (ps ++ ext) /\ Forall slash_free ext.

Lemma compat_parent ps n path old : slash_free n -> compat (ps ++ [n]) path old -> compat ps path old.
Proof.
  intros F (ext & -> & -> & H). exists (n :: ext). rewrite <- app_assoc. cbn [app]. repeat split. constructor; assumption.
Qed.
Lemma compat_here ps : compat ps (join ps) (length ps).
Proof. exists []. rewrite app_nil_r. repeat split. constructor. Qed.

Lemma pop_ok {E} ps name ext : ps <> [] -> Forall slash_free ext ->
  @pop_segments E (join (ps ++ ext)) (length (ps ++ ext)) (Some name) (S (length ps))
  = Ok (join (ps ++ [name]), S (length ps), true)
  \/ @pop_segments E (join (ps ++ ext)) (length (ps ++ ext)) (Some name) (S (length ps))
  = Ok (join ps, length ps, false).
Proof.
  intros NE. induction ext as [|x ext IH] using rev_ind; intros F.
  - right. rewrite app_nil_r. destruct ps as [|p ps]; [congruence|]. cbn [length pop_segments].
    destruct (Nat.leb_spec (S (S (length ps))) (S (length ps))); [lia|]. reflexivity.
  - apply Forall_app in F as [F Fx]. apply Forall_cons_iff in Fx as [Fx _].
    assert (L : length (ps ++ ext ++ [x]) = S (length (ps ++ ext))) by (rewrite !app_length; cbn; lia).
    rewrite L. cbn [pop_segments].
    destruct (Nat.leb_spec (S (length ps)) (S (length (ps ++ ext)))) as [_|H]; [|rewrite app_length in H; lia].
    rewrite app_assoc, rsplit_join; [|intros E0; apply app_eq_nil in E0; tauto|exact Fx].
    destruct (Nat.eqb_spec (S (length (ps ++ ext))) (S (length ps))) as [Eq|Ne]; cbn [andb]; [|apply IH, F].
    unfold option_bytes_eqb. destruct (bytes_eqb x name) eqn:Eb; [|apply IH, F].
    apply bytes_eqb_eq in Eb. subst x. left. rewrite Eq.
    assert (ext = []) as -> by (rewrite app_length in Eq; destruct ext; [reflexivity|cbn in Eq; lia]).
    rewrite app_nil_r. reflexivity.
Qed.

Lemma update_ok {E} dbg ps name path old :
  compat ps path old -> (ps <> [] -> join ps <> []) ->
  @update_full_path E dbg path old (Some name) (S (length ps)) = Ok (join (ps ++ [name]), S (length ps)).
Proof.
  intros (ext & -> & -> & F) J. unfold update_full_path. destruct ps as [|p ps].
  - cbn [length]. cbn. unfold dassert. destruct dbg; reflexivity.
  - destruct (Nat.ltb_spec (S (length (p :: ps))) 2) as [H|_]; [cbn in H; lia|].
    assert (NE : p :: ps <> []) by discriminate. specialize (J NE).
    destruct (@pop_ok E (p :: ps) name ext NE F) as [P|P]; rewrite P; cbn [bind]; [reflexivity|].
    assert (D : @dassert E dbg (length (p :: ps) <=? S (length (p :: ps)))%nat = Ok tt).
    { unfold dassert, assert. destruct (Nat.leb_spec (length (p :: ps)) (S (length (p :: ps)))); [destruct dbg; reflexivity|lia]. }
    rewrite D. cbn [bind]. rewrite Nat.eqb_refl. cbn [assert bind].
    rewrite join_app by discriminate. destruct (join (p :: ps)); [congruence|]. rewrite <- app_assoc. reflexivity.
Qed.

(** ** Rendering *)
Definition slot_leaf (n : bytes) (t : tree) : named_leaf := (n, fst (link_of X t), snd (link_of X t)).
Definition slot (limit : option N) (e : bytes * tree) : option named_leaf :=
  if too_large X limit (snd e) then None else Some (slot_leaf (fst e) (snd e)).

Lemma mapped_slots {E} limit es :
  @custom_mapped E (map (slot limit) es)
  = if existsb (fun e => too_large X limit (snd e)) es then Panic else Ok (map (fun e => slot_leaf (fst e) (snd e)) es).
Proof.
  induction es as [|e es IH]; [reflexivity|]. cbn [map custom_mapped existsb]. unfold slot at 1.
  destruct (too_large X limit (snd e)); [reflexivity|]. cbn [custom_mapped orb]. rewrite IH.
  destruct (existsb _ es); reflexivity.
Qed.

Lemma slots_block es :
  custom_write (map (fun e => slot_leaf (fst e) (snd e)) es) directory_data = dir_block X es.
Proof.
  rewrite custom_write_flat. unfold dir_block, directory_message, dir_links. rewrite map_map. reflexivity.
Qed.

Lemma sum64_spec {E} dbg l : forall acc, acc < two64 ->
  @sum64 E dbg acc l = if dbg && (two64 <=? acc + sumN l) then Panic else Ok ((acc + sumN l) mod two64).
Proof.
  assert (P : two64 <> 0) by discriminate.
  induction l as [|x l IH]; intros acc A; cbn [sum64].
  - cbn [sumN fold_right]. rewrite N.add_0_r. destruct (N.leb_spec two64 acc); [lia|]. rewrite andb_false_r.
    rewrite N.mod_small by exact A. reflexivity.
  - rewrite sumN_cons. unfold add64. destruct (N.ltb_spec (acc + x) two64).
    + cbn [bind]. rewrite IH by assumption. rewrite N.add_assoc. reflexivity.
    + destruct dbg; cbn [bind andb].
      * destruct (N.leb_spec two64 (acc + (x + sumN l))); [reflexivity|lia].
      * rewrite IH by (apply N.mod_lt; exact P). cbn [andb].
        rewrite N.add_mod_idemp_l by exact P. rewrite N.add_assoc. reflexivity.
Qed.

Lemma add64_spec {E} dbg a b : @add64 E dbg a b = if dbg && (two64 <=? a + b) then Panic else Ok ((a + b) mod two64).
Proof.
  unfold add64. destruct (N.ltb_spec (a + b) two64).
  - destruct (N.leb_spec two64 (a + b)); [lia|]. rewrite andb_false_r, N.mod_small by assumption. reflexivity.
  - destruct (N.leb_spec two64 (a + b)); [|lia]. rewrite andb_true_r. destruct dbg; reflexivity.
Qed.

Lemma render_slots limit es buffer :
  exists buffer',
  render_directory X (map (slot limit) es) buffer limit
  = (match rendered X limit [] es with
     | Ok _ => Ok (link_of X (Dir es))
     | Err e => Err e
     | Panic => Panic
     | Diverge => Diverge
     end, buffer')
  /\ (forall r, rendered X limit [] es = Ok r -> buffer' = dir_block X es).
Proof.
  unfold render_directory, rendered. rewrite mapped_slots.
  destruct (existsb (fun e => too_large X limit (snd e)) es); [eexists; split; [reflexivity|discriminate]|].
  rewrite custom_size_ok, slots_block. unfold too_large. set (b := dir_block X es).
  destruct (match limit with Some l => l <? blen b | None => false end); [eexists; split; [reflexivity|discriminate]|].
  set (buf := buffer ++ repeat x00 (N.to_nat (blen b - blen buffer))).
  assert (L : blen b <= blen buf).
  { unfold buf. rewrite blen_app. unfold blen at 3. rewrite repeat_length, N2Nat.id. lia. }
  destruct (N.ltb_spec (blen buf) (blen b)); [lia|].
  replace (firstn (N.to_nat (blen b)) (b ++ skipn (length b) buf)) with b.
  2:{ unfold blen. rewrite Nat2N.id, firstn_app, firstn_all, Nat.sub_diag. cbn [firstn]. rewrite app_nil_r. reflexivity. }
  rewrite map_map. cbn [slot_leaf snd].
  rewrite (sum64_spec (ext_dbg X) _ 0) by reflexivity. rewrite N.add_0_l.
  set (s := sumN (map (fun e => snd (link_of X (snd e))) es)).
  assert (T : dir_total X es = blen b + s) by reflexivity.
  assert (P : two64 <> 0) by discriminate.
  exists b. split; [|reflexivity]. f_equal. rewrite T.
  destruct (ext_dbg X) eqn:Dbg; cbn [andb].
  - destruct (N.leb_spec two64 s).
    + cbn [bind]. destruct (N.leb_spec two64 (blen b + s)); [reflexivity|lia].
    + cbn [bind]. rewrite N.mod_small by assumption. rewrite add64_spec. cbn [andb].
      destruct (two64 <=? blen b + s); reflexivity.
  - cbn [bind]. rewrite add64_spec. cbn [andb bind]. rewrite N.add_mod_idemp_r by exact P. reflexivity.
Qed.
(** ** The results below a directory, last entry first *)
Fixpoint rlist (limit : option N) (ps : list bytes) (t : tree) : list (outcome construct_error (option tree_node)) :=
  match t with
  | Leaf _ _ => []
  | Dir es => concat (rev (map (fun e => rlist limit (ps ++ [fst e]) (snd e)) es)) ++ [rendered X limit ps es]
  end.

Definition kids (depth i : nat) (ns : list (bytes * entry dirb)) : list visited := fst (partition_children depth i ns).
Definition init (ns : list (bytes * entry dirb)) : leaves :=
  map (fun e => match snd e with EDir _ => None | ELeaf c s => Some (fst e, c, s) end) ns.

Lemma partition_eq depth ns : forall i, partition_children depth i ns = (kids depth i ns, init ns).
Proof.
  induction ns as [|[k v] ns IH]; intros i; [reflexivity|]. unfold kids. cbn [partition_children]. rewrite IH.
  destruct v; reflexivity.
Qed.
Lemma kids_cons depth i k v ns :
  kids depth i ((k, v) :: ns) = (match v with EDir d => [Descent d k (S depth) i] | ELeaf _ _ => [] end) ++ kids depth (S i) ns.
Proof. unfold kids at 1. cbn [partition_children]. rewrite partition_eq. destruct v; reflexivity. Qed.
Lemma kids_app depth a b : forall i, kids depth i (a ++ b) = kids depth i a ++ kids depth (i + length a) b.
Proof.
  induction a as [|[k v] a IH]; intros i; [cbn [app length]; rewrite Nat.add_0_r; reflexivity|].
  cbn [app length]. rewrite !kids_cons, IH, <- app_assoc. replace (S i + length a)%nat with (i + S (length a))%nat by lia. reflexivity.
Qed.

Lemma stash_get_remove id id' st : stash_get id' (stash_remove id st) = if id' =? id then None else stash_get id' st.
Proof.
  induction st as [|[k v] st IH]; cbn [stash_remove filter stash_get fst].
  - destruct (id' =? id); reflexivity.
  - fold (stash_remove id st). destruct (N.eqb_spec k id) as [->|N]; cbn [negb stash_get].
    + rewrite IH. destruct (N.eqb_spec id' id) as [->|N']; [reflexivity|].
      destruct (N.eqb_spec id id'); [congruence|reflexivity].
    + rewrite IH. destruct (N.eqb_spec k id') as [->|N']; [|reflexivity].
      destruct (N.eqb_spec id' id); [congruence|reflexivity].
Qed.
Lemma stash_get_insert id id' v st : stash_get id' (stash_insert id v st) = if id' =? id then Some v else stash_get id' st.
Proof.
  unfold stash_insert. cbn [stash_get]. rewrite stash_get_remove. rewrite (N.eqb_sym id id'). destruct (id' =? id); reflexivity.
Qed.
Lemma fill_ok {E} (pre post : leaves) l : @fill_slot E (pre ++ None :: post) (length pre) l = Ok (pre ++ Some l :: post).
Proof. induction pre as [|x pre IH]; [reflexivity|]. cbn. rewrite IH. destruct x; reflexivity. Qed.

(** what processing the entry of one directory does *)
Definition descent_ok (d : dirb) : Prop :=
  forall ps name rest path old buf st c ts opts pid pre post,
  good d -> d_parent d = Some pid -> NoDup (pid :: ids d) -> compat ps path old -> (ps <> [] -> join ps <> []) ->
  slash_free name -> (join (ps ++ [name]) <> [] \/ d_nodes d = []) ->
  stash_get pid st = Some (pre ++ None :: post) ->
  exists o,
    runs (PostOrder path old buf (Descent d name (S (length ps)) (length pre) :: rest) st c ts opts)
         (rlist (block_size_limit opts) (ps ++ [name]) (erase d)) o
    /\ match o with
       | None => True
       | Some it =>
         p_pending it = rest /\ compat ps (p_full_path it) (p_old_depth it) /\ p_opts it = opts
         /\ stash_get pid (p_persisted it) = Some (pre ++ slot (block_size_limit opts) (name, erase d) :: post)
         /\ (forall id, id <> pid -> ~ In id (ids d) -> stash_get id (p_persisted it) = stash_get id st)
       end.

Definition entry_tree (e : bytes * entry dirb) : bytes * tree := (fst e, erase_entry (snd e)).

Lemma kids_ok ps id ns :
  (forall n d, In (n, EDir d) ns -> descent_ok d /\ good d /\ d_parent d = Some id /\ slash_free n
                                    /\ (join (ps ++ [n]) <> [] \/ d_nodes d = [])) ->
  NoDup (id :: flat_map entry_ids ns) -> (ps <> [] -> join ps <> []) ->
  forall fin rest path old buf st c ts opts,
  compat ps path old -> stash_get id st = Some (init ns ++ fin) ->
  exists o,
    runs (PostOrder path old buf (rev (kids (length ps) 0 ns) ++ rest) st c ts opts)
         (concat (rev (map (fun e => rlist (block_size_limit opts) (ps ++ [fst e]) (snd e)) (map entry_tree ns)))) o
    /\ match o with
       | None => True
       | Some it =>
         p_pending it = rest /\ compat ps (p_full_path it) (p_old_depth it) /\ p_opts it = opts
         /\ stash_get id (p_persisted it) = Some (map (slot (block_size_limit opts)) (map entry_tree ns) ++ fin)
         /\ (forall id', id' <> id -> ~ In id' (flat_map entry_ids ns) -> stash_get id' (p_persisted it) = stash_get id' st)
       end.
Proof.
  induction ns as [|[n e] ns IH] using rev_ind; intros Hd ND J fin rest path old buf st c ts opts C HS.
  - exists (Some (PostOrder path old buf rest st c ts opts)). split; [apply runs_nil|]. cbn. auto.
  - assert (Hd' : forall n d, In (n, EDir d) ns -> descent_ok d /\ good d /\ d_parent d = Some id /\ slash_free n
                                    /\ (join (ps ++ [n]) <> [] \/ d_nodes d = [])).
    { intros m d I. apply Hd. apply in_or_app. left. exact I. }
    rewrite flat_map_app in ND. cbn [flat_map] in ND. rewrite app_nil_r in ND.
    assert (ND' : NoDup (id :: flat_map entry_ids ns)) by (apply (nodup_app (id :: flat_map entry_ids ns) _ ND)).
    rewrite !map_app, rev_app_distr. cbn [map rev app entry_tree fst snd]. rewrite concat_cons.
    unfold init in HS. rewrite map_app in HS. cbn [map snd fst] in HS. fold (init ns) in HS. rewrite <- app_assoc in HS. cbn [app] in HS.
    rewrite kids_app, kids_cons. cbn [Nat.add]. change (kids (length ps) (S (length ns)) []) with (@nil visited).
    rewrite app_nil_r, rev_app_distr.
    destruct e as [lc ls|d]; cbn [erase_entry rlist rev app].
    + destruct (IH Hd' ND' J _ rest path old buf st c ts opts C HS) as (o & R & P). exists o. split; [exact R|].
      destruct o as [it|]; [|exact I]. destruct P as (P1 & P2 & P3 & P4 & P5). repeat split; try assumption.
      * rewrite P4, <- app_assoc. reflexivity.
      * intros id' N1 N2. apply P5; [exact N1|]. intros I. apply N2. rewrite flat_map_app. apply in_or_app. left. exact I.
    + destruct (Hd n d (in_elt _ _ _)) as (HD & G & Pa & SF & NE). cbn [entry_ids snd] in ND.
      assert (NDd : NoDup (id :: ids d)).
      { inversion ND as [|? ? N1 N2]; subst. constructor; [|apply (nodup_app _ _ N2)].
        intros I. apply N1. apply in_or_app. right. exact I. }
      assert (LI : length (init ns) = length ns) by (unfold init; apply map_length).
      rewrite <- LI.
      destruct (HD ps n (rev (kids (length ps) 0 ns) ++ rest) path old buf st c ts opts id (init ns) fin G Pa NDd C J SF NE HS)
        as (o & R & P).
      destruct o as [it|]; [|exists None; split; [apply runs_app_panic, R|exact I]].
      destruct P as (P1 & P2 & P3 & P4 & P5). destruct it as [path1 old1 buf1 pend1 st1 c1 ts1 opts1].
      cbn [p_pending p_full_path p_old_depth p_opts p_persisted] in *. subst pend1 opts1.
      destruct (IH Hd' ND' J _ rest path1 old1 buf1 st1 c1 ts1 opts P2 P4) as (o & R2 & Q).
      exists o. split; [eapply runs_app; eassumption|].
      destruct o as [it|]; [|exact I]. destruct Q as (Q1 & Q2 & Q3 & Q4 & Q5). repeat split; try assumption.
      * rewrite Q4, <- app_assoc. reflexivity.
      * intros id' N1 N2. rewrite flat_map_app in N2. cbn [flat_map entry_ids snd] in N2. rewrite app_nil_r in N2.
        rewrite Q5; [apply P5|..]; try exact N1; intros I; apply N2; apply in_or_app; auto.
Qed.

Lemma no_kids depth ns limit ps : forall i, kids depth i ns = [] ->
  map (slot limit) (map entry_tree ns) = init ns
  /\ concat (rev (map (fun e => rlist limit (ps ++ [fst e]) (snd e)) (map entry_tree ns))) = [].
Proof.
  induction ns as [|[k v] ns IH]; intros i; [split; reflexivity|]. rewrite kids_cons.
  destruct v as [c s|d]; [|discriminate]. cbn [app]. intros E. destruct (IH _ E) as [A B].
  cbn [map rev]. rewrite A. split; [reflexivity|]. rewrite concat_app, B. reflexivity.
Qed.

Lemma join_snoc ps n : ps <> [] -> join (ps ++ [n]) <> [].
Proof. intros NE. rewrite join_app by (assumption || discriminate). destruct (join ps); discriminate. Qed.

Lemma kids_done ps d rest path old buf st c ts opts storage st1 :
  good d -> (forall n d', In (n, EDir d') (d_nodes d) -> descent_ok d') -> NoDup (ids d) -> compat ps path old ->
  (d_nodes d = [] \/ (ps <> [] -> join ps <> [])) ->
  stash_leaves (kids (length ps) 0 (d_nodes d)) (d_id d) (init (d_nodes d)) st = (storage, st1) ->
  let es := map entry_tree (d_nodes d) in
  exists o,
    runs (PostOrder path old buf (rev (kids (length ps) 0 (d_nodes d)) ++ rest) st1 c ts opts)
         (concat (rev (map (fun e => rlist (block_size_limit opts) (ps ++ [fst e]) (snd e)) es))) o
    /\ match o with
       | None => True
       | Some it =>
         p_pending it = rest /\ compat ps (p_full_path it) (p_old_depth it) /\ p_opts it = opts
         /\ exists st2, (forall E, @into_inner E storage (p_persisted it) = Ok (map (slot (block_size_limit opts)) es, st2))
              /\ (forall id, ~ In id (ids d) -> stash_get id st2 = stash_get id st)
       end.
Proof.
  intros G HD ND C J SL es. subst es. destruct (kids (length ps) 0 (d_nodes d)) as [|v vs] eqn:K.
  - cbn [stash_leaves] in SL. injection SL as <- <-. destruct (no_kids _ _ (block_size_limit opts) ps _ K) as [A B].
    exists (Some (PostOrder path old buf rest st c ts opts)). rewrite B. split; [apply runs_nil|].
    cbn [p_pending p_full_path p_old_depth p_opts p_persisted]. repeat split; [exact C|].
    exists st. split; [intros E; cbn [into_inner]; rewrite A; reflexivity|reflexivity].
  - assert (J' : ps <> [] -> join ps <> []).
    { destruct J as [J|J]; [rewrite J in K; discriminate|exact J]. }
    cbn [stash_leaves] in SL. injection SL as <- <-. rewrite <- K.
    rewrite ids_eq in ND. destruct G as [ns md p i S SF Pa Em Gd]. cbn [d_nodes d_id] in *.
    destruct (kids_ok ps i ns) with (fin := @nil (option named_leaf)) (rest := rest) (path := path) (old := old) (buf := buf)
      (st := stash_insert i (init ns) st) (c := c) (ts := ts) (opts := opts) as (o & R & P).
    + intros n d' I. split; [eapply HD, I|]. split; [eapply Gd, I|]. split; [eapply Pa, I|]. split; [eapply SF, I|].
      destruct ps as [|p0 ps]; [|left; apply join_snoc; discriminate].
      cbn [app join]. destruct n; [right; eapply Em; [exact I|reflexivity]|left; discriminate].
    + exact ND.
    + exact J'.
    + exact C.
    + rewrite stash_get_insert, N.eqb_refl, app_nil_r. reflexivity.
    + exists o. split; [exact R|]. destruct o as [it|]; [|exact I]. destruct P as (P1 & P2 & P3 & P4 & P5).
      repeat split; try assumption. rewrite app_nil_r in P4.
      exists (stash_remove i (p_persisted it)). split; [intros E; cbn [into_inner]; rewrite P4; reflexivity|].
      intros id N. rewrite ids_eq in N. cbn [In d_id d_nodes] in N. rewrite stash_get_remove.
      destruct (N.eqb_spec id i) as [->|Ni]; [tauto|]. rewrite P5 by tauto. rewrite stash_get_insert.
      destruct (N.eqb_spec id i); [congruence|reflexivity].
Qed.

Lemma rendered_cases limit es :
  (forall ps, rendered X limit ps es = Panic)
  \/ (too_large X limit (Dir es) = true /\ exists e, forall ps, rendered X limit ps es = Err e)
  \/ (too_large X limit (Dir es) = false /\ forall ps, rendered X limit ps es = Ok (Some (node_of X ps es))).
Proof.
  unfold rendered. destruct (existsb _ es); [left; reflexivity|]. destruct (too_large X limit (Dir es)).
  - right. left. split; [reflexivity|]. eexists. reflexivity.
  - destruct (ext_dbg X && _); [left; reflexivity|]. right. right. split; reflexivity.
Qed.

Lemma descent_all d : descent_ok d.
Proof.
  induction d as [ns md p i IH] using dirb_ind'.
  intros ps name rest path old buf st c ts opts pid pre post G Pa ND C J SF NE HS.
  set (d := DirB ns md p i) in *.
  assert (ND' : NoDup (ids d)) by (inversion ND; assumption).
  assert (Npid : ~ In pid (ids d)) by (inversion ND; assumption).
  set (limit := block_size_limit opts). set (es := map entry_tree ns).
  assert (Ee : erase d = Dir es) by reflexivity. rewrite Ee. cbn [rlist].
  set (ps' := ps ++ [name]).
  assert (Lp : length ps' = S (length ps)) by (unfold ps'; rewrite app_length; cbn; lia).
  destruct (stash_leaves (kids (length ps') 0 ns) i (init ns) st) as [storage st1] eqn:SL.
  assert (V : visit_one X (PostOrder path old buf (Descent d name (S (length ps)) (length pre) :: rest) st c ts opts)
                (Descent d name (S (length ps)) (length pre)) rest
              = Again (PostOrder (join ps') (S (length ps)) buf
                         (rev (kids (length ps') 0 ns) ++ Post pid (S (length ps)) name (length pre) storage :: rest) st1 c ts opts)).
  { unfold visit_one. cbn [p_full_path p_old_depth p_buffer p_persisted p_cid p_total_size p_opts].
    rewrite (update_ok (ext_dbg X) ps name path old C J). fold ps'.
    rewrite partition_eq, Pa. cbn [d_id d]. change (d_nodes d) with ns. rewrite <- Lp, SL. reflexivity. }
  destruct (kids_done ps' d (Post pid (S (length ps)) name (length pre) storage :: rest) (join ps') (S (length ps)) buf st c ts opts storage st1)
    as (o & R & P).
  - exact G.
  - exact IH.
  - exact ND'.
  - rewrite <- Lp. apply compat_here.
  - destruct NE as [NE|NE]; [right; intros _; exact NE|left; exact NE].
  - exact SL.
  - assert (R0 : runs (PostOrder path old buf (Descent d name (S (length ps)) (length pre) :: rest) st c ts opts)
        (concat (rev (map (fun e => rlist limit (ps' ++ [fst e]) (snd e)) es))) o).
    { eapply runs_again; [reflexivity|exact V|exact R]. }
    clear R V. destruct o as [it|]; [|exists None; split; [apply runs_app_panic, R0|exact I]].
    destruct P as (P1 & P2 & P3 & st2 & P4 & P5). destruct it as [path1 old1 buf1 pend1 st1' c1 ts1 opts1].
    cbn [p_pending p_full_path p_old_depth p_opts p_persisted] in *. subst pend1 opts1.
    assert (C2 : compat ps path1 old1) by (apply (compat_parent ps name); assumption).
    (* the Post *)
    assert (V : visit_one X (PostOrder path1 old1 buf1 (Post pid (S (length ps)) name (length pre) storage :: rest) st1' c1 ts1 opts)
                  (Post pid (S (length ps)) name (length pre) storage) rest
                = finish_directory X (PostOrder (join ps') (S (length ps)) buf1 rest st1' c1 ts1 opts)
                    (map (slot limit) es) st2 (Some (pid, length pre, name))).
    { unfold visit_one. cbn [p_full_path p_old_depth p_buffer p_persisted p_cid p_total_size p_opts].
      rewrite (update_ok (ext_dbg X) ps name path1 old1 C2 J). fold ps'. cbn [p_persisted]. rewrite P4. reflexivity. }
    destruct (render_slots limit es buf1) as (buf2 & Rd & Bf).
    unfold finish_directory in V. cbn [p_full_path p_old_depth p_buffer p_persisted p_cid p_total_size p_opts p_pending] in V.
    change (block_size_limit opts) with limit in V. rewrite Rd in V.
    assert (C3 : compat ps (join ps') (S (length ps))).
    { apply (compat_parent ps name); [exact SF|]. rewrite <- Lp. apply compat_here. }
    destruct (rendered_cases limit es) as [Hr|[[Tl (e & Hr)]|[Tl Hr]]]; rewrite Hr in V.
    + exists None. split; [|exact I]. eapply runs_app; [exact R0|]. rewrite Hr. eapply runs_panic; [reflexivity|exact V].
    + eexists (Some _). split.
      * eapply runs_app; [exact R0|]. rewrite Hr. eapply runs_return; [reflexivity|exact V|discriminate|apply runs_nil].
      * cbn [p_pending p_full_path p_old_depth p_opts p_persisted]. repeat split; [exact C3| |].
        -- rewrite P5, HS by exact Npid. unfold slot. cbn [snd]. rewrite Tl. reflexivity.
        -- intros id N1 N2. apply P5, N2.
    + assert (Lk : link_of X (Dir es) = (fst (link_of X (Dir es)), snd (link_of X (Dir es)))) by (destruct (link_of X (Dir es)); reflexivity).
      rewrite Lk in V. unfold tell_parent in V. rewrite (P5 pid Npid), HS, fill_ok in V. cbn [bind] in V.
      eexists (Some _). split.
      * eapply runs_app; [exact R0|]. rewrite Hr. rewrite (Bf _ (Hr [])) in V.
        eapply runs_return; [reflexivity|exact V|discriminate|apply runs_nil].
      * cbn [p_pending p_full_path p_old_depth p_opts p_persisted]. repeat split; [exact C3| |].
        -- rewrite stash_get_insert, N.eqb_refl. unfold slot. cbn [snd fst]. rewrite Tl. reflexivity.
        -- intros id N1 N2. rewrite stash_get_insert. destruct (N.eqb_spec id pid); [congruence|]. apply P5, N2.
Qed.

(** ** The whole iteration *)
Definition whole (opts : tree_options) (t : tree) : list (outcome construct_error (option tree_node)) :=
  match t with
  | Leaf _ _ => []
  | Dir es =>
    concat (rev (map (fun e => rlist (block_size_limit opts) [fst e] (snd e)) es))
    ++ (if wrap_with_directory opts then [rendered X (block_size_limit opts) [] es] else [])
  end.

Lemma update_root {E} dbg path old : @update_full_path E dbg path old None 0 = Ok ([], O).
Proof. unfold update_full_path. cbn. unfold dassert. destruct dbg; reflexivity. Qed.

Lemma root_runs d opts : good d -> NoDup (ids d) ->
  exists o, runs (post_order_new d opts) (whole opts (erase d) ++ if wrap_with_directory opts then [] else [Ok None]) o
    /\ forall it, o = Some it -> p_pending it = [].
Proof.
  intros G ND. set (limit := block_size_limit opts). set (es := map entry_tree (d_nodes d)).
  assert (Ee : erase d = Dir es) by (rewrite erase_eq; reflexivity). rewrite Ee. unfold whole. fold limit.
  destruct (stash_leaves (kids 0 0 (d_nodes d)) (d_id d) (init (d_nodes d)) []) as [storage st1] eqn:SL.
  assert (V : visit_one X (post_order_new d opts) (DescentRoot d) []
              = Again (PostOrder [] 0 [] (rev (kids 0 0 (d_nodes d)) ++ [PostRoot storage]) st1 None 0 opts)).
  { unfold visit_one, post_order_new. cbn [p_full_path p_old_depth p_buffer p_persisted p_cid p_total_size p_opts].
    rewrite update_root, partition_eq, SL. reflexivity. }
  destruct (kids_done [] d [PostRoot storage] [] 0 [] [] None 0 opts storage st1 G (fun _ d' _ => descent_all d') ND)
    as (o & R & P).
  - apply (compat_here []).
  - right. congruence.
  - exact SL.
  - assert (R0 : runs (post_order_new d opts) (concat (rev (map (fun e => rlist limit [fst e] (snd e)) es))) o).
    { eapply runs_again; [reflexivity|exact V|exact R]. }
    clear R V. destruct o as [it|].
    2:{ exists None. split; [|discriminate]. rewrite <- app_assoc. apply runs_app_panic, R0. }
    destruct P as (P1 & P2 & P3 & st2 & P4 & P5). destruct it as [path1 old1 buf1 pend1 st1' c1 ts1 opts1].
    cbn [p_pending p_full_path p_old_depth p_opts p_persisted] in *. subst pend1 opts1.
    assert (V : visit_one X (PostOrder path1 old1 buf1 [PostRoot storage] st1' c1 ts1 opts) (PostRoot storage) []
                = if wrap_with_directory opts
                  then finish_directory X (PostOrder [] 0 buf1 [] st1' c1 ts1 opts) (map (slot limit) es) st2 None
                  else Return (Ok None) (PostOrder [] 0 buf1 [] st2 c1 ts1 opts)).
    { unfold visit_one. cbn [p_full_path p_old_depth p_buffer p_persisted p_cid p_total_size p_opts].
      rewrite update_root. cbn [p_persisted]. rewrite P4. reflexivity. }
    rewrite <- app_assoc.
    destruct (wrap_with_directory opts) eqn:W.
    + rewrite app_nil_r.
      destruct (render_slots limit es buf1) as (buf2 & Rd & Bf).
      unfold finish_directory in V. cbn [p_full_path p_old_depth p_buffer p_persisted p_cid p_total_size p_opts p_pending] in V.
      change (block_size_limit opts) with limit in V. rewrite Rd in V.
      destruct (rendered_cases limit es) as [Hr|[[Tl (e & Hr)]|[Tl Hr]]]; rewrite Hr in V.
      * exists None. split; [|discriminate]. eapply runs_app; [exact R0|]. rewrite Hr. eapply runs_panic; [reflexivity|exact V].
      * eexists (Some _). split.
        -- eapply runs_app; [exact R0|]. rewrite Hr. eapply runs_return; [reflexivity|exact V|discriminate|apply runs_nil].
        -- intros it E. injection E as <-. reflexivity.
      * assert (Lk : link_of X (Dir es) = (fst (link_of X (Dir es)), snd (link_of X (Dir es)))) by (destruct (link_of X (Dir es)); reflexivity).
        rewrite Lk in V. eexists (Some _). split.
        -- eapply runs_app; [exact R0|]. rewrite Hr. rewrite (Bf _ (Hr [])) in V.
           eapply runs_return; [reflexivity|exact V|discriminate|apply runs_nil].
        -- intros it E. injection E as <-. reflexivity.
    + eexists (Some _). split.
      * eapply runs_app; [exact R0|]. eapply runs_return; [reflexivity|exact V|discriminate|apply runs_nil].
      * intros it E. injection E as <-. reflexivity.
Qed.

End iter.
