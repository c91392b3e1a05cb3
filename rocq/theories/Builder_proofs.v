(** * Builder_proofs: the calls of the tree builder against their history *)
From Coq Require Import Sorting.Sorted Sorting.Permutation.
From Verif Require Import Base Tac Wire Utf8 Cid Pb Reader Builder SpecBuilder Paths_proofs.

(** ** Induction *)
Lemma dirb_ind' (P : dirb -> Prop)
  (H : forall ns md p i, (forall n d, In (n, EDir d) ns -> P d) -> P (DirB ns md p i)) : forall d, P d.
Proof.
  fix go 1. intros [ns md p i]. apply H. induction ns as [|[m e] ns IH].
  - intros n d [].
  - intros n d [E|I]; [|eapply IH; exact I]. destruct e as [c s|d0]; [discriminate|]. injection E as _ <-. apply go.
Qed.

Lemma tree_ind' (P : tree -> Prop)
  (HL : forall c s, P (Leaf c s)) (HD : forall es, (forall n t, In (n, t) es -> P t) -> P (Dir es)) : forall t, P t.
Proof.
  fix go 1. intros [c s|es]; [apply HL|]. apply HD. induction es as [|[m t0] es IH].
  - intros n t [].
  - intros n t [E|I]; [|eapply IH; exact I]. injection E as _ <-. apply go.
Qed.

(** ** The tree a builder stands for *)
Fixpoint erase (d : dirb) : tree :=
  Dir (map (fun e => (fst e, match snd e with ELeaf c s => Leaf c s | EDir d => erase d end)) (d_nodes d)).
Definition erase_entry (e : entry dirb) : tree := match e with ELeaf c s => Leaf c s | EDir d => erase d end.
Lemma erase_eq d : erase d = Dir (map (fun e => (fst e, erase_entry (snd e))) (d_nodes d)).
Proof. destruct d. reflexivity. Qed.

Fixpoint ids (d : dirb) : list N :=
  d_id d :: flat_map (fun e => match snd e with EDir d => ids d | ELeaf _ _ => [] end) (d_nodes d).
Definition entry_ids (e : bytes * entry dirb) : list N := match snd e with EDir d => ids d | ELeaf _ _ => [] end.
Lemma ids_eq d : ids d = d_id d :: flat_map entry_ids (d_nodes d).
Proof. destruct d. reflexivity. Qed.

Inductive good : dirb -> Prop :=
| Good : forall ns md p i,
    sorted_keys ns ->
    (forall n e, In (n, e) ns -> slash_free n) ->
    (forall n d, In (n, EDir d) ns -> d_parent d = Some i) ->
    (forall n d, In (n, EDir d) ns -> n = [] -> d_nodes d = []) ->
    (forall n d, In (n, EDir d) ns -> good d) ->
    good (DirB ns md p i).

(** what is at a path: a leaf or a directory *)
Fixpoint view (d : dirb) (names : list bytes) : option (option (cid * N)) :=
  match names with
  | [] => Some None
  | n :: rest =>
    match bt_get n (d_nodes d) with
    | None => None
    | Some (EDir d') => view d' rest
    | Some (ELeaf c s) => match rest with [] => Some (Some (c, s)) | _ => None end
    end
  end.
Definition kind (t : tree) : option (cid * N) := match t with Leaf c s => Some (c, s) | Dir _ => None end.

Lemma find_erase n ns : sorted_keys ns ->
  find_name n (map (fun e => (fst e, erase_entry (snd e))) ns) = option_map erase_entry (bt_get n ns).
Proof.
  induction 1 as [|[k e] ns S IH F]; [reflexivity|]. cbn [map find_name fst snd bt_get].
  destruct (bytes_eqb n k) eqn:E.
  - apply bytes_eqb_eq in E. subst. rewrite compare_refl. reflexivity.
  - apply bytes_eqb_neq in E. rewrite IH. destruct (bytes_compare n k) eqn:C; [apply compare_eq in C; congruence| |reflexivity].
    apply compare_lt in C. assert (N : bt_get n ns = None); [|rewrite N; reflexivity].
    destruct (bt_get n ns) eqn:G; [|reflexivity]. exfalso. apply bt_get_some in G as (pre & post & -> & _).
    rewrite Forall_forall in F. specialize (F _ (in_elt _ _ _)). cbn in F.
    apply (name_lt_irrefl n). eapply name_lt_trans; eassumption.
Qed.

Lemma view_subtree names : forall d, good d -> view d names = option_map kind (subtree (erase d) names).
Proof.
  induction names as [|n rest IH]; intros d G.
  - destruct d. reflexivity.
  - cbn [view subtree]. rewrite erase_eq. destruct G as [ns md p i S SF Pa Em Gd]. cbn [d_nodes].
    rewrite (find_erase n ns S). destruct (bt_get n ns) as [[c s|d']|] eqn:B; cbn [option_map erase_entry].
    + destruct rest; reflexivity.
    + apply IH. apply bt_get_some in B as (pre & post & -> & _). apply (Gd n). apply in_elt.
    + reflexivity.
Qed.

Lemma good_ordered d : good d -> ordered (erase d).
Proof.
  intros G names. revert d G. induction names as [|n rest IH]; intros d G es.
  - cbn [subtree]. rewrite erase_eq. destruct G as [ns md p i S _ _ _ _]. intros E. injection E as <-. cbn [d_nodes].
    induction S as [|e ns S IH F]; cbn [map]; constructor; [exact IH|].
    apply Forall_forall. intros e' I. apply in_map_iff in I as (e2 & <- & I2). rewrite Forall_forall in F. apply (F _ I2).
  - cbn [subtree]. rewrite erase_eq. destruct G as [ns md p i S SF Pa Em Gd]. cbn [d_nodes].
    rewrite (find_erase n ns S). destruct (bt_get n ns) as [[c s|d']|] eqn:B; cbn [option_map erase_entry].
    + destruct rest; discriminate.
    + apply IH. apply bt_get_some in B as (pre & post & -> & _). apply (Gd n). apply in_elt.
    + discriminate.
Qed.

(** ** Changing one entry *)
Lemma good_insert d n e :
  good d -> slash_free n ->
  (forall d', e = EDir d' -> d_parent d' = Some (d_id d) /\ (n = [] -> d_nodes d' = []) /\ good d') ->
  good (with_nodes d (bt_insert n e (d_nodes d))).
Proof.
  intros G F He. destruct G as [ns md p i S SF Pa Em Gd]. unfold with_nodes. cbn [d_nodes d_metadata d_parent d_id] in *.
  constructor.
  - apply bt_insert_sorted, S.
  - intros m e' I. apply bt_insert_in in I as [E|I]; [injection E as -> ->; exact F|eauto].
  - intros m d' I. apply bt_insert_in in I as [E|I]; [injection E as -> <-; apply He; reflexivity|eauto].
  - intros m d' I. apply bt_insert_in in I as [E|I]; [injection E as -> <-; apply He; reflexivity|eauto].
  - intros m d' I. apply bt_insert_in in I as [E|I]; [injection E as -> <-; apply He; reflexivity|eauto].
Qed.

Lemma ids_with d ns : ids (with_nodes d ns) = d_id d :: flat_map entry_ids ns.
Proof. rewrite ids_eq. reflexivity. Qed.

(** [names] gets the value [v], the directories above it exist, the rest stays *)
Definition upd (d d' : dirb) (names : list bytes) (v : option (cid * N)) : Prop :=
  view d' names = Some v
  /\ (forall pre n rest, names = pre ++ n :: rest -> view d' pre = Some None)
  /\ (forall q, (forall rest, names <> q ++ rest) -> view d' q = view d q).

(** the directories with fresh ids [from, upto) were added *)
Definition grown (d d' : dirb) (from upto : N) : Prop :=
  d_id d' = d_id d /\ d_parent d' = d_parent d /\ from <= upto
  /\ exists new, Permutation (ids d') (new ++ ids d) /\ NoDup new /\ Forall (fun x => from <= x < upto) new.

Lemma upd_here d n e v :
  (match e with
   | ELeaf c s => v = Some (c, s) /\ bt_get n (d_nodes d) = None
   | EDir d' => v = None /\
       match bt_get n (d_nodes d) with
       | Some (EDir old) => d_nodes d' = d_nodes old
       | Some (ELeaf _ _) => False
       | None => d_nodes d' = []
       end
   end) ->
  upd d (with_nodes d (bt_insert n e (d_nodes d))) [n] v.
Proof.
  intros H. unfold upd. split; [|split].
  - cbn [view d_nodes with_nodes]. rewrite bt_get_insert, bytes_eqb_refl. destruct e; destruct H as [-> _]; reflexivity.
  - intros pre m rest E. destruct pre as [|a pre]; [reflexivity|]. destruct pre; discriminate.
  - intros q Q. destruct q as [|m q]; [reflexivity|]. cbn [view d_nodes with_nodes]. rewrite bt_get_insert.
    destruct (bytes_eqb m n) eqn:E; [|reflexivity]. apply bytes_eqb_eq in E. subst m.
    destruct q as [|m2 q]; [exfalso; apply (Q []); reflexivity|].
    destruct e as [c s|d']; destruct H as [-> H]; [rewrite H; reflexivity|].
    destruct (bt_get n (d_nodes d)) as [[c s|old]|]; [contradiction| |].
    + destruct d', old; cbn in *; subst. reflexivity.
    + destruct d'; cbn in *; subst. reflexivity.
Qed.

Lemma upd_under d n sub sub' rest v :
  rest <> [] ->
  (bt_get n (d_nodes d) = Some (EDir sub) \/ bt_get n (d_nodes d) = None /\ d_nodes sub = []) ->
  upd sub sub' rest v ->
  upd d (with_nodes d (bt_insert n (EDir sub') (d_nodes d))) (n :: rest) v.
Proof.
  intros NE G (U1 & U2 & U3). unfold upd. split; [|split].
  - cbn [view d_nodes with_nodes]. rewrite bt_get_insert, bytes_eqb_refl. exact U1.
  - intros pre m r E. destruct pre as [|a pre]; [reflexivity|]. cbn [app] in E. injection E as <- E.
    cbn [view d_nodes with_nodes]. rewrite bt_get_insert, bytes_eqb_refl. eapply U2; eassumption.
  - intros q Q. destruct q as [|m q]; [reflexivity|]. cbn [view d_nodes with_nodes]. rewrite bt_get_insert.
    destruct (bytes_eqb m n) eqn:E; [|reflexivity]. apply bytes_eqb_eq in E. subst m.
    assert (Q' : forall r, rest <> q ++ r) by (intros r E; apply (Q r); cbn; congruence).
    rewrite (U3 q Q'). destruct G as [->|[-> G]]; [reflexivity|].
    destruct q as [|m2 q]; [exfalso; apply (Q' rest); reflexivity|]. cbn [view]. rewrite G. reflexivity.
Qed.

Lemma grown_refl d c : grown d d c c.
Proof. repeat split; [lia|]. exists []. repeat split; constructor || reflexivity. Qed.

Lemma grown_leaf d n c s k : bt_get n (d_nodes d) = None ->
  grown d (with_nodes d (bt_insert n (ELeaf c s) (d_nodes d))) k k.
Proof.
  intros G. apply bt_get_none in G as (pre & post & E & I). repeat split; [lia|]. exists []. repeat split; try constructor.
  rewrite ids_with, ids_eq, I, E. cbn [app]. rewrite !flat_map_app. cbn [flat_map entry_ids snd app]. reflexivity.
Qed.

Lemma grown_same d n sub sub' a b : bt_get n (d_nodes d) = Some (EDir sub) ->
  grown sub sub' a b -> grown d (with_nodes d (bt_insert n (EDir sub') (d_nodes d))) a b.
Proof.
  intros G (_ & _ & L & new & P & ND & F). apply bt_get_some in G as (pre & post & E & I).
  repeat split; [exact L|]. exists new. repeat split; try assumption.
  rewrite ids_with, ids_eq, I, E. rewrite !flat_map_app. cbn [flat_map entry_ids snd].
  rewrite P. rewrite <- Permutation_middle. apply perm_skip.
  rewrite <- !app_assoc. apply Permutation_app_swap_app.
Qed.

Lemma perm_fresh (x a : N) pre new post :
  Permutation (x :: pre ++ (new ++ [a]) ++ post) ((a :: new) ++ x :: pre ++ post).
Proof.
  transitivity (x :: a :: (new ++ pre ++ post)).
  - apply perm_skip. rewrite <- app_assoc, (Permutation_app_swap_app pre new). cbn [app].
    rewrite (app_assoc new pre (a :: post)), <- Permutation_middle, <- app_assoc. reflexivity.
  - rewrite perm_swap. apply perm_skip. apply Permutation_middle.
Qed.

Lemma grown_fresh d n sub sub' a b : bt_get n (d_nodes d) = None ->
  d_nodes sub = [] -> d_id sub = a -> grown sub sub' (a + 1) b ->
  grown d (with_nodes d (bt_insert n (EDir sub') (d_nodes d))) a b.
Proof.
  intros G Em Ei (_ & _ & L & new & P & ND & F). apply bt_get_none in G as (pre & post & E & I).
  repeat split; [lia|]. exists (a :: new). split; [|split].
  - rewrite ids_with, ids_eq, I, E. rewrite !flat_map_app. cbn [flat_map entry_ids snd].
    rewrite P, (ids_eq sub), Em, Ei. cbn [flat_map app].
    apply perm_fresh.
  - constructor; [|exact ND]. intros I2. rewrite Forall_forall in F. specialize (F _ I2). lia.
  - constructor; [lia|]. eapply Forall_impl; [|exact F]. cbn. intros x Hx. lia.
Qed.

(** ** One call *)
Definition call_mod (k : call) : modifier :=
  match k with
  | Put p c s => put_leaf p c s
  | SetMetadata p md => put_metadata p md
  end.
Definition new_value (k : call) : option (cid * N) :=
  match k with Put _ c s => Some (c, s) | SetMetadata _ _ => None end.
Definition blocked (k : call) (v : option (option (cid * N))) : option build_error :=
  match k, v with
  | Put p _ _, Some _ => Some (DuplicatePath p)
  | SetMetadata p _, Some (Some _) => Some (LeafAsDirectory p)
  | _, _ => None
  end.

Definition bounded (d : dirb) (c : N) : Prop := Forall (fun x => x < c) (ids d).
Lemma bounded_id d c : bounded d c -> d_id d < c.
Proof. unfold bounded. rewrite ids_eq. intros F. inv F. assumption. Qed.
Lemma bounded_sub d c n sub : bounded d c -> bt_get n (d_nodes d) = Some (EDir sub) -> bounded sub c.
Proof.
  unfold bounded. rewrite ids_eq. intros F G. inv F. apply bt_get_some in G as (pre & post & E & _).
  rewrite E, flat_map_app in H2. apply Forall_app in H2 as [_ H2]. cbn [flat_map entry_ids snd] in H2.
  apply Forall_app in H2 as [H2 _]. exact H2.
Qed.
Lemma good_sub d n sub : good d -> bt_get n (d_nodes d) = Some (EDir sub) ->
  good sub /\ d_parent sub = Some (d_id d) /\ (n = [] -> d_nodes sub = []).
Proof.
  intros G B. destruct G as [ns md p i S SF Pa Em Gd]. cbn [d_nodes d_id] in *.
  apply bt_get_some in B as (pre & post & -> & _). split; [eapply Gd, in_elt|split; [eapply Pa, in_elt|eapply Em, in_elt]].
Qed.

Lemma call_mod_spec k d n c :
  good d -> bounded d c -> slash_free n ->
  match blocked k (view d [n]) with
  | Some e => call_mod k d n (Some c) = (Err e, d, Some c)
  | None => exists d' nid, call_mod k d n (Some c) = (Ok tt, d', nid)
      /\ upd d d' [n] (new_value k) /\ good d'
      /\ grown d d' c (match nid with None => c + 1 | Some _ => c end)
  end.
Proof.
  intros G B F. pose proof (bounded_id _ _ B) as BI. destruct k as [p t s|p md]; cbn [call_mod blocked view].
  - unfold put_leaf. destruct (bt_get n (d_nodes d)) as [e|] eqn:E.
    + destruct e; [reflexivity|]. cbn [view]. reflexivity.
    + eexists _, _. split; [reflexivity|]. split; [apply upd_here; auto|]. split.
      * apply good_insert; [assumption..|]. discriminate.
      * apply grown_leaf, E.
  - unfold put_metadata. destruct (bt_get n (d_nodes d)) as [[t s|sub]|] eqn:E.
    + reflexivity.
    + eexists _, _. split; [reflexivity|]. destruct (good_sub d n sub G E) as (G1 & G2 & G3).
      split; [apply upd_here; rewrite E; split; reflexivity|]. split.
      * apply good_insert; [assumption..|]. intros d' Ed. injection Ed as <-. cbn [d_parent d_nodes]. split; [exact G2|split; [exact G3|]].
        destruct G1; constructor; assumption.
      * eapply grown_same; [exact E|]. repeat split; [lia|]. exists []. repeat split; try constructor.
        rewrite !ids_eq. cbn [d_nodes d_id app]. reflexivity.
    + unfold dirb_new. destruct (N.eqb_spec (d_id d) c); [lia|].
      eexists _, _. split; [reflexivity|]. cbn [d_nodes d_parent d_id].
      split; [apply upd_here; rewrite E; split; reflexivity|]. split.
      * apply good_insert; [assumption..|]. intros d' Ed. injection Ed as <-. cbn [d_parent d_nodes]. split; [reflexivity|split; [reflexivity|]].
        constructor; try (intros ? ? []). constructor.
      * eapply (grown_fresh d n (DirB [] md (Some (d_id d)) c)); [exact E|reflexivity..|apply grown_refl].
Qed.

(** the loop of modify_with, when the root is not full *)
Definition through (d : dirb) (names : list bytes) : Prop :=
  exists pre n rest l, names = pre ++ n :: rest /\ view d pre = Some (Some l).

Lemma through_under d n sub rest : bt_get n (d_nodes d) = Some (EDir sub) -> (through d (n :: rest) <-> through sub rest).
Proof.
  intros B. split.
  - intros (pre & m & r & l & E & V). destruct pre as [|a pre]; [discriminate|]. injection E as <- E.
    cbn [view] in V. rewrite B in V. exists pre, m, r, l. auto.
  - intros (pre & m & r & l & E & V). exists (n :: pre), m, r, l. split; [cbn; congruence|]. cbn [view]. rewrite B. exact V.
Qed.

Lemma with_same d n e : bt_get n (d_nodes d) = Some e -> with_nodes d (bt_insert n e (d_nodes d)) = d.
Proof.
  intros B. apply bt_get_some in B as (pre & post & E & I). rewrite I, <- E. destruct d; reflexivity.
Qed.

Lemma check_segment_ok p depth n last :
  (n <> [] \/ depth = O /\ last = true) -> check_segment p depth n last = Ok tt.
Proof. intros H. unfold check_segment. destruct depth, n, last; try reflexivity; intuition discriminate. Qed.

Lemma modify_spec p k names : forall depth d c,
  call_path k = p -> names <> [] -> Forall slash_free names ->
  (Forall (fun n => n <> []) names \/ depth = O /\ names = [[]]) ->
  good d -> bounded d c ->
  let r := modify_loop true p (call_mod k) names depth d c in
  (through d names /\ r = (Err (LeafAsDirectory p), d, c))
  \/ (~ through d names /\
      match blocked k (view d names) with
      | Some e => r = (Err e, d, c)
      | None => exists d' c', r = (Ok tt, d', c') /\ upd d d' names (new_value k) /\ good d' /\ grown d d' c c'
      end).
Proof.
  induction names as [|n rest IH]; intros depth d c Hp NE SF NN G B r; [congruence|]. subst r.
  apply Forall_cons_iff in SF as [SF1 SF2].
  assert (Hs : n <> [] \/ depth = O /\ rest = []).
  { destruct NN as [NN|[? NN]]; [apply Forall_cons_iff in NN as [NN _]; auto|injection NN as -> ->; auto]. }
  cbn [modify_loop]. rewrite check_segment_ok by (destruct Hs as [?|[? ->]]; auto). cbn beta iota zeta.
  assert (Hfull : match depth with O => negb true && negb (dirb_is_empty d) | _ => false end = false) by (destruct depth; reflexivity).
  rewrite Hfull.
  destruct rest as [|n2 rest].
  - right. split.
    + intros (pre & m & r & l & E & V). destruct pre as [|a pre]; [discriminate|destruct pre; discriminate].
    + pose proof (call_mod_spec k d n c G B SF1) as CS. destruct (blocked k (view d [n])) as [e|].
      * rewrite CS. reflexivity.
      * destruct CS as (d' & nid & -> & U & G' & Gr). eexists _, _. split; [reflexivity|]. auto.
  - assert (NN' : forall dep, Forall (fun n => n <> []) (n2 :: rest) \/ dep = O /\ n2 :: rest = [[]]).
    { intros dep. destruct NN as [NN|[_ NN]]; [left; apply Forall_cons_iff in NN as [_ NN]; exact NN|discriminate]. }
    destruct Hs as [Hn|[_ Hs]]; [|discriminate].
    destruct (bt_get n (d_nodes d)) as [[t s|sub]|] eqn:Bt.
    + left. split; [|reflexivity]. exists [n], n2, rest, (t, s). split; [reflexivity|]. cbn [view]. rewrite Bt. reflexivity.
    + destruct (good_sub d n sub G Bt) as (G1 & G2 & G3).
      destruct (IH (S depth) sub c Hp ltac:(discriminate) SF2 (NN' _) G1 (bounded_sub _ _ _ _ B Bt)) as [[T E]|[T E]].
      * left. rewrite E. split; [apply (through_under d n sub); assumption|]. rewrite (with_same d n _ Bt). reflexivity.
      * right. split; [rewrite (through_under d n sub _ Bt); exact T|].
        assert (V : view d (n :: n2 :: rest) = view sub (n2 :: rest)) by (cbn [view]; rewrite Bt; reflexivity).
        rewrite V. destruct (blocked k (view sub (n2 :: rest))) as [e|].
        -- rewrite E, (with_same d n _ Bt). reflexivity.
        -- destruct E as (d' & c' & -> & U & G' & Gr). eexists _, _. split; [reflexivity|].
           split; [eapply upd_under; [discriminate|left; exact Bt|exact U]|]. split.
           ++ apply good_insert; [assumption..|]. intros d'' Ed. injection Ed as <-.
              destruct Gr as (_ & Gp & _). rewrite Gp. split; [exact G2|split; [congruence|exact G']].
           ++ eapply grown_same; eassumption.
    + unfold dirb_new. pose proof (bounded_id _ _ B) as BI. destruct (N.eqb_spec (d_id d) c); [lia|].
      set (sub := DirB [] no_metadata_set (Some (d_id d)) c).
      assert (Gs : good sub) by (constructor; try (intros ? ? []); constructor).
      assert (Bs : bounded sub (c + 1)) by (unfold bounded; cbn; repeat constructor; lia).
      assert (Vs : forall m q, view sub (m :: q) = None) by reflexivity.
      destruct (IH (S depth) sub (c + 1) Hp ltac:(discriminate) SF2 (NN' _) Gs Bs) as [[T E]|[T E]].
      * exfalso. destruct T as (pre & m & r & l & _ & V). destruct pre; [discriminate|rewrite Vs in V; discriminate].
      * right. split.
        { intros (pre & m & r & l & E2 & V). destruct pre as [|a pre]; [discriminate|]. injection E2 as <- E2.
          cbn [view] in V. rewrite Bt in V. discriminate. }
        cbn [view]. rewrite Bt. rewrite Vs in E.
        replace (blocked k None) with (@None build_error) in * by (destruct k; reflexivity).
        destruct E as (d' & c' & -> & U & G' & Gr). eexists _, _. split; [reflexivity|].
        split; [eapply (upd_under d n sub); [discriminate|right; auto|exact U]|]. split.
        -- apply good_insert; [assumption..|]. intros d'' Ed. injection Ed as <-.
           destruct Gr as (_ & Gp & _). rewrite Gp. split; [reflexivity|split; [congruence|exact G']].
        -- eapply (grown_fresh d n sub); [exact Bt|reflexivity..|exact Gr].
Qed.

(** ** Histories *)
Record inv (b : builder) (H : list call) : Prop := Inv {
  inv_good : good (b_root b);
  inv_bounded : bounded (b_root b) (b_counter b);
  inv_nodup : NoDup (ids (b_root b));
  inv_leaf : forall names c s, view (b_root b) names = Some (Some (c, s)) <-> leaf_in H names c s;
  inv_dir : forall names, view (b_root b) names = Some None <-> names = [] \/ dir_in H names
}.

Lemma inv_entry b H names : inv b H -> (view (b_root b) names <> None <-> names = [] \/ entry_in H names).
Proof.
  intros I. unfold entry_in. pose proof (inv_dir b H I names) as D. pose proof (inv_leaf b H I names) as L.
  destruct (view (b_root b) names) as [[[c s]|]|].
  - split; [intros _; right; right; exists c, s; apply L; reflexivity|discriminate].
  - split; [intros _; destruct (proj1 D eq_refl); auto|discriminate].
  - split; [congruence|]. intros E _. destruct E as [E|[E|(c & s & E)]].
    + specialize (proj2 D (or_introl E)). discriminate.
    + specialize (proj2 D (or_intror E)). discriminate.
    + apply L in E. discriminate.
Qed.

Lemma inv_through b H names : inv b H -> (through (b_root b) names <-> through_leaf H names).
Proof.
  intros I. unfold through, through_leaf. split.
  - intros (pre & n & rest & [c s] & E & V). apply (inv_leaf b H I) in V. exists pre, n, rest, c, s. auto.
  - intros (pre & n & rest & c & s & E & V). apply (inv_leaf b H I) in V. exists pre, n, rest, (c, s). auto.
Qed.

Lemma nodes_empty b H : inv b H -> (d_nodes (b_root b) = [] <-> H = []).
Proof.
  intros I. split.
  - intros E. destruct H as [|k H]; [reflexivity|]. exfalso.
    assert (V : view (b_root b) (split_slash (call_path k)) <> None).
    { apply (inv_entry b _ _ I). right. destruct k as [p c s|p md]; cbn [call_path].
      - right. exists c, s, p. split; [left; reflexivity|apply split_segments].
      - left. split; [apply split_nonempty|]. left. exists p, md. split; [left; reflexivity|apply split_segments]. }
    pose proof (split_nonempty (call_path k)) as NE. destruct (split_slash (call_path k)); [congruence|].
    cbn [view] in V. rewrite E in V. cbn in V. congruence.
  - intros ->. destruct (d_nodes (b_root b)) as [|[n e] ns] eqn:E; [reflexivity|]. exfalso.
    assert (V : view (b_root b) [n] <> None).
    { cbn [view]. rewrite E. cbn [bt_get]. rewrite compare_refl. destruct e; discriminate. }
    apply (inv_entry b _ _ I) in V as [V|[(_ & [(p & md & [] & _)|(k & m & r & [] & _)])|(c & s & p & [] & _)]]. discriminate.
Qed.

Lemma prefix_dec (a : list bytes) : forall q, {rest | a = q ++ rest} + {forall rest, a <> q ++ rest}.
Proof.
  induction a as [|x a IH]; intros [|y q].
  - left. exists []. reflexivity.
  - right. discriminate.
  - left. exists (x :: a). reflexivity.
  - destruct (bytes_eq_dec x y) as [->|N]; [|right; intros rest E; injection E; congruence].
    destruct (IH q) as [[rest ->]|N]; [left; exists rest; reflexivity|right; intros rest E; injection E as E; apply (N rest E)].
Qed.

Lemma in_snoc {A} (x k : A) H : In x (H ++ [k]) <-> In x H \/ x = k.
Proof. rewrite in_app_iff. cbn. intuition congruence. Qed.

Lemma leaf_in_snoc H k names c s :
  leaf_in (H ++ [k]) names c s <-> leaf_in H names c s \/ exists p, k = Put p c s /\ segments p names.
Proof.
  unfold leaf_in. split.
  - intros (p & I & S). apply in_snoc in I as [I|I]; [left; eauto|right; exists p; auto].
  - intros [(p & I & S)|(p & -> & S)]; exists p; split; try assumption; apply in_snoc; auto.
Qed.
Lemma dir_in_snoc H k names :
  dir_in (H ++ [k]) names <->
  dir_in H names \/ (names <> [] /\ ((exists p md, k = SetMetadata p md /\ segments p names)
                                     \/ exists n rest, segments (call_path k) (names ++ n :: rest))).
Proof.
  unfold dir_in. split.
  - intros (NE & [(p & md & I & S)|(k' & n & r & I & S)]); apply in_snoc in I as [I|I].
    + left. split; [exact NE|]. left. eauto.
    + right. split; [exact NE|]. left. eauto.
    + left. split; [exact NE|]. right. eauto 6.
    + subst k'. right. split; [exact NE|]. right. eauto.
  - intros [(NE & [(p & md & I & S)|(k' & n & r & I & S)])|(NE & [(p & md & -> & S)|(n & r & S)])]; (split; [exact NE|]).
    + left. exists p, md. split; [apply in_snoc; auto|exact S].
    + right. exists k', n, r. split; [apply in_snoc; auto|exact S].
    + left. exists p, md. split; [apply in_snoc; auto|exact S].
    + right. exists k, n, r. split; [apply in_snoc; auto|exact S].
Qed.

Lemma app_self {A} (q : list A) x r : q = q ++ x :: r -> False.
Proof. intros E. apply (f_equal (@length A)) in E. rewrite app_length in E. cbn in E. lia. Qed.

Lemma inv_upd b H k names root' longest counter' :
  inv b H -> segments (call_path k) names -> ~ through (b_root b) names ->
  blocked k (view (b_root b) names) = None ->
  upd (b_root b) root' names (new_value k) -> good root' -> grown (b_root b) root' (b_counter b) counter' ->
  inv (Builder root' longest counter' (b_opts b)) (H ++ [k]).
Proof.
  intros I S T Bl (U1 & U2 & U3) G (_ & _ & L & new & P & ND & F).
  assert (NE : names <> []) by apply S.
  constructor; cbn [b_root b_counter].
  - exact G.
  - unfold bounded. rewrite P. apply Forall_app. split.
    + eapply Forall_impl; [|exact F]. cbn. lia.
    + eapply Forall_impl; [|apply (inv_bounded b H I)]. cbn. lia.
  - rewrite P. assert (Sep : forall x, In x new -> ~ In x (ids (b_root b))).
    { intros x I1 I2. rewrite Forall_forall in F. specialize (F _ I1). pose proof (inv_bounded b H I) as B.
      unfold bounded in B. rewrite Forall_forall in B. specialize (B _ I2). cbn in *. lia. }
    clear -ND Sep I. induction ND as [|x new N ND IH]; [apply (inv_nodup b H I)|]. cbn [app]. constructor.
    + rewrite in_app_iff. intros [I1|I1]; [auto|apply (Sep x (or_introl eq_refl) I1)].
    + apply IH. intros y Iy. apply Sep. right. exact Iy.
  - intros q c s. rewrite leaf_in_snoc, <- (inv_leaf b H I).
    destruct (prefix_dec names q) as [[rest E]|N].
    + destruct rest as [|n rest].
      * rewrite app_nil_r in E. subst q. rewrite U1. destruct k as [p c0 s0|p md]; cbn [new_value blocked call_path] in *.
        -- destruct (view (b_root b) names); [discriminate|]. split.
           ++ intros E. injection E as <- <-. right. eauto.
           ++ intros [E|(p' & E & _)]; [discriminate|]. congruence.
        -- split; [discriminate|]. intros [E|(p' & E & _)]; [|discriminate]. rewrite E in Bl. discriminate.
      * rewrite (U2 _ _ _ E). split; [discriminate|]. intros [V|(p & -> & S')].
        -- exfalso. apply T. exists q, n, rest, (c, s). auto.
        -- exfalso. cbn [call_path] in S. rewrite (segments_fun _ _ _ S S') in E. apply (app_self _ _ _ E).
    + rewrite (U3 _ N). split; [auto|]. intros [V|(p & -> & S')]; [exact V|]. exfalso. apply (N []). rewrite app_nil_r.
      eapply segments_fun; [exact S|exact S'].
  - intros q. rewrite dir_in_snoc. pose proof (inv_dir b H I q) as D.
    destruct (prefix_dec names q) as [[rest E]|N].
    + destruct rest as [|n rest].
      * rewrite app_nil_r in E. subst q. rewrite U1. destruct k as [p c0 s0|p md]; cbn [new_value blocked call_path] in *.
        -- split; [discriminate|]. intros [E|[E|(_ & [(p' & md & E & _)|(n & r & S')])]].
           ++ congruence.
           ++ rewrite (proj2 D (or_intror E)) in Bl. discriminate.
           ++ discriminate.
           ++ exfalso. pose proof (segments_fun _ _ _ S S') as E. apply (app_self _ _ _ E).
        -- split; [|reflexivity]. intros _. right. right. split; [exact NE|]. left. eauto.
      * rewrite (U2 _ _ _ E). split; [|reflexivity]. intros _.
        destruct q as [|x q]; [left; reflexivity|]. right. right. split; [discriminate|]. right. exists n, rest. congruence.
    + rewrite (U3 _ N), D. split; [intuition|]. intros [E|[E|(_ & [(p & md & -> & S')|(n & r & S')])]]; [auto|auto| |].
      * exfalso. apply (N []). rewrite app_nil_r. eapply segments_fun; [exact S|exact S'].
      * exfalso. apply (N (n :: r)). eapply segments_fun; [exact S|exact S'].
Qed.

Lemma modify_wrap p f names d c wrap depth :
  depth <> O -> modify_loop wrap p f names depth d c = modify_loop true p f names depth d c.
Proof.
  revert depth d c. induction names as [|n rest IH]; intros depth d c Hd; [reflexivity|].
  cbn [modify_loop]. destruct depth as [|depth]; [congruence|]. destruct (check_segment p (S depth) n _); try reflexivity.
  destruct a. destruct rest; [reflexivity|]. destruct (bt_get n (d_nodes d)) as [[t s|sub]|]; [reflexivity| |].
  - rewrite (IH (S (S depth))) by discriminate. reflexivity.
  - destruct (dirb_new (d_id d) c); try reflexivity. rewrite (IH (S (S depth))) by discriminate. reflexivity.
Qed.

(** at the root, when it is not full for this path *)
Lemma modify_root p f names d c wrap :
  (wrap = true \/ d_nodes d = [] \/ exists n n2 rest e, names = n :: n2 :: rest /\ bt_get n (d_nodes d) = Some e) ->
  modify_loop wrap p f names 0 d c = modify_loop true p f names 0 d c.
Proof.
  intros H. destruct wrap; [reflexivity|]. destruct H as [H|[H|(n & n2 & rest & e & -> & B)]]; [discriminate| |].
  - destruct names as [|n rest]; [reflexivity|]. cbn [modify_loop]. unfold dirb_is_empty. rewrite H. cbn [negb andb bt_get].
    destruct (check_segment p 0 n _); try reflexivity. destruct a. destruct rest; [reflexivity|].
    destruct (dirb_new (d_id d) c); try reflexivity. rewrite (modify_wrap _ _ _ _ _ false) by discriminate. reflexivity.
  - remember (n2 :: rest) as r eqn:Er. cbn [modify_loop]. rewrite B.
    destruct (check_segment p 0 n _); try reflexivity. destruct a.
    destruct e; [subst r; reflexivity|]. rewrite (modify_wrap _ _ _ _ _ false) by discriminate. subst r. reflexivity.
Qed.

Lemma do_call_eq b k : do_call b k = modify_with b (call_path k) (call_mod k).
Proof. destruct k; reflexivity. Qed.

Definition same_tree (b b' : builder) : Prop :=
  b_root b' = b_root b /\ b_counter b' = b_counter b /\ b_opts b' = b_opts b.

Lemma call_step b H k :
  inv b H ->
  let wrap := wrap_with_directory (b_opts b) in
  (acceptable wrap H k /\ fst (do_call b k) = Ok tt
     /\ inv (snd (do_call b k)) (H ++ [k]) /\ b_opts (snd (do_call b k)) = b_opts b)
  \/ (exists e, refusal wrap H k e /\ fst (do_call b k) = Err e /\ same_tree b (snd (do_call b k))).
Proof.
  intros I wrap. rewrite do_call_eq. unfold modify_with.
  set (p := call_path k). unfold refusal. fold p.
  destruct (ends_with_slash p) eqn:E1.
  { apply ends_with_slash_iff in E1. right. eexists. split; [left; split; [exact E1|reflexivity]|]. repeat split. }
  assert (E1' : ~ ends_in_slash p) by (rewrite <- ends_with_slash_iff; congruence).
  destruct (contains_slashes p) eqn:E2.
  { apply contains_slashes_iff in E2. right. eexists. split; [right; left; split; [exact E1'|split; [exact E2|reflexivity]]|]. repeat split. }
  assert (E2' : ~ repeats_slash p) by (rewrite <- contains_slashes_iff; congruence).
  assert (RD : is_rooted p \/ ~ is_rooted p).
  { unfold is_rooted. destruct p as [|x q]; [right; intros (q & E); discriminate|].
    destruct (byte_eq_dec x x2f) as [->|N]; [left; eauto|right; intros (q' & E); congruence]. }
  destruct RD as [R|R].
  { right. destruct (rooted_segments p R) as (rest & Es & Nr). rewrite Es. destruct rest as [|r1 rest]; [congruence|].
    eexists. split; [right; right; left; split; [exact E1'|split; [exact E2'|split; [exact R|reflexivity]]]|]. cbn [modify_loop check_segment fst snd].
    split; [reflexivity|]. repeat split. }
  assert (W : well_formed p) by (split; [|split]; assumption).
  pose proof (split_segments p) as S. set (names := split_slash p) in *.
  pose proof S as (NE & SF & _).
  assert (Rf : root_free wrap H names <->
    (wrap = true \/ d_nodes (b_root b) = [] \/ exists n n2 rest e, names = n :: n2 :: rest /\ bt_get n (d_nodes (b_root b)) = Some e)).
  { unfold root_free. rewrite (nodes_empty b H I). split.
    - intros [?|[?|(n & n2 & rest & E & En)]]; [auto|auto|]. right. right. exists n, n2, rest.
      assert (V : view (b_root b) [n] <> None) by (apply (inv_entry b H _ I); auto).
      cbn [view] in V. destruct (bt_get n (d_nodes (b_root b))) as [e|]; [|congruence]. eauto.
    - intros [?|[?|(n & n2 & rest & e & E & En)]]; [auto|auto|]. right. right. exists n, n2, rest. split; [exact E|].
      assert (V : view (b_root b) [n] <> None) by (cbn [view]; rewrite En; destruct e; discriminate).
      apply (inv_entry b H _ I) in V as [V|V]; [discriminate|exact V]. }
  assert (RFD : root_free wrap H names \/ ~ root_free wrap H names).
  { rewrite Rf. destruct wrap; [auto|]. destruct (d_nodes (b_root b)) as [|nd ns] eqn:En; [auto|].
    destruct names as [|n rest] eqn:Enm; [congruence|]. destruct rest as [|n2 rest].
    - right. intros [?|[?|(? & ? & ? & ? & E & _)]]; discriminate.
    - destruct (bt_get n (nd :: ns)) as [e|] eqn:B.
      + left. right. right. exists n, n2, rest, e. auto.
      + right. intros [?|[?|(m & m2 & r & e & E & B')]]; [discriminate..|]. injection E as <- <- <-. congruence. }
  destruct RFD as [RF|RF].
  - fold wrap. rewrite (modify_root p (call_mod k) names (b_root b) (b_counter b) wrap (proj1 Rf RF)).
    destruct (modify_spec p k names 0 (b_root b) (b_counter b) eq_refl NE SF) as [[T E]|[T E]].
    + destruct (well_formed_segments p names S W) as [Hn|Hn]; [right|left]; auto.
    + apply (inv_good b H I).
    + apply (inv_bounded b H I).
    + right. rewrite E. exists (LeafAsDirectory p). split; [|repeat split].
      right; right; right. split; [exact W|]. exists names. split; [exact S|]. right. left.
      split; [exact RF|]. split; [apply (inv_through b H _ I), T|reflexivity].
    + rewrite (inv_through b H _ I) in T.
      destruct (blocked k (view (b_root b) names)) as [e|] eqn:Bl.
      * right. rewrite E. exists e. split; [|repeat split].
        right; right; right. split; [exact W|]. exists names. split; [exact S|]. right. right.
        split; [exact RF|]. split; [exact T|]. destruct k as [p0 c s|p0 md]; cbn [blocked] in Bl; subst p; cbn [call_path] in *.
        -- split; [|destruct (view (b_root b) names); congruence].
           assert (V : view (b_root b) names <> None) by (intros V; rewrite V in Bl; discriminate).
           apply (inv_entry b H _ I) in V as [V|V]; [congruence|exact V].
        -- destruct (view (b_root b) names) as [[[c s]|]|] eqn:V; try discriminate. injection Bl as <-.
           split; [|reflexivity]. exists c, s. apply (inv_leaf b H I), V.
      * destruct E as (d' & c' & -> & U & G' & Gr). left. cbn [fst snd]. split; [split; [exact W|]|split; [reflexivity|split; [|reflexivity]]].
        -- exists names. split; [exact S|]. split; [exact RF|]. split; [exact T|].
           destruct k as [p0 c s|p0 md]; cbn [blocked] in Bl.
           ++ intros En. assert (V : view (b_root b) names <> None) by (apply (inv_entry b H _ I); auto).
              destruct (view (b_root b) names); [discriminate|congruence].
           ++ intros (c & s & L). apply (inv_leaf b H I) in L. rewrite L in Bl. discriminate.
        -- apply (inv_upd b H k names d' _ c' I S); try assumption. rewrite (inv_through b H _ I). exact T.
  - right. exists TooManyRootLevelEntries. split.
    { right; right; right. split; [exact W|]. exists names. split; [exact S|]. left. auto. }
    rewrite Rf in RF. assert (wrap = false) by (destruct wrap; [exfalso; auto|reflexivity]).
    assert (FN : d_nodes (b_root b) <> []) by auto.
    assert (Full : negb (dirb_is_empty (b_root b)) = true) by (unfold dirb_is_empty; destruct (d_nodes (b_root b)); [congruence|reflexivity]).
    fold wrap. rewrite H0. destruct names as [|n rest]; [congruence|].
    destruct (well_formed_segments p _ S W) as [Hn|Hn].
    + injection Hn as -> ->. cbn [modify_loop check_segment]. rewrite Full. cbn. repeat split.
    + apply Forall_cons_iff in Hn as [Hn _].
      cbn [modify_loop]. rewrite check_segment_ok by auto. rewrite Full. cbn [negb andb].
      destruct rest as [|n2 rest]; [repeat split|].
      destruct (bt_get n (d_nodes (b_root b))) as [e|] eqn:B; [exfalso; apply RF; right; right; exists n, n2, rest, e; auto|].
      repeat split.
Qed.

(** ** Trees are determined by what they hold *)
Definition sorted_entries (es : list (bytes * tree)) : Prop := StronglySorted (fun a b => name_lt (fst a) (fst b)) es.

Lemma find_none_lt n es : Forall (fun e => name_lt n (fst e)) es -> find_name n es = None.
Proof.
  induction 1 as [|[k t] es L F IH]; [reflexivity|]. cbn. destruct (bytes_eqb n k) eqn:E; [|exact IH].
  apply bytes_eqb_eq in E. subst. exfalso. apply (name_lt_irrefl _ L).
Qed.
Lemma find_in n es t : find_name n es = Some t -> In (n, t) es.
Proof.
  induction es as [|[k u] es IH]; [discriminate|]. cbn. destruct (bytes_eqb n k) eqn:E; [|auto].
  apply bytes_eqb_eq in E. intros H. left. congruence.
Qed.
Lemma find_sorted n es t : sorted_entries es -> In (n, t) es -> find_name n es = Some t.
Proof.
  induction 1 as [|[k u] es S IH F]; [intros []|]. intros [E|I]; cbn.
  - injection E as -> ->. rewrite bytes_eqb_refl. reflexivity.
  - rewrite Forall_forall in F. specialize (F _ I). cbn in F. destruct (bytes_eqb n k) eqn:E; [|auto].
    apply bytes_eqb_eq in E. subst. exfalso. apply (name_lt_irrefl _ F).
Qed.

Lemma find_ext es1 : forall es2, sorted_entries es1 -> sorted_entries es2 ->
  (forall n, find_name n es1 = find_name n es2) -> es1 = es2.
Proof.
  induction es1 as [|[k1 v1] r1 IH]; intros [|[k2 v2] r2] S1 S2 E.
  - reflexivity.
  - specialize (E k2). cbn in E. rewrite bytes_eqb_refl in E. discriminate.
  - specialize (E k1). cbn in E. rewrite bytes_eqb_refl in E. discriminate.
  - inversion S1 as [|? ? T1 F1]; subst. inversion S2 as [|? ? T2 F2]; subst. cbn in F1, F2.
    assert (K : k1 = k2).
    { destruct (bytes_compare k1 k2) eqn:C; [apply compare_eq; exact C| |].
      - exfalso. apply compare_lt in C. specialize (E k1). cbn in E. rewrite bytes_eqb_refl in E.
        rewrite (proj2 (bytes_eqb_neq k1 k2)) in E by (intros ->; apply (name_lt_irrefl _ C)).
        rewrite find_none_lt in E; [discriminate|]. eapply Forall_impl; [|exact F2]. cbn. intros e L. eapply name_lt_trans; eassumption.
      - exfalso. apply compare_gt in C. specialize (E k2). cbn in E. rewrite bytes_eqb_refl in E.
        rewrite (proj2 (bytes_eqb_neq k2 k1)) in E by (intros ->; apply (name_lt_irrefl _ C)).
        rewrite find_none_lt in E; [discriminate|]. eapply Forall_impl; [|exact F1]. cbn. intros e L. eapply name_lt_trans; eassumption. }
    subst k2. pose proof (E k1) as E1. cbn in E1. rewrite bytes_eqb_refl in E1. injection E1 as ->. f_equal.
    apply IH; [assumption..|]. intros n. destruct (bytes_eqb n k1) eqn:B.
    + apply bytes_eqb_eq in B. subst n. rewrite !find_none_lt by assumption. reflexivity.
    + specialize (E n). cbn in E. rewrite B in E. exact E.
Qed.

Lemma ordered_sub es n t : ordered (Dir es) -> find_name n es = Some t -> ordered t.
Proof. intros O F names es' S. apply (O (n :: names)). cbn. rewrite F. exact S. Qed.

Lemma tree_ext t1 : forall t2, ordered t1 -> ordered t2 ->
  (forall q, option_map kind (subtree t1 q) = option_map kind (subtree t2 q)) -> t1 = t2.
Proof.
  induction t1 as [c s|es1 IH] using tree_ind'; intros t2 O1 O2 E; pose proof (E []) as E0; cbn in E0.
  - destruct t2; cbn in E0; congruence.
  - destruct t2 as [|es2]; [discriminate|]. f_equal.
    apply find_ext; [apply (O1 []); reflexivity|apply (O2 []); reflexivity|].
    intros n. destruct (find_name n es1) as [u1|] eqn:F1; destruct (find_name n es2) as [u2|] eqn:F2;
      [|exfalso|exfalso|reflexivity].
    + f_equal. apply (IH n); [apply find_in, F1|apply (ordered_sub es1 n u1 O1 F1)|apply (ordered_sub es2 n u2 O2 F2)|].
      intros q. specialize (E (n :: q)). cbn in E. rewrite F1, F2 in E. exact E.
    + specialize (E [n]). cbn in E. rewrite F1, F2 in E. discriminate.
    + specialize (E [n]). cbn in E. rewrite F1, F2 in E. discriminate.
Qed.

Lemma holds_kinds t1 t2 H1 H2 :
  holds t1 H1 -> holds t2 H2 ->
  (forall names c s, leaf_in H1 names c s <-> leaf_in H2 names c s) ->
  (forall names, dir_in H1 names <-> dir_in H2 names) -> t1 = t2.
Proof.
  intros (O1 & L1 & D1) (O2 & L2 & D2) EL ED. apply tree_ext; [assumption..|]. intros q.
  destruct (subtree t1 q) as [[c s|es]|] eqn:S1.
  - apply L1, EL, L2 in S1. rewrite S1. reflexivity.
  - assert (X : is_dir t2 q). { apply D2. destruct (proj1 (D1 q) (ex_intro _ es S1)) as [->|D]; [auto|right; apply ED, D]. }
    destruct X as (es' & ->). reflexivity.
  - destruct (subtree t2 q) as [[c s|es]|] eqn:S2; [| |reflexivity]; exfalso.
    + apply L2, EL, L1 in S2. congruence.
    + assert (X : is_dir t1 q). { apply D1. destruct (proj1 (D2 q) (ex_intro _ es S2)) as [->|D]; [auto|right; apply ED, D]. }
      destruct X as (es' & ?). congruence.
Qed.
Lemma holds_unique t1 t2 H : holds t1 H -> holds t2 H -> t1 = t2.
Proof. intros A B. eapply holds_kinds; [exact A|exact B|reflexivity..]. Qed.

Lemma inv_holds b H : inv b H -> holds (erase (b_root b)) H.
Proof.
  intros I. pose proof (inv_good b H I) as G. split; [apply good_ordered, G|]. split.
  - intros names c s. rewrite <- (inv_leaf b H I), (view_subtree _ _ G).
    destruct (subtree (erase (b_root b)) names) as [[c' s'|es]|]; cbn; split; congruence.
  - intros names. rewrite <- (inv_dir b H I), (view_subtree _ _ G). unfold is_dir.
    destruct (subtree (erase (b_root b)) names) as [[c' s'|es]|]; cbn; split; try congruence; try (intros (es' & ?); congruence).
    eauto.
Qed.

(** ** Whole histories *)
Lemma inv_new opts : inv (builder_new opts) [].
Proof.
  constructor; cbn [builder_new b_root b_counter].
  - constructor; try (intros ? ? []). constructor.
  - unfold bounded. cbn. repeat constructor.
  - cbn. repeat constructor. intros [].
  - intros names c s. split; [destruct names; discriminate|]. intros (p & [] & _).
  - intros names. split; [destruct names; [auto|discriminate]|].
    intros [->|(_ & [(p & md & [] & _)|(k & n & r & [] & _)])]. reflexivity.
Qed.

Lemma same_tree_call b b' k : same_tree b b' ->
  fst (do_call b' k) = fst (do_call b k) /\ same_tree (snd (do_call b k)) (snd (do_call b' k)).
Proof.
  intros (R & C & O). rewrite !do_call_eq. unfold modify_with. rewrite R, C, O.
  destruct (ends_with_slash (call_path k)); [repeat split; assumption|].
  destruct (contains_slashes (call_path k)); [repeat split; assumption|].
  destruct (modify_loop _ _ _ _ _ _ _) as [[r d] c]. repeat split; assumption.
Qed.
Lemma same_tree_refl b : same_tree b b.
Proof. repeat split. Qed.
Lemma same_tree_build b b' : same_tree b b' -> build b' = build b.
Proof. intros (R & _ & O). unfold build. rewrite R, O. reflexivity. Qed.
Lemma same_tree_run ks : forall b b', same_tree b b' ->
  returns b' ks = returns b ks /\ accepted b' ks = accepted b ks /\ same_tree (after b ks) (after b' ks).
Proof.
  induction ks as [|k ks IH]; intros b b' S; [auto|]. cbn.
  destruct (same_tree_call b b' k S) as [E S']. rewrite E. destruct (IH _ _ S') as (-> & -> & S2). auto.
Qed.

Lemma run_inv ks : forall b H, inv b H ->
  inv (after b ks) (H ++ accepted b ks) /\ b_opts (after b ks) = b_opts b.
Proof.
  induction ks as [|k ks IH]; intros b H I; [rewrite app_nil_r; auto|]. cbn.
  destruct (call_step b H k I) as [(_ & E & I' & O)|(e & _ & E & S)].
  - rewrite E. rewrite app_assoc. destruct (IH _ _ I') as [I2 O2]. split; [exact I2|congruence].
  - rewrite E. cbn [app]. destruct (same_tree_run ks _ _ S) as (_ & -> & S2).
    destruct (IH _ _ I) as [I2 O2]. split.
    + destruct S2 as (R & C & O3). destruct I2. constructor; rewrite ?R, ?C; assumption.
    + destruct S2 as (R & C & O3). congruence.
Qed.

Lemma run_new opts ks :
  inv (after (builder_new opts) ks) (accepted (builder_new opts) ks) /\ b_opts (after (builder_new opts) ks) = opts.
Proof. destruct (run_inv ks _ _ (inv_new opts)) as [I O]. split; [exact I|rewrite O; reflexivity]. Qed.

Lemma after_app b ks ks2 : after b (ks ++ ks2) = after (after b ks) ks2.
Proof. revert b. induction ks as [|k ks IH]; intros b; [reflexivity|apply IH]. Qed.
Lemma returns_app b ks ks2 : returns b (ks ++ ks2) = returns b ks ++ returns (after b ks) ks2.
Proof. revert b. induction ks as [|k ks IH]; intros b; [reflexivity|]. cbn. rewrite IH. reflexivity. Qed.
Lemma accepted_app b ks ks2 : accepted b (ks ++ ks2) = accepted b ks ++ accepted (after b ks) ks2.
Proof. revert b. induction ks as [|k ks IH]; intros b; [reflexivity|]. cbn. rewrite IH, app_assoc. reflexivity. Qed.

Lemma refusal_excl wrap H k e : refusal wrap H k e -> ~ acceptable wrap H k.
Proof.
  unfold refusal, acceptable. intros R ((E & Re & Ro) & names & S & RF & T & X).
  destruct R as [[? _]|[(_ & ? & _)|[(_ & _ & ? & _)|(_ & names' & S' & R)]]]; [tauto..|].
  rewrite (segments_fun _ _ _ S' S) in R. destruct R as [[? _]|[(_ & ? & _)|(_ & _ & R)]]; [tauto..|].
  destruct k; tauto.
Qed.
Lemma refusal_fun wrap H k e e' : refusal wrap H k e -> refusal wrap H k e' -> e = e'.
Proof.
  unfold refusal. set (p := call_path k).
  intros [[A ->]|[(A & B & ->)|[(A & B & C & ->)|((A & B & C) & names & S & R)]]]
         [[A' ->]|[(A' & B' & ->)|[(A' & B' & C' & ->)|((A' & B' & C') & names' & S' & R')]]]; try tauto; try reflexivity.
  rewrite (segments_fun _ _ _ S' S) in R'. clear -R R'. destruct k; intuition congruence.
Qed.
