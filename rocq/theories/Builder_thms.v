(** * Builder_thms: the iteration in terms of the history of the builder *)
From Coq Require Import Sorting.Sorted Sorting.Permutation.
From Verif Require Import Base Tac Wire Utf8 Cid Pb Reader Builder SpecBuilder Paths_proofs Codec_proofs Builder_proofs Builder_iter.

(** ** The order of the directories *)
Fixpoint paths (ps : list bytes) (t : tree) : list (list bytes) :=
  match t with
  | Leaf _ _ => []
  | Dir es => concat (rev (map (fun e => paths (ps ++ [fst e]) (snd e)) es)) ++ [ps]
  end.
Definition all_paths (wrap : bool) (t : tree) : list (list bytes) :=
  match t with
  | Leaf _ _ => []
  | Dir es => concat (rev (map (fun e => paths [fst e] (snd e)) es)) ++ (if wrap then [[]] else [])
  end.

Lemma subtree_app t p q : subtree t (p ++ q) = match subtree t p with Some u => subtree u q | None => None end.
Proof.
  revert t. induction p as [|n p IH]; intros t; [reflexivity|]. cbn. destruct t as [|es]; [reflexivity|].
  destruct (find_name n es); [apply IH|reflexivity].
Qed.

Lemma in_concat_rev {A B} (f : A -> list B) es x : In x (concat (rev (map f es))) <-> exists e, In e es /\ In x (f e).
Proof.
  rewrite in_concat. split.
  - intros (l & I & Ix). rewrite <- in_rev, in_map_iff in I. destruct I as (e & <- & I). eauto.
  - intros (e & I & Ix). exists (f e). rewrite <- in_rev. split; [apply in_map, I|exact Ix].
Qed.

Lemma paths_in t : forall ps q, ordered t -> (In q (paths ps t) <-> exists r, q = ps ++ r /\ is_dir t r).
Proof.
  induction t as [c s|es IH] using tree_ind'; intros ps q O.
  - cbn. split; [intros []|]. intros (r & _ & (es & E)). destruct r; discriminate.
  - pose proof (O [] es eq_refl) as S. cbn [paths]. rewrite in_app_iff, in_concat_rev. cbn [In]. split.
    + intros [((n & t) & I & Iq)|[<-|[]]].
      * cbn [fst snd] in Iq. pose proof (find_sorted n es t S I) as F.
        apply (IH n t I) in Iq; [|apply (ordered_sub es n t O F)]. destruct Iq as (r & -> & (es' & D)).
        exists (n :: r). rewrite <- app_assoc. split; [reflexivity|]. exists es'. cbn. rewrite F. exact D.
      * exists []. rewrite app_nil_r. split; [reflexivity|]. exists es. reflexivity.
    + intros (r & -> & (es' & D)). destruct r as [|n r]; [right; left; rewrite app_nil_r; reflexivity|].
      cbn in D. destruct (find_name n es) as [t|] eqn:F; [|discriminate]. left.
      exists (n, t). split; [apply find_in, F|]. cbn [fst snd].
      apply (IH n t (find_in _ _ _ F)); [apply (ordered_sub es n t O F)|]. exists r. rewrite <- app_assoc. split; [reflexivity|]. exists es'. exact D.
Qed.

(** later paths do not start with earlier ones *)
Definition not_prefix (a b : list bytes) : Prop := forall q, b <> a ++ q.

Lemma fop_app {A} (R : A -> A -> Prop) a b :
  ForallOrdPairs R a -> ForallOrdPairs R b -> (forall x y, In x a -> In y b -> R x y) -> ForallOrdPairs R (a ++ b).
Proof.
  intros FA FB H. induction FA as [|x a Fx FA IH]; [exact FB|]. cbn [app]. constructor.
  - apply Forall_app. split; [exact Fx|]. apply Forall_forall. intros y I. apply H; [left; reflexivity|exact I].
  - apply IH. intros y z Iy Iz. apply H; [right; exact Iy|exact Iz].
Qed.

Lemma concat_rev_cons {A B} (f : A -> list B) e es : concat (rev (map f (e :: es))) = concat (rev (map f es)) ++ f e.
Proof. cbn [map rev]. rewrite concat_app. cbn [concat]. rewrite app_nil_r. reflexivity. Qed.

Lemma entries_ordered ps es :
  sorted_entries es -> (forall n t, In (n, t) es -> ordered t) ->
  (forall n t, In (n, t) es -> forall ps, ForallOrdPairs not_prefix (paths ps t)) ->
  ForallOrdPairs not_prefix (concat (rev (map (fun e => paths (ps ++ [fst e]) (snd e)) es))).
Proof.
  intros S O H. induction S as [|[n t] es S IH F]; [constructor|]. rewrite concat_rev_cons. apply fop_app.
  - apply IH; intros; [eapply O|eapply H]; right; eassumption.
  - apply (H n). left. reflexivity.
  - intros x y Ix Iy q E. cbn [fst snd] in Iy. apply in_concat_rev in Ix as ([m u] & Im & Ix). cbn [fst snd] in Ix.
    apply paths_in in Ix as (r1 & -> & _); [|apply (O m); right; exact Im].
    apply paths_in in Iy as (r2 & -> & _); [|apply (O n); left; reflexivity].
    rewrite <- !app_assoc in E. apply app_inv_head in E. cbn in E. injection E as <- _.
    rewrite Forall_forall in F. specialize (F _ Im). apply (name_lt_irrefl _ F).
Qed.

Lemma ordered_entry es n t : ordered (Dir es) -> In (n, t) es -> ordered t.
Proof. intros O I. apply (ordered_sub es n t O). apply find_sorted; [apply (O []); reflexivity|exact I]. Qed.

Lemma paths_ordered t : ordered t -> forall ps, ForallOrdPairs not_prefix (paths ps t).
Proof.
  induction t as [c s|es IH] using tree_ind'; intros O ps; [constructor|]. cbn [paths]. apply fop_app.
  - apply entries_ordered; [apply (O []); reflexivity|intros; eapply ordered_entry; eassumption|].
    intros n t I. apply (IH n t I). eapply ordered_entry; eassumption.
  - repeat constructor.
  - intros x y Ix [<-|[]] q E. apply in_concat_rev in Ix as ([m u] & Im & Ix). cbn [fst snd] in Ix.
    apply paths_in in Ix as (r1 & -> & _); [|eapply ordered_entry; eassumption].
    rewrite <- !app_assoc in E. apply (app_self _ _ _ E).
Qed.

Lemma fop_nth {A} (R : A -> A -> Prop) l : ForallOrdPairs R l ->
  forall i j x y, (i < j)%nat -> nth_error l i = Some x -> nth_error l j = Some y -> R x y.
Proof.
  induction 1 as [|a l F P IH]; intros i j x y L Hi Hj; [destruct i; discriminate|].
  destruct j as [|j]; [lia|]. cbn in Hj. destruct i as [|i].
  - injection Hi as ->. rewrite Forall_forall in F. apply F. eapply nth_error_In; eassumption.
  - apply (IH i j); [lia|assumption..].
Qed.
Lemma fop_nodup {A} (R : A -> A -> Prop) l : (forall x, ~ R x x) -> ForallOrdPairs R l -> NoDup l.
Proof.
  intros N. induction 1 as [|a l F P IH]; constructor; [|exact IH].
  intros I. rewrite Forall_forall in F. apply (N a), F, I.
Qed.

Lemma all_paths_order wrap es : ordered (Dir es) -> post_order_of (Dir es) wrap (all_paths wrap (Dir es)).
Proof.
  intros O. assert (FP : ForallOrdPairs not_prefix (all_paths wrap (Dir es))).
  { cbn [all_paths]. apply fop_app.
    - apply (entries_ordered []); [apply (O []); reflexivity|intros; eapply ordered_entry; eassumption|].
      intros n t I. apply paths_ordered. eapply ordered_entry; eassumption.
    - destruct wrap; repeat constructor.
    - intros x y Ix Iy. destruct wrap; [|destruct Iy]. destruct Iy as [<-|[]]. intros q E.
      apply in_concat_rev in Ix as ([m u] & Im & Ix). cbn [fst snd] in Ix.
      apply paths_in in Ix as (r1 & -> & _); [|eapply ordered_entry; eassumption]. discriminate. }
  split; [|split].
  - eapply fop_nodup; [|exact FP]. intros x H. apply (H []). rewrite app_nil_r. reflexivity.
  - intros q. cbn [all_paths]. rewrite in_app_iff, in_concat_rev. split.
    + intros [((n & t) & I & Iq)|I].
      * cbn [fst snd] in Iq. apply paths_in in Iq as (r & -> & (es' & D)); [|eapply ordered_entry; eassumption].
        split; [|right; discriminate]. exists es'. cbn. rewrite (find_sorted n es t); [exact D|apply (O []); reflexivity|exact I].
      * destruct wrap; [|destruct I]. destruct I as [<-|[]]. split; [exists es; reflexivity|auto].
    + intros ((es' & D) & W). destruct q as [|n r].
      * right. destruct W as [->|W]; [left; reflexivity|congruence].
      * left. cbn in D. destruct (find_name n es) as [t|] eqn:F; [|discriminate]. exists (n, t). split; [apply find_in, F|].
        cbn [fst snd]. apply paths_in; [apply (ordered_sub es n t O F)|]. exists r. split; [reflexivity|]. exists es'. exact D.
  - intros i j p q Hi Hj NE. destruct (Nat.lt_ge_cases i j) as [L|L]; [exact L|exfalso].
    destruct (Nat.eq_dec i j) as [->|N].
    + rewrite Hi in Hj. injection Hj as E. destruct q; [congruence|]. symmetry in E. apply (app_self _ _ _ E).
    + apply (fop_nth _ _ FP j i p (p ++ q)) with (q := q); [lia|assumption|assumption|reflexivity].
Qed.

Section iter.
Context (X : ext).

Lemma rlist_paths limit T t : forall ps, ordered t -> subtree T ps = Some t ->
  rlist X limit ps t = map (rendered_at X limit T) (paths ps t).
Proof.
  induction t as [c s|es IH] using tree_ind'; intros ps O HT; [reflexivity|].
  cbn [rlist paths]. rewrite map_app. cbn [map]. unfold rendered_at at 2. rewrite HT. f_equal.
  rewrite concat_map, map_rev, map_map. do 2 f_equal. apply map_ext_in. intros [n t] I. cbn [fst snd].
  apply (IH n t I); [eapply ordered_entry; eassumption|]. rewrite subtree_app, HT. cbn.
  rewrite (find_sorted n es t); [reflexivity|apply (O []); reflexivity|exact I].
Qed.

Lemma whole_paths opts es : ordered (Dir es) ->
  whole X opts (Dir es) = map (rendered_at X (block_size_limit opts) (Dir es)) (all_paths (wrap_with_directory opts) (Dir es)).
Proof.
  intros O. cbn [whole all_paths]. rewrite map_app. f_equal.
  - rewrite concat_map, map_rev, map_map. do 2 f_equal. apply map_ext_in. intros [n t] I. cbn [fst snd].
    apply rlist_paths; [eapply ordered_entry; eassumption|]. cbn.
    rewrite (find_sorted n es t); [reflexivity|apply (O []); reflexivity|exact I].
  - destruct (wrap_with_directory opts); reflexivity.
Qed.

Lemma until_more {A} (l : list (outcome construct_error A)) x n k :
  firstn n (until_panic (l ++ repeat x (n + k))) = firstn n (until_panic (l ++ repeat x n)).
Proof.
  rewrite repeat_app, app_assoc. set (m := l ++ repeat x n).
  assert (L : (n <= length m)%nat) by (unfold m; rewrite app_length, repeat_length; lia).
  clearbody m. revert n L. induction m as [|y m IH]; intros n L; [cbn in L; replace n with O by lia; reflexivity|].
  destruct n as [|n]; [reflexivity|]. cbn in L. destruct y; cbn; f_equal; apply IH; lia.
Qed.

Lemma iterate opts ks t :
  holds t (accepted (builder_new opts) ks) ->
  exists order, post_order_of t (wrap_with_directory opts) order
    /\ forall n, results X n (build (after (builder_new opts) ks))
                 = firstn n (until_panic (map (rendered_at X (block_size_limit opts) t) order ++ repeat (Ok None) n)).
Proof.
  intros Ht. destruct (run_new opts ks) as [I O]. set (b := after (builder_new opts) ks) in *.
  rewrite (holds_unique _ _ _ Ht (inv_holds _ _ I)). clear t Ht.
  pose proof (good_ordered _ (inv_good _ _ I)) as Ord.
  destruct (root_runs X (b_root b) opts (inv_good _ _ I) (inv_nodup _ _ I)) as (o & R & Fin).
  rewrite erase_eq in *. set (es := map _ (d_nodes (b_root b))) in *.
  exists (all_paths (wrap_with_directory opts) (Dir es)). split; [apply all_paths_order, Ord|].
  intros n. unfold build. rewrite O, (results_runs X _ _ _ R Fin), (whole_paths opts es Ord).
  destruct (wrap_with_directory opts); [rewrite app_nil_r; reflexivity|].
  rewrite <- app_assoc. change ([Ok None] ++ repeat (Ok None) n) with (repeat (@Ok construct_error (option tree_node) None) (1 + n)).
  rewrite Nat.add_comm. apply until_more.
Qed.
End iter.
