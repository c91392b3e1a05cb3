(** * Trust_proofs: stores checked against the Cids agree. *)
From Verif Require Import Base Tac Wire Utf8 Cid Pb Reader Visit Dir Walk SpecFile SpecDir SpecWalk SpecTrust
  Visit_proofs Walk_sim.

Section trust.
Context (X : ext).
Notation bytes := (list byte).

Definition included (g h : cid -> option bytes) : Prop := forall c b, g c = Some b -> h c = Some b.
Definition merge (g h : cid -> option bytes) (c : cid) : option bytes :=
  match g c with Some b => Some b | None => h c end.

Lemma merge_l g h : included g (merge g h).
Proof. intros c b H. unfold merge. rewrite H. reflexivity. Qed.
Lemma merge_r g h : checked X g -> checked X h -> no_collision X g h -> included h (merge g h).
Proof.
  intros Cg Ch N c b H. unfold merge. destruct (g c) as [b'|] eqn:E; [|exact H].
  f_equal. apply (N c c b' b E H). destruct (Cg _ _ E) as [_ <-], (Ch _ _ H) as [_ <-]. reflexivity.
Qed.

Lemma dag_mono g h : included g h ->
  (forall f c, file_dag X g f c -> file_dag X h f c) /\ (forall ls cs, file_dags X g ls cs -> file_dags X h ls cs).
Proof.
  intros I. apply dag_dags_ind; intros; [apply dag_leaf|apply dag_node|apply dags_nil|eapply dags_cons]; eauto.
Qed.
Lemma stored_mono g h : included g h ->
  (forall c n, stored X g c n -> stored X h c n)
  /\ (forall ls es, stored_entries X g ls es -> stored_entries X h ls es)
  /\ (forall ls its, stored_items X g ls its -> stored_items X h ls its).
Proof.
  intros I. apply stored_mutind; intros.
  - eapply stored_file; eauto. apply (dag_mono g h I). assumption.
  - eapply stored_symlink; eauto.
  - eapply stored_dir; eauto.
  - eapply stored_shard; eauto.
  - constructor.
  - econstructor; eauto.
  - constructor.
  - eapply items_entry; eauto.
  - eapply items_bucket; eauto.
Qed.
Scheme shard_links_mind := Minimality for shard_links Sort Prop.
Lemma shard_mono g h : included g h -> forall ls its, shard_links X g ls its -> shard_links X h ls its.
Proof.
  intros I. apply shard_links_mind; intros; [constructor|eapply shard_entry; eauto|eapply shard_bucket; eauto].
Qed.
Lemma sharded_mono g h block its : included g h -> sharded X g block its -> sharded X h block its.
Proof. intros I (f & P & S & L). exists f. split; [exact P|]. split; [exact S|]. exact (shard_mono g h I _ _ L). Qed.

(** operations over a smaller store are operations over a larger one *)
Lemma continues_mono g h v bs asked out ov : included g h ->
  continues X (store g) v bs asked out ov -> continues X (store h) v bs asked out ov.
Proof.
  intros I. induction 1; [constructor|eapply cont_next|eapply cont_last]; eauto; apply I; assumption.
Qed.
Lemma visit_mono g h t bs asked out ov : included g h ->
  visit X (store g) t bs asked out ov -> visit X (store h) t bs asked out ov.
Proof.
  intros I H. inversion H; subst; [eapply visit_single|eapply visit_multi]; eauto. eapply continues_mono; eassumption.
Qed.
Lemma walks_mono g h w bs asked items w' : included g h ->
  walks X (store g) w bs asked items w' -> walks X (store h) w bs asked items w'.
Proof.
  intros I. induction 1; [constructor|eapply walks_next]; eauto. apply I. assumption.
Qed.
Lemma walk_from_mono g h root name items w : included g h ->
  walk_from X g root name items w -> walk_from X h root name items w.
Proof. intros I (bs & asked & H). exists bs, asked. eapply walks_mono; eassumption. Qed.
Lemma lookup_mono g h v asked r : included g h ->
  continues_lookup X g v asked r -> continues_lookup X h v asked r.
Proof. intros I. induction 1; [eapply look_last|eapply look_more]; eauto. Qed.
Lemma looks_mono g h block needle asked r : included g h ->
  looks_up X g block needle asked r -> looks_up X h block needle asked r.
Proof.
  intros I H. inversion H; subst; [eapply looks_once|eapply looks_more]; eauto. eapply lookup_mono; eassumption.
Qed.

(** a visit that stopped early returned the beginning of what a full one returns *)
Lemma continues_prefix get v bs1 as1 out1 ov1 : continues X (store get) v bs1 as1 out1 ov1 ->
  forall bs2 as2 out2, continues X (store get) v bs2 as2 out2 None ->
  exists rest, out2 = out1 ++ rest /\ (ov1 = None -> rest = []).
Proof.
  induction 1 as [v|v c o b k k' out v' bs asked o2 ov Hp Hg Hc H1 IH|v c o b k k' out Hp Hg Hc]; intros bs2 as2 out2 H2.
  - exists out2. split; [reflexivity|discriminate].
  - inversion H2 as [|v0 c0 o0 b0 k0 k0' out0 v0' bs0 asked0 o20 ov0 Hp0 Hg0 Hc0 H0|v0 c0 o0 b0 k0 k0' out0 Hp0 Hg0 Hc0]; subst;
      rewrite Hp in Hp0; injection Hp0 as <- <-; unfold store in *; rewrite Hg in Hg0; injection Hg0 as <-;
      pose proof (Visit_proofs.continue_cache X v b k k0) as E; rewrite Hc, Hc0 in E; cbn in E; injection E as -> Ev; [|discriminate].
    subst v0'. destruct (IH _ _ _ H0) as (rest & -> & R). exists rest. rewrite app_assoc. auto.
  - inversion H2 as [|v0 c0 o0 b0 k0 k0' out0 v0' bs0 asked0 o20 ov0 Hp0 Hg0 Hc0 H0|v0 c0 o0 b0 k0 k0' out0 Hp0 Hg0 Hc0]; subst;
      rewrite Hp in Hp0; injection Hp0 as <- <-; unfold store in *; rewrite Hg in Hg0; injection Hg0 as <-;
      pose proof (Visit_proofs.continue_cache X v b k k0) as E; rewrite Hc, Hc0 in E; cbn in E; injection E as Ev; [discriminate|].
    subst. exists []. rewrite app_nil_r. auto.
Qed.
Lemma visit_prefix get t root bs asked out ov full :
  visit X (store get) t (root :: bs) asked out ov -> reads X get t root full ->
  exists rest, full = out ++ rest /\ (ov = None -> rest = []).
Proof.
  intros H1 (bs2 & as2 & H2).
  inversion H1 as [r0 o1 s1 m1 S1|r0 o1 s1 m1 v1 b1 a1 oo1 ov1 S1 C1]; subst;
    inversion H2 as [r0 o2 s2 m2 S2|r0 o2 s2 m2 v2 b2 a2 oo2 ov2 S2 C2]; subst; rewrite S1 in S2; try discriminate.
  - exists []. rewrite app_nil_r. injection S2; auto.
  - injection S2 as -> -> -> ->. destruct (continues_prefix _ _ _ _ _ _ C1 _ _ _ C2) as (rest & -> & R).
    exists rest. rewrite app_assoc. auto.
Qed.

(** a store holds at most one tree under a Cid *)
Lemma dag_fun get :
  (forall f c, file_dag X get f c -> forall c', file_dag X get f c' -> c = c')
  /\ (forall ls cs, file_dags X get ls cs -> forall cs', file_dags X get ls cs' -> cs = cs').
Proof.
  apply dag_dags_ind.
  - intros f _ El _ _ c' H. inversion H; subst; [reflexivity|congruence].
  - intros f cs _ El _ _ _ IH c' H. inversion H; subst; [congruence|]. f_equal. apply IH. assumption.
  - intros cs' H. inversion H. reflexivity.
  - intros l c b f d ls ds C G P _ _ IH1 _ IH2 cs' H. inversion H; subst.
    match goal with A : link_cid X l = Some ?c2, B : get ?c2 = Some ?b2, D : try_parse _ ?b2 = Ok ?f2 |- _ =>
      rewrite C in A; injection A as <-; rewrite G in B; injection B as <-; rewrite P in D; injection D as <- end.
    f_equal; [apply IH1|apply IH2]; assumption.
Qed.

Lemma dag_type get f c : file_dag X get f c -> u_type (f_data f) = File \/ u_type (f_data f) = Raw.
Proof. intros H. inversion H as [? P|? ? P]; subst; apply P. Qed.

Lemma stored_fun get :
  (forall c n, stored X get c n -> forall n', stored X get c n' -> n = n')
  /\ (forall ls es, stored_entries X get ls es -> forall es', stored_entries X get ls es' -> es = es')
  /\ (forall ls its, stored_items X get ls its -> forall its', stored_items X get ls its' -> its = its').
Proof.
  assert (D : forall c b f b' f', get c = Some b -> get c = Some b' -> try_parse (ext_dbg X) b = Ok f -> try_parse (ext_dbg X) b' = Ok f' -> f' = f) by (intros; congruence).
  apply stored_mutind.
  - intros c b f content G P F _ n' H. pose proof (dag_type _ _ _ F) as T.
    inversion H as [c2 b2 f2 co2 G2 P2 F2|c2 b2 f2 G2 P2 S2|c2 b2 f2 es2 G2 P2 S2 E2|c2 b2 f2 es2 G2 P2 S2 E2]; subst; assert (f2 = f) by eauto; subst f2.
    + f_equal. eapply dag_fun; eassumption.
    + destruct T; congruence.
    + destruct S2 as [S2 _], T; congruence.
    + destruct S2 as [S2 _], T; congruence.
  - intros c b f G P T n' H.
    inversion H as [c2 b2 f2 co2 G2 P2 F2|c2 b2 f2 G2 P2 S2|c2 b2 f2 es2 G2 P2 S2 E2|c2 b2 f2 es2 G2 P2 S2 E2]; subst; assert (f2 = f) by eauto; subst f2.
    + pose proof (dag_type _ _ _ F2) as []; congruence.
    + reflexivity.
    + destruct S2; congruence.
    + destruct S2; congruence.
  - intros c b f es G P T E IH n' H.
    inversion H as [c2 b2 f2 co2 G2 P2 F2|c2 b2 f2 G2 P2 S2|c2 b2 f2 es2 G2 P2 S2 E2|c2 b2 f2 es2 G2 P2 S2 E2]; subst; assert (f2 = f) by eauto; subst f2; destruct T as [T _].
    + pose proof (dag_type _ _ _ F2) as []; congruence.
    + congruence.
    + f_equal. apply IH. assumption.
    + destruct S2; congruence.
  - intros c b f es G P T E IH n' H.
    inversion H as [c2 b2 f2 co2 G2 P2 F2|c2 b2 f2 G2 P2 S2|c2 b2 f2 es2 G2 P2 S2 E2|c2 b2 f2 es2 G2 P2 S2 E2]; subst; assert (f2 = f) by eauto; subst f2; destruct T as [T _].
    + pose proof (dag_type _ _ _ F2) as []; congruence.
    + congruence.
    + destruct S2; congruence.
    + f_equal. apply IH. assumption.
  - intros es' H. inversion H. reflexivity.
  - intros l name c n ls es N _ C _ IH1 _ IH2 es' H. inversion H; subst.
    match goal with A : link_cid X l = Some ?c2, B : l_name l = Some ?n2 |- _ =>
      rewrite C in A; injection A as <-; rewrite N in B; injection B as <- end.
    f_equal; [f_equal|]; auto.
  - intros its' H. inversion H. reflexivity.
  - intros l prefix name c n ls its N Lp Pn _ C _ IH1 _ IH2 its' H.
    inversion H as [|l2 p2 n2 c2 m2 ls2 its2 N2 Lp2 Pn2 _ C2 S2 I2|l2 p2 c2 b2 f2 sub2 ls2 its2 N2 Lp2 C2 G2 P2 S2 I2 J2]; subst; rewrite C in C2; injection C2 as <-; rewrite N in N2; injection N2 as N2.
    + assert (prefix = p2 /\ name = n2) as [-> ->].
      { destruct prefix as [|a [|b [|? ?]]], p2 as [|a' [|b' [|? ?]]]; try discriminate. cbn [app] in N2. injection N2; intros; subst; auto. }
      f_equal; [f_equal|]; auto.
    + exfalso. subst p2. rewrite app_length in Lp2. destruct Pn as [Pn _]. destruct name; [congruence|cbn [length] in Lp2; lia].
  - intros l prefix c b f sub ls its N Lp C G P _ _ IH1 _ IH2 its' H.
    inversion H as [|l2 p2 n2 c2 m2 ls2 its2 N2 Lp2 Pn2 _ C2 S2 I2|l2 p2 c2 b2 f2 sub2 ls2 its2 N2 Lp2 C2 G2 P2 S2 I2 J2]; subst; rewrite C in C2; injection C2 as <-; rewrite N in N2; injection N2 as N2.
    + exfalso. subst prefix. rewrite app_length in Lp. destruct Pn2 as [Pn _]. destruct n2; [congruence|cbn [length] in Lp; lia].
    + assert (f2 = f) by eauto. subst f2. f_equal; [f_equal|]; auto.
Qed.

(** ** Stores made of lists *)
Definition from_list (bs : list (cid * bytes)) (c : cid) : option bytes :=
  option_map snd (find (fun x => cid_eqb (fst x) c) bs).
Lemma cid_eqb_eq c c' : cid_eqb c c' = true <-> c = c'.
Proof.
  destruct c as [v k h d], c' as [v' k' h' d']. unfold cid_eqb. cbn [cid_v1 cid_codec cid_code cid_digest].
  rewrite !Bool.andb_true_iff, Bool.eqb_true_iff, !N.eqb_eq, bytes_eqb_eq. split; [intros [[[-> ->] ->] ->]; reflexivity|intros H; injection H; auto].
Qed.
Lemma from_list_in bs c b : from_list bs c = Some b -> In (c, b) bs.
Proof.
  unfold from_list. destruct (find _ bs) as [[c' b']|] eqn:F; [|discriminate]. intros H. injection H as ->.
  apply find_some in F as [I E]. cbn [fst] in E. apply cid_eqb_eq in E as ->. exact I.
Qed.
Lemma from_list_find bs c b : In (c, b) bs ->
  (forall c' b', In (c', b') bs -> c' = c -> b' = b) -> from_list bs c = Some b.
Proof.
  intros I U. unfold from_list. destruct (find _ bs) as [[c' b']|] eqn:F.
  - apply find_some in F as [I' E]. cbn [fst] in E. apply cid_eqb_eq in E as ->. cbn. f_equal. exact (U _ _ I' eq_refl).
  - exfalso. apply find_none with (x := (c, b)) in F; [|exact I]. cbn [fst] in F.
    rewrite (proj2 (cid_eqb_eq c c) eq_refl) in F. discriminate.
Qed.
End trust.
