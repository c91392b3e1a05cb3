(** * Listing_proofs: the lines of a listing are those of what paths lead to *)
From Verif Require Import Base Tac Wire Utf8 Cid Pb Reader Visit Dir Builder Walk Adder SpecAdder SpecFile SpecDir SpecBuilder SpecWalk
  Built_proofs Walk_sim Programs SpecPrograms.

Section ind.
Context (P : fsnode -> Prop) (Q : shard_item -> Prop)
  (HF : forall md x, P (FsFile md x)) (HS : forall md x, P (FsSymlink md x))
  (HD : forall md es, Forall (fun e => P (snd e)) es -> P (FsDir md es))
  (HH : forall md its, Forall Q its -> P (FsShard md its))
  (HE : forall name c n, P n -> Q (ShEntry name c n))
  (HB : forall c its, Forall Q its -> Q (ShBucket c its)).
Fixpoint fsnode_ind' (n : fsnode) : P n :=
  match n with
  | FsFile md x => HF md x
  | FsSymlink md x => HS md x
  | FsDir md es => HD md es ((fix go (es : list (bytes * cid * fsnode)) : Forall (fun e => P (snd e)) es :=
      match es with [] => Forall_nil _ | e :: es => Forall_cons e (fsnode_ind' (snd e)) (go es) end) es)
  | FsShard md its => HH md its ((fix go (its : list shard_item) : Forall Q its :=
      match its with [] => Forall_nil _ | it :: its => Forall_cons it (item_ind' it) (go its) end) its)
  end
with item_ind' (it : shard_item) : Q it :=
  match it with
  | ShEntry name c n => HE name c n (fsnode_ind' n)
  | ShBucket c its => HB c its ((fix go (its : list shard_item) : Forall Q its :=
      match its with [] => Forall_nil _ | it :: its => Forall_cons it (item_ind' it) (go its) end) its)
  end.
End ind.

(** a listing is the line of the node, and then those of what is below *)
Lemma items_listing path its :
  flat_map (item_listing path) its = flat_map (fun e => listing (child path (fst (fst e))) (snd e)) (flat_map item_entries its).
Proof.
  assert (Fl : forall it, item_listing path it = flat_map (fun e => listing (child path (fst (fst e))) (snd e)) (item_entries it)).
  { clear its. intros it. apply (item_ind' (fun _ => True) (fun it => item_listing path it = flat_map (fun e => listing (child path (fst (fst e))) (snd e)) (item_entries it))); auto.
    - intros name c n _. cbn. rewrite app_nil_r. reflexivity.
    - intros c its F. cbn [item_listing item_entries]. induction F as [|it' its E F IH]; [reflexivity|]. cbn [flat_map]. rewrite flat_map_app, E, IH. reflexivity. }
  induction its as [|it its IH]; [reflexivity|]. cbn [flat_map]. rewrite flat_map_app, Fl, IH. reflexivity.
Qed.
Lemma listing_step path n : listing path n = line_of path n :: match below_node n with
  | Some es => flat_map (fun e => listing (child path (fst (fst e))) (snd e)) es | None => [] end.
Proof. destruct n as [md x|md x|md es|md its]; try reflexivity. cbn [listing below_node line_of]. rewrite items_listing. reflexivity. Qed.

Lemma listing_leads c n names c' n' : leads_to c n names c' n' -> forall path, In (line_of (fold_left child names path) n') (listing path n).
Proof.
  induction 1 as [c n|c n es name c1 n1 rest c' n' B I L IH]; intros path; rewrite listing_step.
  - left. reflexivity.
  - right. rewrite B. apply in_flat_map. exists (name, c1, n1). split; [exact I|]. cbn [fst snd fold_left]. apply IH.
Qed.
Lemma listing_from n : forall c path l, In l (listing path n) -> exists names c' n', leads_to c n names c' n' /\ l = line_of (fold_left child names path) n'.
Proof.
  assert (G : forall n, (forall es name c' n', below_node n = Some es -> In (name, c', n') es ->
      forall c path l, In l (listing path n') -> exists names c2 n2, leads_to c n' names c2 n2 /\ l = line_of (fold_left child names path) n2) ->
    forall c path l, In l (listing path n) -> exists names c' n', leads_to c n names c' n' /\ l = line_of (fold_left child names path) n').
  { intros m Sub c path l I. rewrite listing_step in I. destruct I as [<-|I]; [exists [], c, m; split; [constructor|reflexivity]|].
    destruct (below_node m) as [es|] eqn:B; [|destruct I]. apply in_flat_map in I as ([[name c1] n1] & J & I). cbn [fst snd] in I.
    destruct (Sub es name c1 n1 eq_refl J c1 _ _ I) as (names & c2 & n2 & L & E). exists (name :: names), c2, n2. split; [|exact E].
    eapply leads_below; eassumption. }
  apply (fsnode_ind' (fun n => forall c path l, In l (listing path n) -> exists names c' n', leads_to c n names c' n' /\ l = line_of (fold_left child names path) n')
    (fun it => forall name c' n', In (name, c', n') (item_entries it) -> forall c path l, In l (listing path n') ->
       exists names c2 n2, leads_to c n' names c2 n2 /\ l = line_of (fold_left child names path) n2)).
  - intros md x. apply G. discriminate.
  - intros md x. apply G. discriminate.
  - intros md es F. apply G. intros es' name c' n' [= <-] I. rewrite Forall_forall in F. exact (F _ I).
  - intros md its F. apply G. intros es' name c' n' [= <-] I. apply in_flat_map in I as (it & J & I). rewrite Forall_forall in F. exact (F it J _ _ _ I).
  - intros name c m IH name' c' n' [E|[]]. injection E as <- <- <-. exact IH.
  - intros c its F name c' n' I. cbn [item_entries] in I. apply in_flat_map in I as (it & J & I). rewrite Forall_forall in F. exact (F it J _ _ _ I).
Qed.

(** paths of plain names *)
Lemma fold_child names : forall base, Forall loose_name (base ++ names) -> fold_left child names (join base) = join (base ++ names).
Proof.
  induction names as [|n names IH]; intros base F; [rewrite app_nil_r; reflexivity|]. cbn [fold_left].
  assert (F' : Forall loose_name ((base ++ [n]) ++ names)) by (rewrite <- app_assoc; exact F).
  rewrite child_join by (apply Forall_app in F as [F _]; exact F). rewrite (IH _ F'), <- app_assoc. reflexivity.
Qed.
(** those of a stored tree are *)
Lemma items_loose X get : (forall c n, stored X get c n -> forall es, below_node n = Some es ->
     Forall (fun e => loose_name (fst (fst e)) /\ stored X get (snd (fst e)) (snd e)) es)
  /\ (forall ls es, stored_entries X get ls es -> Forall (fun e => loose_name (fst (fst e)) /\ stored X get (snd (fst e)) (snd e)) es)
  /\ (forall ls its, stored_items X get ls its -> Forall (fun e => loose_name (fst (fst e)) /\ stored X get (snd (fst e)) (snd e)) (flat_map item_entries its)).
Proof.
  apply stored_mutind; intros; try discriminate; try (constructor; fail).
  - match goal with H : below_node _ = Some _ |- _ => injection H as <- end. assumption.
  - match goal with H : below_node _ = Some _ |- _ => injection H as <- end. assumption.
  - constructor; [split; assumption|assumption].
  - cbn [flat_map item_entries app]. constructor; [split; assumption|assumption].
  - cbn [flat_map item_entries]. apply Forall_app. split; assumption.
Qed.
Lemma leads_loose X get c n names c' n' : leads_to c n names c' n' -> stored X get c n -> Forall loose_name names /\ stored X get c' n'.
Proof.
  induction 1 as [c n|c n es name c1 n1 rest c' n' B I L IH]; intros S; [auto|].
  pose proof (proj1 (items_loose X get) c n S es B) as F. rewrite Forall_forall in F. destruct (F _ I) as [Pn Sn]. cbn [fst snd] in Pn, Sn.
  destruct (IH Sn). auto.
Qed.
Lemma listing_members X get c n l : stored X get c n ->
  (In l (listing [] n) <-> exists names c' n', leads_to c n names c' n' /\ l = line_of (join names) n').
Proof.
  intros S. split.
  - intros I. destruct (listing_from n c [] l I) as (names & c' & n' & L & E). exists names, c', n'. split; [exact L|].
    pose proof (proj1 (leads_loose X get _ _ _ _ _ L S)) as F. rewrite E. apply (f_equal (fun p => line_of p n')). exact (fold_child names [] F).
  - intros (names & c' & n' & L & ->). pose proof (listing_leads _ _ _ _ _ L []) as I.
    pose proof (proj1 (leads_loose X get _ _ _ _ _ L S)) as F. rewrite (fold_child names [] F : fold_left child names [] = join names) in I. exact I.
Qed.

(** *** No path twice *)
Definition ways_of (c : cid) (n : fsnode) (ws : list (list bytes)) : Prop :=
  NoDup ws /\ (forall w, In w ws -> exists c' n', leads_to c n w c' n')
  /\ forall path, map line_path (listing path n) = map (fun w => fold_left child w path) ws.
Lemma line_of_path path n : line_path (line_of path n) = path.
Proof. destruct n; reflexivity. Qed.
Lemma nodup_map {A B} (f : A -> B) l : (forall x y, In x l -> In y l -> f x = f y -> x = y) -> NoDup l -> NoDup (map f l).
Proof.
  intros F N. induction N as [|x l I N IH]; [constructor|]. cbn. constructor.
  - intros J. apply in_map_iff in J as (y & E & J). apply F in E; [subst y; exact (I J)|right; exact J|left; reflexivity].
  - apply IH. intros a b Ia Ib. apply F; right; assumption.
Qed.
Lemma below_ways (es : list (bytes * cid * fsnode)) : NoDup (map (fun e => fst (fst e)) es) ->
  (forall name c n, In (name, c, n) es -> exists ws, ways_of c n ws) ->
  exists ws, NoDup ws /\ (forall w, In w ws -> exists name c n w' c' n', In (name, c, n) es /\ w = name :: w' /\ leads_to c n w' c' n')
  /\ forall path, map line_path (flat_map (fun e => listing (child path (fst (fst e))) (snd e)) es) = map (fun w => fold_left child w path) ws.
Proof.
  induction es as [|[[name c] n] es IH]; intros ND W.
  - exists []. split; [constructor|]. split; [intros w []|reflexivity].
  - cbn [map fst] in ND. apply NoDup_cons_iff in ND as [Nn ND]. destruct (IH ND) as (ws & N1 & N2 & N3); [intros; eapply W; right; eassumption|].
    destruct (W _ _ _ (or_introl eq_refl)) as (ws0 & M1 & M3 & M2). exists (map (cons name) ws0 ++ ws). split; [|split].
    + assert (M1' : NoDup (map (cons name) ws0)) by (apply nodup_map; [intros x y _ _ E; congruence|exact M1]).
      clear - M1' N1 N2 Nn. revert M1'. generalize ws0. clear ws0. induction ws0 as [|w ws0 IHw]; intros M; [exact N1|]. cbn [map app] in *.
      apply NoDup_cons_iff in M as [M1 M2]. constructor; [|apply IHw, M2]. intros J. apply in_app_iff in J as [J|J]; [exact (M1 J)|].
      destruct (N2 _ J) as (name' & c' & n' & w' & _ & _ & Ie & E & _). injection E as <- _. apply Nn. apply (in_map (fun e => fst (fst e)) es (name, c', n')), Ie.
    + intros w J. apply in_app_iff in J as [J|J].
      * apply in_map_iff in J as (w' & <- & J). destruct (M3 w' J) as (c' & n' & L). exists name, c, n, w', c', n'. split; [left; reflexivity|auto].
      * destruct (N2 _ J) as (name' & c' & n' & w' & c2 & n2 & Ie & E & L). exists name', c', n', w', c2, n2. split; [right; exact Ie|auto].
    + intros path. cbn [flat_map fst snd]. rewrite !map_app, N3, M2, map_map. reflexivity.
Qed.
Lemma unambiguous_below c n es name c' n' : unambiguous c n -> below_node n = Some es -> In (name, c', n') es -> unambiguous c' n'.
Proof. intros U B I path c2 n2 es2 L. apply (U (name :: path) c2). eapply leads_below; eassumption. Qed.
Lemma listing_ways n : forall c, unambiguous c n -> exists ws, ways_of c n ws.
Proof.
  assert (G : forall n, (forall es name c n', below_node n = Some es -> In (name, c, n') es -> forall c, unambiguous c n' -> exists ws, ways_of c n' ws) ->
    forall c, unambiguous c n -> exists ws, ways_of c n ws).
  { intros m Sub c U. destruct (below_node m) as [es|] eqn:B.
    - destruct (below_ways es) as (ws & N1 & N2 & N3).
      + apply (U [] c m es); [constructor|exact B].
      + intros name c' n' I. apply (Sub es name c' n' eq_refl I c'). exact (unambiguous_below c m es name c' n' U B I).
      + exists ([] :: ws). split; [|split].
        * constructor; [|exact N1]. intros J. destruct (N2 _ J) as (? & ? & ? & ? & ? & ? & _ & E & _). discriminate.
        * intros w [<-|J]; [exists c, m; constructor|]. destruct (N2 _ J) as (name' & c' & n' & w' & c2 & n2 & Ie & -> & L).
          exists c2, n2. eapply leads_below; eassumption.
        * intros path. rewrite listing_step, B. cbn [map fold_left]. rewrite line_of_path, N3. reflexivity.
    - exists [[]]. split; [constructor; [intros []|constructor]|]. split.
      + intros w [<-|[]]. exists c, m. constructor.
      + intros path. rewrite listing_step, B. cbn [map fold_left]. rewrite line_of_path. reflexivity. }
  apply (fsnode_ind' (fun n => forall c, unambiguous c n -> exists ws, ways_of c n ws)
    (fun it => forall name c n, In (name, c, n) (item_entries it) -> forall c, unambiguous c n -> exists ws, ways_of c n ws)).
  - intros md x. apply G. discriminate.
  - intros md x. apply G. discriminate.
  - intros md es F. apply G. intros es' name c n' [= <-] I. rewrite Forall_forall in F. exact (F _ I).
  - intros md its F. apply G. intros es' name c n' [= <-] I. apply in_flat_map in I as (it & J & I). rewrite Forall_forall in F. exact (F it J _ _ _ I).
  - intros name c m IH name' c' n' [[= <- <- <-]|[]]. exact IH.
  - intros c its F name c' n' I. cbn [item_entries] in I. apply in_flat_map in I as (it & J & I). rewrite Forall_forall in F. exact (F it J _ _ _ I).
Qed.
Lemma listing_once X get c n : stored X get c n -> unambiguous c n -> NoDup (map line_path (listing [] n)).
Proof.
  intros S U. destruct (listing_ways n c U) as (ws & N & L & E). rewrite E. apply nodup_map; [|exact N].
  assert (Pl : forall w, In w ws -> Forall loose_name w /\ fold_left child w [] = join w).
  { intros w I. destruct (L w I) as (c' & n' & Lw). pose proof (proj1 (leads_loose X get _ _ _ _ _ Lw S)) as F. split; [exact F|]. exact (fold_child w [] F). }
  intros x y Ix Iy Q. destruct (Pl x Ix) as [Fx Ex], (Pl y Iy) as [Fy Ey]. apply join_loose; [exact Fx|exact Fy|congruence].
Qed.
