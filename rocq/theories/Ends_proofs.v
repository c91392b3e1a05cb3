(** * Ends_proofs: visits, walks and lookups over stores without cycles *)
From Verif Require Import Base Tac Wire Utf8 Cid Pb Reader Visit Dir Dir_proofs Walk SpecAdder SpecFile SpecDir SpecWalk Visit_proofs Walk_thms.
From Verif Require SpecFileSteps SpecWalkSteps SpecLookupSteps Steps_proofs Walk_exact Lookup_exact.
From Verif Require Import SpecEnds.

Section ends.
Context (X : ext) (get : cid -> option bytes).
Notation unfolded := (unfolded X get).
Notation links_to := (links_to X get).
Notation targets := (targets X).

(** ** The store *)
Lemma in_targets ls d : In d (targets ls) <-> exists l, In l ls /\ link_cid X l = Some d.
Proof.
  unfold SpecEnds.targets. rewrite in_flat_map. split; intros (l & I & H); exists l; (split; [exact I|]).
  - destruct (link_cid X l) as [c|]; [|contradiction]. destruct H as [->|[]]. reflexivity.
  - rewrite H. left. reflexivity.
Qed.
Lemma un_app xs : forall ys n, unfolded (xs ++ ys) n <-> exists a b, n = (a + b)%nat /\ unfolded xs a /\ unfolded ys b.
Proof.
  induction xs as [|x xs IH]; intros ys n; cbn [app].
  - split; [intros H; exists 0%nat, n; repeat split; [constructor|exact H]|intros (a & b & -> & U & V)]. inversion U. subst. exact V.
  - split.
    + intros H. inversion H as [|c cs k NL U|c b f cs m k G P T U]; subst.
      * apply IH in U as (a & b & -> & U & V). exists (S a), b. repeat split; [|exact V]. apply un_end; assumption.
      * apply IH in U as (a & b' & -> & U & V). exists (S (m + a)), b'. repeat split; [cbn; f_equal; lia| |exact V]. eapply un_node; eassumption.
    + intros (a & b & -> & U & V). inversion U as [|c cs k NL U'|c b' f cs m k G P T U']; subst; cbn [Nat.add].
      * apply un_end; [exact NL|]. apply IH. eauto.
      * rewrite <- Nat.add_assoc. eapply un_node; [exact G|exact P|exact T|]. apply IH. eauto.
Qed.
Lemma un_unique cs n : unfolded cs n -> forall m, unfolded cs m -> m = n.
Proof.
  induction 1 as [|c cs n NL U IH|c b f cs m n G P T IHT U IH]; intros k H; inversion H as [|c' cs' k' NL' U'|c' b' f' cs' m' k' G' P' T' U']; subst.
  - reflexivity.
  - f_equal. apply IH, U'.
  - assert (E : targets (f_links f') = []).
    { destruct (targets (f_links f')) as [|d ds] eqn:E; [reflexivity|]. exfalso. apply (NL d).
      assert (I : In d (targets (f_links f'))) by (rewrite E; left; reflexivity).
      apply in_targets in I as (l & I & L). exists b', f', l. auto. }
    rewrite E in T'. inversion T'; subst. cbn. f_equal. apply IH, U'.
  - assert (E : targets (f_links f) = []).
    { destruct (targets (f_links f)) as [|d ds] eqn:E; [reflexivity|]. exfalso. apply (NL' d).
      assert (I : In d (targets (f_links f))) by (rewrite E; left; reflexivity).
      apply in_targets in I as (l & I & L). exists b, f, l. auto. }
    rewrite E in T. inversion T; subst. cbn. f_equal. apply IH, U'.
  - replace b' with b in * by congruence. replace f' with f in * by congruence. f_equal. f_equal; [apply IHT, T'|apply IH, U'].
Qed.

Lemma un_each cs : (forall c, In c cs -> exists n, unfolded [c] n) -> exists n, unfolded cs n.
Proof.
  induction cs as [|c cs IH]; intros H; [exists 0%nat; constructor|].
  destruct (H c (or_introl eq_refl)) as (a & A). destruct IH as (b & B); [intros d I; apply H; right; exact I|].
  exists (a + b)%nat. apply (un_app [c] cs). eauto.
Qed.
Lemma acc_unfolds c : Acc (fun d c => links_to c d) c -> exists n, unfolded [c] n.
Proof.
  induction 1 as [c _ IH].
  destruct (get c) as [b|] eqn:G.
  2:{ exists 1%nat. apply un_end; [|constructor]. intros d (b & f & l & G' & _). congruence. }
  destruct (try_parse (ext_dbg X) b) as [f|e| |] eqn:P.
  2-4: (exists 1%nat; apply un_end; [|constructor]; intros d (b' & f & l & G' & P' & _); replace b' with b in P' by congruence; congruence).
  destruct (un_each (targets (f_links f))) as (n & U).
  { intros d I. apply IH. apply in_targets in I as (l & I & L). exists b, f, l. auto. }
  exists (S (n + 0))%nat. eapply un_node; [exact G|exact P|exact U|constructor].
Qed.
Lemma reaches_trans c d e : reaches X get c d -> links_to d e -> reaches X get c e.
Proof. induction 1 as [c d L|c d f L R IH]; intros L2; [eapply reaches_over; [exact L|apply reaches_link; exact L2]|eapply reaches_over; [exact L|apply IH, L2]]. Qed.
Lemma linked_wf c d : ext_ok X -> links_to c d -> cid_wf d = true.
Proof. intros HX (b & f & l & _ & _ & _ & L). exact (decode_wf X HX _ _ L). Qed.
Lemma finite_acc : ext_ok X -> finite get -> no_cycles X get -> forall c, Acc (fun d c => links_to c d) c.
Proof.
  intros HX (kept & K) NC.
  assert (A : forall n seen c, cid_wf c = true -> NoDup seen -> (forall s, In s seen -> In s kept /\ reaches X get s c) -> (length kept < length seen + n)%nat ->
    Acc (fun d c => links_to c d) c).
  { induction n as [|n IH]; intros seen c Wf ND S L.
    - assert (length seen <= length kept)%nat by (apply NoDup_incl_length; [exact ND|intros s I; apply S, I]). lia.
    - constructor. intros d Ld. pose proof (linked_wf c d HX Ld) as Wd. destruct Ld as (b & f & l & G & P & I & T). assert (Ld : links_to c d) by (exists b, f, l; auto).
      apply (IH (c :: seen) d); [exact Wd| | |].
      + constructor; [|exact ND]. intros J. apply (NC c). apply S, J.
      + intros s [<-|J]; [split; [eapply K; [exact Wf|exact G]|apply reaches_link, Ld]|]. split; [apply S, J|]. eapply reaches_trans; [apply S, J|exact Ld].
      + cbn [length]. lia. }
  intros c. constructor. intros d Ld. apply (A (S (length kept)) [] d); [exact (linked_wf c d HX Ld)|constructor|intros s []|cbn; lia].
Qed.

(** some of the elements of a list, in order *)
Inductive some_of {A} : list A -> list A -> Prop :=
| so_nil : some_of [] []
| so_keep : forall x xs ys, some_of xs ys -> some_of (x :: xs) (x :: ys)
| so_drop : forall x xs ys, some_of xs ys -> some_of xs (x :: ys).
Lemma so_all {A} (l : list A) : some_of l l.
Proof. induction l; constructor; assumption. Qed.
Lemma so_none {A} (l : list A) : some_of [] l.
Proof. induction l; constructor; assumption. Qed.
Lemma so_skip {A} (d xs ys : list A) : some_of xs ys -> some_of xs (d ++ ys).
Proof. intros H. induction d; [exact H|]. cbn. constructor. assumption. Qed.
Lemma un_some xs ys : some_of xs ys -> forall n, unfolded ys n -> exists m, (m <= n)%nat /\ unfolded xs m.
Proof.
  induction 1 as [|x xs ys So IH|x xs ys So IH]; intros n U.
  - exists n. split; [lia|exact U].
  - inversion U as [|c cs k NL U'|c b f cs m k G P T U']; subst; destruct (IH _ U') as (j & L & V).
    + exists (S j). split; [lia|]. apply un_end; assumption.
    + exists (S (m + j))%nat. split; [lia|]. eapply un_node; eassumption.
  - inversion U as [|c cs k NL U'|c b f cs m k G P T U']; subst; destruct (IH _ U') as (j & L & V); exists j; (split; [lia|exact V]).
Qed.

(** the links of the block of the first Cid take its place *)
Lemma un_step c rest n b f new : unfolded (c :: rest) n -> get c = Some b -> try_parse (ext_dbg X) b = Ok f -> some_of new (targets (f_links f)) ->
  exists m, (m < n)%nat /\ unfolded (new ++ rest) m /\ unfolded (rest ++ new) m.
Proof.
  intros U G P S.
  assert (Q : exists a k, n = Datatypes.S (a + k) /\ unfolded (targets (f_links f)) a /\ unfolded rest k).
  { inversion U as [|c' cs k NL U'|c' b' f' cs a k G' P' T U']; subst.
    - exists 0%nat, k. split; [reflexivity|]. split; [|exact U'].
      destruct (targets (f_links f)) as [|d ds] eqn:E; [constructor|]. exfalso. apply (NL d).
      assert (I : In d (targets (f_links f))) by (rewrite E; left; reflexivity).
      apply in_targets in I as (l & I & L). exists b, f, l. auto.
    - replace b' with b in * by congruence. replace f' with f in * by congruence. eauto. }
  destruct Q as (a & k & -> & T & R). destruct (un_some _ _ S _ T) as (a' & L & V). exists (a' + k)%nat. split; [lia|]. split.
  - apply un_app. eauto.
  - apply un_app. exists k, a'. split; [lia|]. auto.
Qed.

(** ** File visits *)
Lemma picks_some target i off ls zs ps : SpecFileSteps.picks X target i off ls zs (Ok ps) -> some_of (map fst ps) (targets ls).
Proof.
  intros H. remember (Ok ps) as r eqn:E. revert ps E. induction H; intros qs E; try discriminate.
  - injection E as <-. constructor.
  - unfold SpecEnds.targets. cbn [flat_map]. apply so_skip. apply IHpicks, E.
  - injection E as <-. unfold SpecEnds.targets. cbn [flat_map map fst]. match goal with L : link_cid X l = Some c |- _ => rewrite L end. cbn [app]. constructor. apply IHpicks. reflexivity.
  - subst r. exfalso. match goal with Q : forall ps, Ok _ <> Ok ps |- _ => eapply Q; reflexivity end.
Qed.
Lemma opened_new target r rest f out links prev : SpecFileSteps.opened X target r rest f (Ok (out, links, prev)) ->
  exists new, map fst links = new ++ map fst rest /\ some_of new (targets (f_links f)).
Proof.
  intros H. inversion H as [| |e o J C| |s e ps J P| |]; subst.
  - exists []. split; [reflexivity|apply so_none].
  - exists (map fst ps). split; [apply map_app|]. eapply picks_some; eassumption.
Qed.
Lemma next_new target prev r rest b out links prev' : SpecFileSteps.next_step X target prev r rest b (Ok (out, links, prev')) ->
  exists f new, try_parse (ext_dbg X) b = Ok f /\ map fst links = new ++ map fst rest /\ some_of new (targets (f_links f)).
Proof. intros H. inversion H; subst. destruct (opened_new _ _ _ _ _ _ _ H3) as (new & E & S). eauto 6. Qed.
Lemma first_new target b out links prev : SpecFileSteps.first_step X target b (Ok (out, links, prev)) ->
  exists f, try_parse (ext_dbg X) b = Ok f /\ some_of (map fst links) (targets (f_links f)).
Proof. intros H. inversion H; subst. destruct (opened_new _ _ _ _ _ _ _ H1) as (new & E & S). rewrite app_nil_r in E. rewrite E. eauto. Qed.
Lemma next_diverge target prev r rest b : SpecFileSteps.next_step X target prev r rest b Diverge -> try_parse (ext_dbg X) b = Diverge.
Proof. intros H. inversion H; subst; [assumption|]. inversion H3. Qed.
Lemma first_diverge target b : SpecFileSteps.first_step X target b Diverge -> try_parse (ext_dbg X) b = Diverge.
Proof. intros H. inversion H; subst; [assumption|]. inversion H1. Qed.

Lemma visit_bound v bs asked out ov : continues X (store get) v bs asked out ov -> Steps_proofs.u64_target (fv_range v) ->
  forall n, unfolded (map fst (fv_pending v)) n -> (length asked <= n)%nat.
Proof.
  induction 1 as [v|v c others b k k' out v' bs asked out2 ov PL G CW H IH|v c others b k k' out PL G CW]; intros U64 n U.
  - cbn. lia.
  - destruct (fv_pending v) as [|[c' r] rest] eqn:Ep; [unfold pending_links in PL; rewrite Ep in PL; discriminate PL|].
    assert (c' = c) as -> by (unfold pending_links in PL; rewrite Ep in PL; cbn in PL; congruence).
    destruct (Steps_proofs.continue_model X v b k c r rest U64 Ep) as (res & NS & R). rewrite CW in R.
    destruct res as [[[o links] prev]|e| |]; try discriminate R. destruct R as (ov' & k2 & E & R). injection E as <- <- <-. destruct R as (_ & R2 & R3 & _).
    destruct (next_new _ _ _ _ _ _ _ _ NS) as (f & new & P & E & S). destruct (un_step c (map fst rest) n b f new U G P S) as (m & L & Um & _).
    cbn [length]. enough (length asked <= m)%nat by lia. apply IH; [rewrite R3; exact U64|]. rewrite R2. exact (eq_ind_r (fun l => unfolded l m) Um E).
  - destruct (fv_pending v) as [|[c' r] rest] eqn:Ep; [unfold pending_links in PL; rewrite Ep in PL; discriminate PL|].
    inversion U; cbn; lia.
Qed.
Lemma visit_ends c target root bs asked out ov n : Steps_proofs.u64_target target -> unfolded [c] n -> get c = Some root ->
  visit X (store get) target (root :: bs) asked out ov -> (length asked < n)%nat.
Proof.
  intros U64 U G V. inversion V as [r o s m E|r o s m v bs' as' o2 ov' E C]; subst.
  - inversion U; cbn; lia.
  - destruct (Steps_proofs.start_model X target root U64) as (r & F & R). rewrite E in R. destruct r as [[[o' links] prev]|e| |]; try discriminate R.
    destruct R as (f & size & ov2 & P & _ & E2 & R). assert (ov2 = Some v) as -> by congruence. destruct R as (_ & R2 & R3 & _).
    destruct (first_new _ _ _ _ _ F) as (f' & P' & S). destruct (un_step c [] n root f' _ U G P' S) as (k & L & Um & _). rewrite app_nil_r in Um.
    enough (length asked <= k)%nat by lia. eapply visit_bound; [exact C|rewrite R3; exact U64|rewrite R2; exact Um].
Qed.

(** ** Lookups *)
Lemma buckets_some links cs : SpecLookupSteps.buckets X links cs -> some_of cs (targets links).
Proof.
  induction 1 as [|l c ls cs Ld L B IH|l ls cs NL B IH]; [constructor| |].
  - unfold SpecEnds.targets. cbn [flat_map]. rewrite L. cbn [app]. constructor. exact IH.
  - unfold SpecEnds.targets. cbn [flat_map]. apply so_skip. exact IH.
Qed.
Lemma search_new needle queue links c others : SpecLookupSteps.search X needle queue links (Ok (SpecLookupSteps.Awaits c others)) ->
  exists new, c :: others = queue ++ new /\ some_of new (targets links).
Proof.
  intros H. inversion H as [| |cs c' o' S E| |]; subst. exists cs. split; [symmetry; exact E|].
  inversion S as [pre l post r E' P St| |cs' P N B]; subst; [inversion St|]. apply buckets_some. exact B.
Qed.
Lemma next_awaits needle queue b c others : SpecLookupSteps.next_call X needle queue b (Ok (SpecLookupSteps.Awaits c others)) ->
  exists f new, try_parse (ext_dbg X) b = Ok f /\ c :: others = queue ++ new /\ some_of new (targets (f_links f)).
Proof. intros H. inversion H; subst. destruct (search_new _ _ _ _ _ H2) as (new & E & S). eauto. Qed.
Lemma first_awaits needle b c others : SpecLookupSteps.first_call X needle b (Ok (SpecLookupSteps.Awaits c others)) ->
  exists f, try_parse (ext_dbg X) b = Ok f /\ some_of (c :: others) (targets (f_links f)).
Proof.
  intros H. inversion H as [| | |links r Li A| | | |f r P Su Se| |]; subst; [inversion A|].
  destruct (search_new _ _ _ _ _ Se) as (new & E & S). cbn [app] in E. rewrite E. eauto.
Qed.
Lemma nc_diverges needle queue b : SpecLookupSteps.next_call X needle queue b Diverge -> try_parse (ext_dbg X) b = Diverge.
Proof. intros H. inversion H as [| |D| | |f r P Su Se]; subst; [exact D|]. inversion Se. Qed.
Lemma fc_diverges needle b : SpecLookupSteps.first_call X needle b Diverge -> try_parse (ext_dbg X) b = Diverge.
Proof. intros H. inversion H as [| |D|links r Li A| | | | | |]; subst; [exact D|]. inversion A. Qed.

Lemma lookup_bound v asked r : continues_lookup X get v asked r -> forall n, unfolded (lk_links v) n -> (length asked <= n)%nat.
Proof.
  induction 1 as [v c others b k k' r PL G CW Fi|v c others b k k' v' asked r PL G CW H IH]; intros n U; destruct v as [[|c' queue] needle];
    try discriminate PL; injection PL as -> ->; cbn [lk_links] in *.
  - inversion U; cbn; lia.
  - destruct (Lookup_exact.next_model X needle c others b k) as (res & N & E). rewrite CW in E. cbn [fst] in E.
    destruct res as [[d| |d more]|e| |]; try discriminate E. cbn [Lookup_exact.seen] in E. injection E as ->.
    destruct (next_awaits _ _ _ _ _ N) as (f & new & P & E & S). destruct (un_step c others n b f new U G P S) as (m & L & _ & Um).
    cbn [length]. enough (length asked <= m)%nat by lia. apply IH. cbn [lk_links]. rewrite E. exact Um.
Qed.
Lemma lookup_ends c block needle asked r n : unfolded [c] n -> get c = Some block -> looks_up X get block needle asked r -> (length asked < n)%nat.
Proof.
  intros U G L. inversion L as [k k' r' K E F|k k' v as' r' K E C]; subst.
  - inversion U; cbn; lia.
  - destruct (Lookup_exact.first_model X needle block k K) as (res & N & E'). rewrite E in E'. cbn [fst] in E'.
    destruct res as [[d| |d more]|e| |]; try discriminate E'. cbn [Lookup_exact.seen] in E'. injection E' as ->.
    destruct (first_awaits _ _ _ _ N) as (f & P & S). destruct (un_step c [] n block f _ U G P S) as (m & L' & Um & _). rewrite app_nil_r in Um.
    enough (length asked <= m)%nat by lia. eapply lookup_bound; [exact C|exact Um].
Qed.
(** ** Visits without a target ask for all blocks *)
Lemma un_exact c rest n b f : unfolded (c :: rest) n -> get c = Some b -> try_parse (ext_dbg X) b = Ok f ->
  exists m, n = S m /\ unfolded (targets (f_links f) ++ rest) m.
Proof.
  intros U G P. inversion U as [|c' cs k NL U'|c' b' f' cs a k G' P' T U']; subst.
  - exists k. split; [reflexivity|]. destruct (targets (f_links f)) as [|d ds] eqn:E; [exact U'|]. exfalso. apply (NL d).
    assert (I : In d (targets (f_links f))) by (rewrite E; left; reflexivity).
    apply in_targets in I as (l & I & L). exists b, f, l. auto.
  - replace b' with b in * by congruence. replace f' with f in * by congruence. exists (a + k)%nat. split; [reflexivity|]. apply un_app. eauto.
Qed.
Lemma picks_all i off ls zs ps : SpecFileSteps.picks X None i off ls zs (Ok ps) -> map fst ps = targets ls.
Proof.
  intros H. remember (Ok ps) as r eqn:E. revert ps E. induction H; intros qs E; try discriminate.
  - injection E as <-. reflexivity.
  - exfalso. match goal with Q : ~ _ |- _ => apply Q; exact Logic.I end.
  - injection E as <-. unfold SpecEnds.targets. cbn [flat_map map fst]. match goal with L : link_cid X l = Some c |- _ => rewrite L end.
    cbn [app]. f_equal. apply IHpicks. reflexivity.
  - subst r. exfalso. match goal with Q : forall ps, Ok _ <> Ok ps |- _ => eapply Q; reflexivity end.
Qed.
Lemma opened_all r rest f out links prev : SpecFileSteps.opened X None r rest f (Ok (out, links, prev)) ->
  map fst links = targets (f_links f) ++ map fst rest.
Proof.
  intros H. inversion H as [| |e o J C| |s e ps J P| |]; subst.
  - inversion J; subst. match goal with Q : f_links f = [] |- _ => rewrite Q end. reflexivity.
  - rewrite map_app. f_equal. eapply picks_all; eassumption.
Qed.
Lemma visit_all v bs asked out ov : continues X (store get) v bs asked out ov -> fv_range v = None -> ov = None ->
  forall n, unfolded (map fst (fv_pending v)) n -> length asked = n.
Proof.
  induction 1 as [v|v c others b k k' out v' bs asked out2 ov PL G CW H IH|v c others b k k' out PL G CW]; intros U64 EN n U; [discriminate EN| |];
    (destruct (fv_pending v) as [|[c' r] rest] eqn:Ep; [unfold pending_links in PL; rewrite Ep in PL; discriminate PL|]);
    (assert (c' = c) as -> by (unfold pending_links in PL; rewrite Ep in PL; cbn in PL; congruence));
    assert (T : Steps_proofs.u64_target (fv_range v)) by (rewrite U64; exact Logic.I);
    destruct (Steps_proofs.continue_model X v b k c r rest T Ep) as (res & NS & R); rewrite CW in R;
    (destruct res as [[[o links] prev]|e| |]; try discriminate R); destruct R as (ov' & k2 & E & R); injection E as <- <- <-;
    rewrite U64 in NS; inversion NS as [| | | | |f res NM P MD O]; subst; apply opened_all in O;
    destruct (un_exact c (map fst rest) n b f U G P) as (m & -> & Um); cbn [length]; f_equal.
  - destruct R as (_ & R2 & R3 & _). apply IH; [rewrite R3; exact U64|reflexivity|]. rewrite R2. exact (eq_ind_r (fun l => unfolded l m) Um O).
  - destruct R as [-> _]. cbn [map] in O. assert (Q : unfolded [] m) by exact (eq_ind_r (fun l => unfolded l m) Um O). inversion Q. reflexivity.
Qed.
Lemma visit_counts c root bs asked out n : unfolded [c] n -> get c = Some root ->
  visit X (store get) None (root :: bs) asked out None -> S (length asked) = n.
Proof.
  intros U G V.
  assert (T : Steps_proofs.u64_target None) by exact Logic.I.
  inversion V as [r o s m E|r o s m v bs' as' o2 ov' E C]; subst;
    destruct (Steps_proofs.start_model X None root T) as (r & F & R); rewrite E in R;
    (destruct r as [[[o' links] prev]|e| |]; try discriminate R); destruct R as (f & size & ov2 & P & _ & E2 & R);
    inversion F as [| | |f' r' P' O]; subst; apply opened_all in O; rewrite app_nil_r in O;
    destruct (un_exact c [] n root f' U G P') as (k & -> & Um); rewrite app_nil_r in Um; f_equal.
  - assert (ov2 = None) as -> by congruence. subst links. cbn [map] in O. assert (Q : unfolded [] k) by exact (eq_ind_r (fun l => unfolded l k) Um O). inversion Q. reflexivity.
  - assert (ov2 = Some v) as -> by congruence. destruct R as (_ & R2 & R3 & _). eapply visit_all; [exact C|exact R3|reflexivity|].
    rewrite R2. exact (eq_ind_r (fun l => unfolded l k) Um O).
Qed.
End ends.
