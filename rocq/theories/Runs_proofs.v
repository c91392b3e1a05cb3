(** * Runs_proofs: the example programs on any disk, against SpecRuns.v *)
From Verif Require Import Base Tac Wire Utf8 Cid Pb Reader Visit Dir Dir_proofs Walk SpecAdder SpecFile SpecDir SpecWalk Visit_proofs Walk_thms.
From Verif Require SpecFileSteps SpecWalkSteps SpecLookupSteps Steps_proofs Walk_exact Lookup_exact.
From Verif Require Import Programs SpecPrograms Store_proofs SpecRuns.

Section runs.
Context (X : ext) (fs : disk) (dir : bytes) (G : good_dir dir).

Lemma disk_cases {T} c :
  (exists b, on_disk fs dir c (Contents b) /\ @read_block T fs dir c = Ok b)
  \/ (exists err, unreadable fs dir c err /\ @read_block T fs dir c = Err err).
Proof.
  destruct (@read_block_cases T fs dir c G) as (p & B & R).
  assert (O : on_disk fs dir c (fs p)) by (intros p' B'; rewrite (block_file_unique _ _ _ _ B' B); reflexivity).
  destruct (fs p) as [e|e|b].
  - right. exists (OpeningFailed e). split; [|exact R]. left. exists e. auto.
  - right. exists (Other e). split; [|exact R]. right. exists e. auto.
  - left. exists b. auto.
Qed.

(** ** cat *)
Lemma plus_add64 {E} a b : @add64 E (ext_dbg X) a b = match SpecFileSteps.plus X a b with Some s => Ok s | None => Panic end.
Proof. pose proof (Steps_proofs.plus_add X a b) as P. unfold add64 in *. destruct (_ <? _); [|destruct (ext_dbg X)]; destruct (SpecFileSteps.plus X a b); congruence. Qed.

Lemma all_picked i off ls zs ps : SpecFileSteps.picks X None i off ls zs (Ok ps) -> length ps = length ls.
Proof.
  intros H. remember (Ok ps) as r eqn:E. revert ps E. induction H; intros ps' E; try discriminate.
  - injection E as <-. reflexivity.
  - exfalso. apply H0. exact Logic.I.
  - injection E as <-. cbn [length]. f_equal. apply IHpicks. reflexivity.
  - subst r. exfalso. eapply H3. reflexivity.
Qed.
Lemma node_links r rest f out links s e : SpecFileSteps.opened X None r rest f (Ok (out, links, SpecFileSteps.AfterNode s e)) -> links <> [].
Proof.
  intros H. inversion H as [| | | |s' e' ps J P| |]; subst. apply all_picked in P. inversion J; subst.
  intros E. apply app_eq_nil in E as [-> _]. destruct (f_links f); [congruence|discriminate].
Qed.
Lemma node_more prev r rest b out links s e : SpecFileSteps.next_step X None prev r rest b (Ok (out, links, SpecFileSteps.AfterNode s e)) -> links <> [].
Proof. intros H. inversion H; subst. eapply node_links; eassumption. Qed.

Definition at_step (ov : option file_visit) (links : list pending_link) (prev : SpecFileSteps.before) : Prop :=
  match ov with None => links = [] | Some v => links <> [] /\ Steps_proofs.tracks v None links prev end.

(** one round of the loop *)
Lemma cat_round v c r rest prev b k : Steps_proofs.tracks v None ((c, r) :: rest) prev ->
  pending_links v = Ok (c, map fst rest)
  /\ exists res, SpecFileSteps.next_step X None prev r rest b res
     /\ match res with
        | Ok (out, links, prev') => exists ov, fst (continue_walk X v b k) = Ok (out, ov) /\ at_step ov links prev'
        | Err e => fst (continue_walk X v b k) = Err e
        | Panic => fst (continue_walk X v b k) = Panic
        | Diverge => fst (continue_walk X v b k) = Diverge
        end.
Proof.
  intros (T1 & T2 & T3). split; [unfold pending_links; rewrite T1; reflexivity|].
  destruct (Steps_proofs.continue_model X v b k c r rest) as (res & NS & R); [rewrite T2; exact Logic.I|exact T1|].
  rewrite T2, <- T3 in NS. exists res. split; [exact NS|]. destruct res as [[[out links] prev']|e| |]; try exact R.
  destruct R as (ov & k' & E & R). exists ov. rewrite E. split; [reflexivity|]. destruct ov as [v'|]; cbn [at_step]; [|apply R].
  destruct R as (R1 & R2 & R3 & R4). split; [|unfold Steps_proofs.tracks; rewrite R3; auto].
  intros ->. destruct (R1 eq_refl) as (s & e & ->). exact (node_more _ _ _ _ _ _ _ _ NS eq_refl).
Qed.

Lemma cat_sound : forall fuel ov links prev written read content res out, at_step ov links prev ->
  cat_loop X fuel fs dir ov written read content = (res, out) -> res <> Diverge ->
  exists more, out = written ++ more /\ cat_on X fs dir links prev read content res more.
Proof.
  induction fuel as [|fuel IH]; intros ov links prev written read content res out A E ND.
  { destruct ov; cbn [cat_loop] in E; injection E as <- <-; [congruence|]. cbn in A. subst links. exists []. rewrite app_nil_r. split; [reflexivity|constructor]. }
  destruct ov as [v|]; cbn [cat_loop] in E.
  2:{ injection E as <- <-. cbn in A. subst links. exists []. rewrite app_nil_r. split; [reflexivity|constructor]. }
  destruct A as [NE T]. destruct links as [|[c r] rest]; [congruence|].
  destruct (@disk_cases read_failed c) as [(b & O & RB)|(err & U & RB)].
  2:{ destruct (cat_round v c r rest prev [] None T) as [PL _]. rewrite PL in E. cbn [map_err bind fst] in E. rewrite RB in E. cbn [bind] in E.
      injection E as <- <-. exists []. rewrite app_nil_r. split; [reflexivity|]. eapply cat_unreadable; eassumption. }
  destruct (cat_round v c r rest prev b None T) as [PL (res1 & NS & R)]. rewrite PL in E. cbn [map_err bind fst] in E. rewrite RB in E. cbn [bind] in E.
  rewrite plus_add64 in E. destruct (SpecFileSteps.plus X read (blen b)) as [read'|] eqn:P1; cbn [bind] in E.
  2:{ injection E as <- <-. exists []. rewrite app_nil_r. split; [reflexivity|]. eapply cat_many; eassumption. }
  destruct res1 as [[[o links] prev']|e| |].
  - destruct R as (ov & R & A). rewrite R in E. cbn [map_err bind] in E. rewrite plus_add64 in E.
    destruct (SpecFileSteps.plus X content (blen o)) as [content'|] eqn:P2.
    + destruct (IH _ _ _ _ _ _ _ _ A E ND) as (more & -> & C). exists (o ++ more). rewrite app_assoc. split; [reflexivity|]. eapply cat_next; eassumption.
    + injection E as <- <-. exists o. split; [reflexivity|]. eapply cat_long; eassumption.
  - rewrite R in E. cbn [map_err bind] in E. injection E as <- <-. exists []. rewrite app_nil_r. split; [reflexivity|]. eapply cat_error; eassumption.
  - rewrite R in E. cbn [map_err bind] in E. injection E as <- <-. exists []. rewrite app_nil_r. split; [reflexivity|]. eapply cat_panic; eassumption.
  - rewrite R in E. cbn [map_err bind] in E. injection E as <- <-. congruence.
Qed.

Lemma cat_complete links prev read content res more : cat_on X fs dir links prev read content res more ->
  res <> Diverge /\ exists N, forall fuel, (N <= fuel)%nat -> forall ov written, at_step ov links prev ->
  cat_loop X fuel fs dir ov written read content = (res, written ++ more).
Proof.
  intros H.
  assert (RD : forall c b, on_disk fs dir c (Contents b) -> @read_block read_failed fs dir c = Ok b).
  { intros c b O. rewrite (read_on_disk fs dir c _ G O). reflexivity. }
  induction H as [prev read content|c r rest prev read content err U|c r rest prev read content b O P1
    |c r rest prev read content b read' e O P1 NS|c r rest prev read content b read' O P1 NS
    |c r rest prev read content b read' out links prev' O P1 NS P2
    |c r rest prev read content b read' out links prev' content' res more O P1 NS P2 H IH].
  - split; [discriminate|]. exists 0%nat. intros fuel _ ov written A. rewrite app_nil_r.
    destruct ov; cbn in A; [exfalso; apply A; reflexivity|]. destruct fuel; reflexivity.
  - split; [discriminate|]. exists 1%nat. intros [|fuel] L ov written A; [lia|]. destruct ov as [v|]; cbn in A; [|discriminate]. destruct A as [_ T].
    destruct (cat_round v c r rest prev [] None T) as [PL _]. cbn [cat_loop]. rewrite PL. cbn [map_err bind fst]. rewrite (read_unreadable fs dir c err G U), app_nil_r. reflexivity.
  - split; [discriminate|]. exists 1%nat. intros [|fuel] L ov written A; [lia|]. destruct ov as [v|]; cbn in A; [|discriminate]. destruct A as [_ T].
    destruct (cat_round v c r rest prev b None T) as [PL _]. cbn [cat_loop]. rewrite PL. cbn [map_err bind fst]. rewrite (RD _ _ O), app_nil_r. cbn [bind].
    rewrite plus_add64, P1. reflexivity.
  - split; [discriminate|]. exists 1%nat. intros [|fuel] L ov written A; [lia|]. destruct ov as [v|]; cbn in A; [|discriminate]. destruct A as [_ T].
    destruct (cat_round v c r rest prev b None T) as [PL (res1 & NS' & R)]. rewrite (Steps_proofs.next_det X _ _ _ _ _ _ _ NS' NS) in R.
    cbn [cat_loop]. rewrite PL. cbn [map_err bind fst]. rewrite (RD _ _ O), app_nil_r. cbn [bind]. rewrite plus_add64, P1. cbn [bind]. rewrite R. reflexivity.
  - split; [discriminate|]. exists 1%nat. intros [|fuel] L ov written A; [lia|]. destruct ov as [v|]; cbn in A; [|discriminate]. destruct A as [_ T].
    destruct (cat_round v c r rest prev b None T) as [PL (res1 & NS' & R)]. rewrite (Steps_proofs.next_det X _ _ _ _ _ _ _ NS' NS) in R.
    cbn [cat_loop]. rewrite PL. cbn [map_err bind fst]. rewrite (RD _ _ O), app_nil_r. cbn [bind]. rewrite plus_add64, P1. cbn [bind]. rewrite R. reflexivity.
  - split; [discriminate|]. exists 1%nat. intros [|fuel] L ov written A; [lia|]. destruct ov as [v|]; cbn in A; [|discriminate]. destruct A as [_ T].
    destruct (cat_round v c r rest prev b None T) as [PL (res1 & NS' & R)]. rewrite (Steps_proofs.next_det X _ _ _ _ _ _ _ NS' NS) in R. destruct R as (ov & R & _).
    cbn [cat_loop]. rewrite PL. cbn [map_err bind fst]. rewrite (RD _ _ O). cbn [bind]. rewrite plus_add64, P1. cbn [bind]. rewrite R. cbn [map_err bind].
    rewrite plus_add64, P2. reflexivity.
  - destruct IH as (ND & N & IH). split; [exact ND|]. exists (S N). intros [|fuel] L ov written A; [lia|]. destruct ov as [v|]; cbn in A; [|discriminate]. destruct A as [_ T].
    destruct (cat_round v c r rest prev b None T) as [PL (res1 & NS' & R)]. rewrite (Steps_proofs.next_det X _ _ _ _ _ _ _ NS' NS) in R. destruct R as (ov & R & A).
    cbn [cat_loop]. rewrite PL. cbn [map_err bind fst]. rewrite (RD _ _ O). cbn [bind]. rewrite plus_add64, P1. cbn [bind]. rewrite R. cbn [map_err bind].
    rewrite plus_add64, P2, (IH fuel ltac:(lia) ov _ A), app_assoc. reflexivity.
Qed.

Lemma cat_start b : exists res, SpecFileSteps.first_step X None b res
  /\ match res with
     | Ok (out, links, prev) => exists size md ov, visit_start X None b = Ok (out, size, md, ov) /\ at_step ov links prev
     | Err e => visit_start X None b = Err e
     | Panic => visit_start X None b = Panic
     | Diverge => visit_start X None b = Diverge
     end.
Proof.
  destruct (Steps_proofs.start_model X None b Logic.I) as (r & F & R). exists r. split; [exact F|].
  destruct r as [[[out links] prev]|e| |]; try exact R. destruct R as (f & size & ov & _ & _ & S & R). exists size, (says (f_data f)), ov.
  split; [exact S|]. destruct ov as [v|]; [|exact R]. destruct R as (NE & R). split; [exact NE|exact R].
Qed.

Lemma cat_walk_sound fuel c res out : cat_walk X fuel fs dir c = (res, out) -> res <> Diverge -> cat_run X fs dir c res out.
Proof.
  unfold cat_walk. destruct (@disk_cases read_failed c) as [(b & O & ->)|(err & U & ->)]; cbn [bind].
  2:{ intros [= <- <-] _. eapply cr_unreadable; eassumption. }
  rewrite plus_add64. destruct (SpecFileSteps.plus X 0 (blen b)) as [read|] eqn:P1; cbn [bind].
  2:{ intros [= <- <-] _. eapply cr_many; eassumption. }
  destruct (cat_start b) as (r & F & R). change idle_default with (@None range). destruct r as [[[o links] prev]|e| |].
  - destruct R as (size & md & ov & -> & A). cbn [map_err bind]. rewrite plus_add64.
    destruct (SpecFileSteps.plus X 0 (blen o)) as [content|] eqn:P2.
    + intros E ND. destruct (cat_sound _ _ _ _ _ _ _ _ _ A E ND) as (more & -> & C). eapply cr_next; eassumption.
    + intros [= <- <-] _. eapply cr_long; eassumption.
  - rewrite R. intros [= <- <-] _. eapply cr_error; eassumption.
  - rewrite R. intros [= <- <-] _. eapply cr_panic; eassumption.
  - rewrite R. intros [= <- <-] ND. congruence.
Qed.
Lemma cat_walk_complete c res out : cat_run X fs dir c res out -> res <> Diverge
  /\ exists N, forall fuel, (N <= fuel)%nat -> cat_walk X fuel fs dir c = (res, out).
Proof.
  assert (RD : forall c b, on_disk fs dir c (Contents b) -> @read_block read_failed fs dir c = Ok b).
  { intros c0 b O. rewrite (read_on_disk fs dir c0 _ G O). reflexivity. }
  intros H. unfold cat_walk. change idle_default with (@None range).
  destruct H as [err U|b O P1|b read e O P1 F|b read O P1 F|b read o links prev O P1 F P2|b read o links prev content res more O P1 F P2 C].
  1: (split; [discriminate|]; exists 0%nat; intros fuel _; rewrite (read_unreadable fs dir c err G U); reflexivity).
  all: destruct (cat_start b) as (r & F' & R); rewrite (RD _ _ O); cbn [bind]; rewrite plus_add64, P1; cbn [bind].
  { split; [discriminate|]. exists 0%nat. reflexivity. }
  all: rewrite (Steps_proofs.first_det X _ _ _ _ F' F) in R.
  1,2: (split; [discriminate|]; exists 0%nat; intros fuel _; rewrite R; reflexivity).
  - destruct R as (size & md & ov & -> & A). cbn [map_err bind]. rewrite plus_add64, P2. split; [discriminate|]. exists 0%nat. reflexivity.
  - destruct R as (size & md & ov & -> & A). cbn [map_err bind]. rewrite plus_add64, P2.
    destruct (cat_complete _ _ _ _ _ _ C) as (ND & N & H). split; [exact ND|]. exists N. intros fuel L. apply H; assumption.
Qed.

(** ** get *)
Section get.
Hypothesis checked : ext_dbg X = true.

Lemma get_lines_cases it :
  (exists ls, prints it ls /\ get_lines it = Ok ls)
  \/ (exists target c path md, it = WSymlink target c path md /\ utf8_valid target = false /\ get_lines it = Panic).
Proof.
  assert (M : forall md d, mode_of md d = line_mode md d).
  { intros md d. unfold mode_of, line_mode. change 4095 with (N.ones 12). rewrite N.land_ones. destruct (md_mode md); reflexivity. }
  assert (S : forall md, seconds_of md = line_seconds md).
  { intros md. unfold seconds_of, line_seconds. destruct (md_mtime md) as [[s n]|]; reflexivity. }
  destruct it as [c path| |seg c path md size| |target c path md] eqn:E0.
  all: try (left; eexists; split; [constructor|]; cbn [get_lines]; rewrite ?M, ?S; reflexivity).
  - left. destruct seg as [out first [|]].
    + eexists. split; [constructor|]. cbn [get_lines is_last]. rewrite M, S. reflexivity.
    + eexists. split; [constructor|reflexivity].
  - cbn [get_lines]. destruct (utf8_valid target) eqn:U.
    + left. eexists. split; [constructor; exact U|]. cbn [assert bind]. rewrite M, S. reflexivity.
    + right. exists target, c, path, md. auto.
Qed.
Lemma prints_lines it ls : prints it ls -> get_lines it = Ok ls.
Proof.
  intros H. destruct (get_lines_cases it) as [(ls' & H' & E)|(t & c & p & md & -> & U & E)].
  - rewrite E. f_equal. inversion H; subst; inversion H'; reflexivity.
  - inversion H; subst. congruence.
Qed.

Lemma get_round s w c others b k : Walk_exact.Rel s w -> SpecWalkSteps.awaited s = c :: others -> clean_cache k ->
  exists res, SpecWalkSteps.step X s b res /\ Walk_exact.agrees res (walk_next X w b k) /\ clean_cache (snd (walk_next X w b k)).
Proof.
  intros R A K. destruct (Walk_exact.step_model X s w b k R ltac:(rewrite A; discriminate) K) as [[D _]|(res & S & Ag)]; [congruence|].
  exists res. split; [exact S|]. split; [exact Ag|]. apply (walk_next_cache X w b k k K K).
Qed.

Lemma get_sound : forall fuel s w k printed res out, Walk_exact.Rel s w -> clean_cache k ->
  get_loop X fuel fs dir w k printed = (res, out) -> res <> Diverge ->
  exists more, out = printed ++ more /\ get_on X fs dir s res more.
Proof.
  induction fuel as [|fuel IH]; intros s w k printed res out R K E ND; cbn [get_loop] in E; rewrite (Walk_exact.rel_continue s w R) in E;
    destruct (SpecWalkSteps.awaited s) as [|c others] eqn:A; cbn [is_nil negb] in E.
  1,3: (injection E as <- <-; exists []; rewrite app_nil_r; split; [reflexivity|apply get_end; exact A]).
  { injection E as <- <-. congruence. }
  rewrite (Walk_exact.rel_pending s w c others R A) in E. cbn [map_err bind fst] in E.
  destruct (@disk_cases walk_error c) as [(b & O & RB)|(err & U & RB)]; rewrite RB in E.
  2:{ injection E as <- <-. exists []. rewrite app_nil_r. split; [reflexivity|]. eapply get_unreadable; eassumption. }
  destruct (get_round s w c others b k R A K) as (r & S & Ag & K'). destruct (walk_next X w b k) as [[wr w'] k'] eqn:W. cbn [snd] in K'.
  destruct r as [[it s']|e| |]; cbn [Walk_exact.agrees fst] in Ag.
  - destruct Ag as (w2 & k2 & E2 & R'). injection E2 as -> -> ->. cbn [map_err bind] in E.
    destruct (get_lines_cases it) as [(ls & P & L)|(t & d & path & md & -> & U & L)]; rewrite L in E.
    + destruct (IH _ _ _ _ _ _ R' K' E ND) as (more & -> & H). exists (ls ++ more). rewrite app_assoc. split; [reflexivity|]. eapply get_next; eassumption.
    + injection E as <- <-. exists []. rewrite app_nil_r. split; [reflexivity|]. eapply get_no_text; eassumption.
  - destruct Ag as (w2 & k2 & E2 & _). injection E2 as -> -> ->. cbn [map_err bind] in E. injection E as <- <-.
    exists []. rewrite app_nil_r. split; [reflexivity|]. eapply get_error; eassumption.
  - subst wr. cbn [map_err bind] in E. injection E as <- <-. exists []. rewrite app_nil_r. split; [reflexivity|]. eapply get_panic; eassumption.
  - subst wr. cbn [map_err bind] in E. injection E as <- <-. congruence.
Qed.

Lemma get_complete s res more : get_on X fs dir s res more ->
  res <> Diverge /\ exists N, forall fuel, (N <= fuel)%nat -> forall w k printed, Walk_exact.Rel s w -> clean_cache k ->
  get_loop X fuel fs dir w k printed = (res, printed ++ more).
Proof.
  assert (RD : forall c b, on_disk fs dir c (Contents b) -> @read_block walk_error fs dir c = Ok b).
  { intros c0 b O. rewrite (read_on_disk fs dir c0 _ G O). reflexivity. }
  intros H. induction H as [s A|s c others err A U|s c others b e A O St|s c others b A O St|s c others b t d path md s' A O St U
    |s c others b it s' ls res more A O St P H IH].
  - split; [discriminate|]. exists 0%nat. intros fuel _ w k printed R K. rewrite app_nil_r.
    destruct fuel; cbn [get_loop]; rewrite (Walk_exact.rel_continue s w R), A; reflexivity.
  - split; [discriminate|]. exists 1%nat. intros [|fuel] L w k printed R K; [lia|]. rewrite app_nil_r.
    cbn [get_loop]. rewrite (Walk_exact.rel_continue s w R), A. cbn [is_nil negb]. rewrite (Walk_exact.rel_pending s w c others R A). cbn [map_err bind fst].
    rewrite (read_unreadable fs dir c err G U). reflexivity.
  - split; [discriminate|]. exists 1%nat. intros [|fuel] L w k printed R K; [lia|]. rewrite app_nil_r.
    cbn [get_loop]. rewrite (Walk_exact.rel_continue s w R), A. cbn [is_nil negb]. rewrite (Walk_exact.rel_pending s w c others R A). cbn [map_err bind fst].
    rewrite (RD _ _ O). destruct (get_round s w c others b k R A K) as (r & S & Ag & _). rewrite (Walk_exact.step_det X _ _ _ _ S St) in Ag.
    destruct Ag as (w2 & k2 & -> & _). reflexivity.
  - split; [discriminate|]. exists 1%nat. intros [|fuel] L w k printed R K; [lia|]. rewrite app_nil_r.
    cbn [get_loop]. rewrite (Walk_exact.rel_continue s w R), A. cbn [is_nil negb]. rewrite (Walk_exact.rel_pending s w c others R A). cbn [map_err bind fst].
    rewrite (RD _ _ O). destruct (get_round s w c others b k R A K) as (r & S & Ag & _). rewrite (Walk_exact.step_det X _ _ _ _ S St) in Ag.
    cbn in Ag. destruct (walk_next X w b k) as [[wr w'] k']. cbn [fst] in Ag. subst wr. reflexivity.
  - split; [discriminate|]. exists 1%nat. intros [|fuel] L w k printed R K; [lia|]. rewrite app_nil_r.
    cbn [get_loop]. rewrite (Walk_exact.rel_continue s w R), A. cbn [is_nil negb]. rewrite (Walk_exact.rel_pending s w c others R A). cbn [map_err bind fst].
    rewrite (RD _ _ O). destruct (get_round s w c others b k R A K) as (r & S & Ag & _). rewrite (Walk_exact.step_det X _ _ _ _ S St) in Ag.
    destruct Ag as (w2 & k2 & -> & _). cbn [map_err bind get_lines]. rewrite U. reflexivity.
  - destruct IH as (ND & N & IH). split; [exact ND|]. exists (S N). intros [|fuel] L w k printed R K; [lia|].
    cbn [get_loop]. rewrite (Walk_exact.rel_continue s w R), A. cbn [is_nil negb]. rewrite (Walk_exact.rel_pending s w c others R A). cbn [map_err bind fst].
    rewrite (RD _ _ O). destruct (get_round s w c others b k R A K) as (r & S & Ag & K'). rewrite (Walk_exact.step_det X _ _ _ _ S St) in Ag.
    destruct Ag as (w2 & k2 & E & R'). rewrite E in *. cbn [map_err bind snd] in *. rewrite (prints_lines _ _ P), (IH fuel ltac:(lia) w2 k2 _ R' K'), app_assoc. reflexivity.
Qed.
End get.

(** ** resolve *)
Lemma buckets_round needle c queue b k : clean k -> exists r, SpecLookupSteps.next_call X needle queue b r
  /\ exists k', lk_continue_walk X (Lookup (c :: queue) needle) b k = (Lookup_exact.seen needle r, k') /\ clean k'.
Proof.
  intros K. destruct (Lookup_exact.next_model X needle c queue b k) as (r & N & E). exists r. split; [exact N|].
  pose proof (continue_cache_clean X (Lookup (c :: queue) needle) b k K) as C. destruct (lk_continue_walk X _ b k) as [o k']. cbn [fst snd] in *. subst o. eauto.
Qed.
Lemma first_round needle b k : clean k -> exists r, SpecLookupSteps.first_call X needle b r
  /\ exists k', resolve X b needle k = (Lookup_exact.seen needle r, k') /\ clean k'.
Proof.
  intros K. destruct (Lookup_exact.first_model X needle b k K) as (r & N & E). exists r. split; [exact N|].
  pose proof (resolve_cache_clean X b needle k K) as C. destruct (resolve X b needle k) as [o k']. cbn [fst snd] in *. subst o. eauto.
Qed.

Lemma search_sound needle : forall fuel c queue k, clean k ->
  clean (snd (resolve_buckets X fuel fs dir (Lookup (c :: queue) needle) k))
  /\ (fst (resolve_buckets X fuel fs dir (Lookup (c :: queue) needle) k) <> Diverge ->
      search_on X fs dir needle c queue (fst (resolve_buckets X fuel fs dir (Lookup (c :: queue) needle) k))).
Proof.
  induction fuel as [|fuel IH]; intros c queue k K; cbn [resolve_buckets]; [split; [exact K|intros ND; cbn in ND; congruence]|].
  cbn [lk_pending_links lk_links map_err bind fst].
  destruct (@disk_cases resolve_error c) as [(b & O & RB)|(err & U & RB)]; rewrite RB.
  2:{ split; [exact K|]. intros _. apply so_unreadable. exact U. }
  destruct (buckets_round needle c queue b k K) as (r & N & k' & E & K'). rewrite E.
  destruct r as [[d| |d others]|e| |]; cbn [Lookup_exact.seen fst snd].
  - split; [exact K'|]. intros _. eapply so_found; eassumption.
  - split; [exact K'|]. intros _. eapply so_absent; eassumption.
  - destruct (IH d others k' K') as [I1 I2]. split; [exact I1|]. intros ND. eapply so_next; [exact O|exact N|]. apply I2. exact ND.
  - split; [exact K'|]. intros _. eapply so_error; eassumption.
  - split; [exact K'|]. intros _. eapply so_panic; eassumption.
  - split; [exact K'|]. intros ND. congruence.
Qed.
Lemma search_complete needle c queue res : search_on X fs dir needle c queue res -> res <> Diverge
  /\ exists N, forall fuel, (N <= fuel)%nat -> forall k, clean k -> fst (resolve_buckets X fuel fs dir (Lookup (c :: queue) needle) k) = res.
Proof.
  assert (RD : forall c b, on_disk fs dir c (Contents b) -> @read_block resolve_error fs dir c = Ok b).
  { intros c0 b O. rewrite (read_on_disk fs dir c0 _ G O). reflexivity. }
  intros H. induction H as [c queue err U|c queue b e O N|c queue b O N|c queue b O N|c queue b d O N|c queue b c' others' res O N H IH].
  1: { split; [discriminate|]. exists 1%nat. intros [|fuel] L k K; [lia|]. cbn [resolve_buckets lk_pending_links lk_links map_err bind fst].
       rewrite (read_unreadable fs dir c err G U). reflexivity. }
  1-4: (split; [discriminate|]; exists 1%nat; intros [|fuel] L k K; [lia|]; cbn [resolve_buckets lk_pending_links lk_links map_err bind fst]; rewrite (RD _ _ O);
        destruct (buckets_round needle c queue b k K) as (r & N' & k' & E & K'); rewrite E, (Lookup_exact.next_det X _ _ _ _ _ N' N); reflexivity).
  destruct IH as (ND & M & IH). split; [exact ND|]. exists (S M). intros [|fuel] L k K; [lia|]. cbn [resolve_buckets lk_pending_links lk_links map_err bind fst]. rewrite (RD _ _ O).
  destruct (buckets_round needle c queue b k K) as (r & N' & k' & E & K'). rewrite E, (Lookup_exact.next_det X _ _ _ _ _ N' N). cbn [Lookup_exact.seen].
  apply IH; [lia|exact K'].
Qed.

Lemma path_sound fuel : forall path c k, clean k -> resolve_walk X fuel fs dir c path k <> Diverge ->
  path_on X fs dir c path (resolve_walk X fuel fs dir c path k).
Proof.
  induction path as [|s rest IH]; intros c k K ND; cbn [resolve_walk] in *; [constructor|].
  destruct (@disk_cases resolve_error c) as [(b & O & RB)|(err & U & RB)]; rewrite RB in *; cbn [bind] in *.
  2:{ apply po_stop; [apply eo_unreadable; exact U|discriminate]. }
  destruct (first_round s b k K) as (r & F & k' & E & K'). rewrite E in *.
  destruct r as [[d| |d others]|e| |]; cbn [Lookup_exact.seen] in *.
  - eapply po_next; [eapply eo_found; eassumption|]. apply IH; assumption.
  - apply po_stop; [eapply eo_absent; eassumption|discriminate].
  - destruct (search_sound s fuel d others k' K') as [S1 S2].
    destruct (resolve_buckets X fuel fs dir (Lookup (d :: others) s) k') as [o k2]. cbn [fst snd] in *.
    destruct o as [[d'|]|e| |]; cbn [bind] in *.
    + eapply po_next; [eapply eo_search; [exact O|exact F|apply S2; discriminate]|]. apply IH; assumption.
    + apply po_stop; [eapply eo_search; [exact O|exact F|apply S2; discriminate]|discriminate].
    + apply po_stop; [eapply eo_search; [exact O|exact F|apply S2; discriminate]|discriminate].
    + apply po_stop; [eapply eo_search; [exact O|exact F|apply S2; discriminate]|discriminate].
    + congruence.
  - apply po_stop; [eapply eo_error; eassumption|discriminate].
  - apply po_stop; [eapply eo_panic; eassumption|discriminate].
  - congruence.
Qed.

Lemma entry_complete c s res : entry_of X fs dir c s res -> res <> Diverge
  /\ exists N, forall fuel, (N <= fuel)%nat -> forall k rest, clean k -> exists k', clean k'
     /\ resolve_walk X fuel fs dir c (s :: rest) k = (do o <- res; match o with Some d => resolve_walk X fuel fs dir d rest k' | None => Ok None end).
Proof.
  assert (RD : forall c b, on_disk fs dir c (Contents b) -> @read_block resolve_error fs dir c = Ok b).
  { intros c0 b O. rewrite (read_on_disk fs dir c0 _ G O). reflexivity. }
  intros H. destruct H as [err U|b e O N|b O N|b O N|b d O N|b d others res O N S].
  1: { split; [discriminate|]. exists 0%nat. intros fuel L k rest K. exists k. split; [exact K|]. cbn [resolve_walk]. rewrite (read_unreadable fs dir c err G U). reflexivity. }
  1-4: (split; [discriminate|]; exists 0%nat; intros fuel L k rest K; cbn [resolve_walk]; rewrite (RD _ _ O); cbn [bind];
        destruct (first_round s b k K) as (r & N' & k' & E & K'); exists k'; split; [exact K'|]; rewrite E, (Lookup_exact.first_det X _ _ _ _ N' N); reflexivity).
  destruct (search_complete _ _ _ _ S) as (ND & M & H). split; [exact ND|]. exists M. intros fuel L k rest K. cbn [resolve_walk]. rewrite (RD _ _ O). cbn [bind].
  destruct (first_round s b k K) as (r & N' & k' & E & K'). rewrite E, (Lookup_exact.first_det X _ _ _ _ N' N). cbn [Lookup_exact.seen].
  pose proof (H fuel L k' K') as Q. destruct (search_sound s fuel d others k' K') as [S1 _].
  destruct (resolve_buckets X fuel fs dir (Lookup (d :: others) s) k') as [o k2]. cbn [fst snd] in *. subst o. exists k2. split; [exact S1|reflexivity].
Qed.
Lemma path_complete c path res : path_on X fs dir c path res -> res <> Diverge
  /\ exists N, forall fuel, (N <= fuel)%nat -> forall k, clean k -> resolve_walk X fuel fs dir c path k = res.
Proof.
  intros H. induction H as [c|c s rest d res E H IH|c s rest res E NS].
  - split; [discriminate|]. exists 0%nat. reflexivity.
  - destruct (entry_complete _ _ _ E) as (_ & N1 & H1). destruct IH as (ND & N2 & H2). split; [exact ND|].
    exists (Nat.max N1 N2). intros fuel L k K. destruct (H1 fuel ltac:(lia) k rest K) as (k' & K' & ->). cbn [bind]. apply H2; [lia|exact K'].
  - destruct (entry_complete _ _ _ E) as (ND & N1 & H1). split; [exact ND|]. exists N1. intros fuel L k K.
    destruct (H1 fuel L k rest K) as (k' & K' & ->). destruct res as [[d|]|e| |]; try reflexivity. exfalso. eapply NS. reflexivity.
Qed.
End runs.
