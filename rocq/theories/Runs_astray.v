(** * Runs_astray: the program get without debug assertions, against
    SpecRunsAstray.v *)
From Verif Require Import Base Tac Wire Utf8 Cid Pb Reader Visit Dir Dir_proofs Walk SpecAdder SpecFile SpecDir SpecWalk Visit_proofs Walk_thms.
From Verif Require SpecWalkSteps Walk_exact.
From Verif Require Import SpecWalkAstray Walk_astray Programs SpecPrograms Store_proofs SpecRuns SpecRunsAstray Runs_proofs.

Section runs.
Context (X : ext) (fs : disk) (dir : bytes) (G : good_dir dir) (Hdbg : ext_dbg X = false).

Lemma astray_round s w c others b k : ARel s w -> SpecWalkSteps.awaited (a_state s) = c :: others -> clean_cache k ->
  exists res, strays X s b res /\ aagrees res (walk_next X w b k) /\ clean_cache (snd (walk_next X w b k)).
Proof.
  intros R A K. destruct (strays_model X Hdbg s w b k R ltac:(rewrite A; discriminate) K) as (res & S & Ag).
  exists res. split; [exact S|]. split; [exact Ag|]. apply (walk_next_cache X w b k k K K).
Qed.

Lemma astray_sound : forall fuel s w k printed res out, ARel s w -> clean_cache k ->
  get_loop X fuel fs dir w k printed = (res, out) -> res <> Diverge ->
  exists more, out = printed ++ more /\ get_astray X fs dir s res more.
Proof.
  induction fuel as [|fuel IH]; intros s w k printed res out R K E ND; cbn [get_loop] in E; rewrite (arel_continue s w R) in E;
    destruct (SpecWalkSteps.awaited (a_state s)) as [|c others] eqn:A; cbn [is_nil negb] in E.
  1,3: (injection E as <- <-; exists []; rewrite app_nil_r; split; [reflexivity|apply ga_end; exact A]).
  { injection E as <- <-. congruence. }
  rewrite (arel_pending s w c others R A) in E. cbn [map_err bind fst] in E.
  destruct (disk_cases fs dir G (T := walk_error) c) as [(b & O & RB)|(err & U & RB)]; rewrite RB in E.
  2:{ injection E as <- <-. exists []. rewrite app_nil_r. split; [reflexivity|]. eapply ga_unreadable; eassumption. }
  destruct (astray_round s w c others b k R A K) as (r & S & Ag & K'). destruct (walk_next X w b k) as [[wr w'] k'] eqn:W. cbn [snd] in K'.
  destruct r as [[it s']|e| |]; cbn [aagrees fst] in Ag.
  - destruct Ag as (w2 & k2 & E2 & R'). injection E2 as -> -> ->. cbn [map_err bind] in E.
    destruct (get_lines_cases it) as [(ls & P & L)|(t & d & path & md & -> & U & L)]; rewrite L in E.
    + destruct (IH _ _ _ _ _ _ R' K' E ND) as (more & -> & H). exists (ls ++ more). rewrite app_assoc. split; [reflexivity|]. eapply ga_next; eassumption.
    + injection E as <- <-. exists []. rewrite app_nil_r. split; [reflexivity|]. eapply ga_no_text; eassumption.
  - destruct Ag as (w2 & k2 & E2 & _). injection E2 as -> -> ->. cbn [map_err bind] in E. injection E as <- <-.
    exists []. rewrite app_nil_r. split; [reflexivity|]. eapply ga_error; eassumption.
  - subst wr. cbn [map_err bind] in E. injection E as <- <-. exists []. rewrite app_nil_r. split; [reflexivity|]. eapply ga_panic; eassumption.
  - subst wr. cbn [map_err bind] in E. injection E as <- <-. congruence.
Qed.

Lemma astray_complete s res more : get_astray X fs dir s res more ->
  res <> Diverge /\ exists N, forall fuel, (N <= fuel)%nat -> forall w k printed, ARel s w -> clean_cache k ->
  get_loop X fuel fs dir w k printed = (res, printed ++ more).
Proof.
  assert (RD : forall c b, on_disk fs dir c (Contents b) -> @read_block walk_error fs dir c = Ok b).
  { intros c0 b O. rewrite (read_on_disk fs dir c0 _ G O). reflexivity. }
  intros H. induction H as [s A|s c others err A U|s c others b e A O St|s c others b A O St|s c others b t d path md s' A O St U
    |s c others b it s' ls res more A O St P H IH].
  - split; [discriminate|]. exists 0%nat. intros fuel _ w k printed R K. rewrite app_nil_r.
    destruct fuel; cbn [get_loop]; rewrite (arel_continue s w R), A; reflexivity.
  - split; [discriminate|]. exists 1%nat. intros [|fuel] L w k printed R K; [lia|]. rewrite app_nil_r.
    cbn [get_loop]. rewrite (arel_continue s w R), A. cbn [is_nil negb]. rewrite (arel_pending s w c others R A). cbn [map_err bind fst].
    rewrite (read_unreadable fs dir c err G U). reflexivity.
  - split; [discriminate|]. exists 1%nat. intros [|fuel] L w k printed R K; [lia|]. rewrite app_nil_r.
    cbn [get_loop]. rewrite (arel_continue s w R), A. cbn [is_nil negb]. rewrite (arel_pending s w c others R A). cbn [map_err bind fst].
    rewrite (RD _ _ O). destruct (astray_round s w c others b k R A K) as (r & S & Ag & _). rewrite (strays_det X _ _ _ _ S St) in Ag.
    destruct Ag as (w2 & k2 & -> & _). reflexivity.
  - split; [discriminate|]. exists 1%nat. intros [|fuel] L w k printed R K; [lia|]. rewrite app_nil_r.
    cbn [get_loop]. rewrite (arel_continue s w R), A. cbn [is_nil negb]. rewrite (arel_pending s w c others R A). cbn [map_err bind fst].
    rewrite (RD _ _ O). destruct (astray_round s w c others b k R A K) as (r & S & Ag & _). rewrite (strays_det X _ _ _ _ S St) in Ag.
    cbn in Ag. destruct (walk_next X w b k) as [[wr w'] k']. cbn [fst] in Ag. subst wr. reflexivity.
  - split; [discriminate|]. exists 1%nat. intros [|fuel] L w k printed R K; [lia|]. rewrite app_nil_r.
    cbn [get_loop]. rewrite (arel_continue s w R), A. cbn [is_nil negb]. rewrite (arel_pending s w c others R A). cbn [map_err bind fst].
    rewrite (RD _ _ O). destruct (astray_round s w c others b k R A K) as (r & S & Ag & _). rewrite (strays_det X _ _ _ _ S St) in Ag.
    destruct Ag as (w2 & k2 & -> & _). cbn [map_err bind get_lines]. rewrite U. reflexivity.
  - destruct IH as (ND & N & IH). split; [exact ND|]. exists (S N). intros [|fuel] L w k printed R K; [lia|].
    cbn [get_loop]. rewrite (arel_continue s w R), A. cbn [is_nil negb]. rewrite (arel_pending s w c others R A). cbn [map_err bind fst].
    rewrite (RD _ _ O). destruct (astray_round s w c others b k R A K) as (r & S & Ag & K'). rewrite (strays_det X _ _ _ _ S St) in Ag.
    destruct Ag as (w2 & k2 & E & R'). rewrite E in *. cbn [map_err bind snd] in *. rewrite (prints_lines _ _ P), (IH fuel ltac:(lia) w2 k2 _ R' K'), app_assoc. reflexivity.
Qed.
End runs.
