(** * Property C70: cat, get and resolve on any disk, whatever the blocks are.
    The vocabulary is in SpecRuns.v, the proofs in Runs_proofs.v. *)
From Coq Require Import Arith.
From Verif Require Import Base Tac Wire Utf8 Cid Pb Reader Visit Dir Walk SpecFile SpecDir SpecWalk
  Examples_file Examples_dir Examples_walk.
From Verif Require SpecFileSteps SpecWalkSteps SpecLookupSteps Walk_exact.
From Verif Require Import Programs SpecPrograms Store_proofs SpecRuns Runs_proofs PropertiesPrograms.

(** C70, cat: the runs of SpecRuns.v are those of the program, and there is one
    of them at most; without one, the program does not end *)
Theorem C70_cat : forall X ipfs dir fs c, blocks_place ipfs dir ->
  (forall res out, cat_run X fs dir c res out ->
     res <> Diverge /\ exists N, forall fuel, (N <= fuel)%nat -> cat_walk X fuel fs dir c = (res, out))
  /\ (forall res out res' out', cat_run X fs dir c res out -> cat_run X fs dir c res' out' -> res' = res /\ out' = out)
  /\ (forall fuel res out, cat_walk X fuel fs dir c = (res, out) -> res <> Diverge -> cat_run X fs dir c res out).
Proof.
  intros X ipfs dir fs c PL. pose proof (place_good _ _ PL) as G. split; [|split].
  - intros res out H. exact (cat_walk_complete X fs dir G c res out H).
  - intros res out res' out' H H'. destruct (cat_walk_complete X fs dir G c res out H) as (_ & N & E).
    destruct (cat_walk_complete X fs dir G c res' out' H') as (_ & N' & E').
    specialize (E (Nat.max N N') ltac:(lia)). specialize (E' (Nat.max N N') ltac:(lia)). rewrite E in E'. injection E' as <- <-. auto.
  - intros fuel res out. exact (cat_walk_sound X fs dir G fuel c res out).
Qed.
Print Assumptions C70_cat.

(** C70, get, with assertions on (see SpecWalkSteps.v) *)
Theorem C70_get : forall X ipfs dir fs c, ext_dbg X = true -> blocks_place ipfs dir ->
  (forall res lines, get_on X fs dir (SpecWalkSteps.beginning c []) res lines ->
     res <> Diverge /\ exists N, forall fuel, (N <= fuel)%nat -> get_walk X fuel fs dir c = (res, lines))
  /\ (forall res lines res' lines', get_on X fs dir (SpecWalkSteps.beginning c []) res lines ->
      get_on X fs dir (SpecWalkSteps.beginning c []) res' lines' -> res' = res /\ lines' = lines)
  /\ (forall fuel res lines, get_walk X fuel fs dir c = (res, lines) -> res <> Diverge ->
      get_on X fs dir (SpecWalkSteps.beginning c []) res lines).
Proof.
  intros X ipfs dir fs c D PL. pose proof (place_good _ _ PL) as G.
  assert (R : Walk_exact.Rel (SpecWalkSteps.beginning c []) (walker_new c [])) by (apply Walk_exact.rel_begin; intros []).
  assert (C : forall res lines, get_on X fs dir (SpecWalkSteps.beginning c []) res lines ->
    res <> Diverge /\ exists N, forall fuel, (N <= fuel)%nat -> get_walk X fuel fs dir c = (res, lines)).
  { intros res lines H. destruct (get_complete X fs dir G D _ _ _ H) as (ND & N & E). split; [exact ND|]. exists N. intros fuel L.
    exact (E fuel L _ _ _ R (or_introl eq_refl)). }
  split; [exact C|]. split.
  - intros res out res' out' H H'. destruct (C _ _ H) as (_ & N & E). destruct (C _ _ H') as (_ & N' & E').
    specialize (E (Nat.max N N') ltac:(lia)). specialize (E' (Nat.max N N') ltac:(lia)). rewrite E in E'. injection E' as <- <-. auto.
  - intros fuel res lines E ND. destruct (get_sound X fs dir G D fuel _ _ _ _ _ _ R (or_introl eq_refl) E ND) as (more & -> & H). exact H.
Qed.
Print Assumptions C70_get.

(** C70, resolve *)
Theorem C70_resolve : forall X ipfs dir fs c path, blocks_place ipfs dir ->
  (forall res, path_on X fs dir c path res ->
     res <> Diverge /\ exists N, forall fuel, (N <= fuel)%nat -> resolve_walk X fuel fs dir c path None = res)
  /\ (forall res res', path_on X fs dir c path res -> path_on X fs dir c path res' -> res' = res)
  /\ (forall fuel, resolve_walk X fuel fs dir c path None <> Diverge -> path_on X fs dir c path (resolve_walk X fuel fs dir c path None)).
Proof.
  intros X ipfs dir fs c path PL. pose proof (place_good _ _ PL) as G.
  assert (C : forall res, path_on X fs dir c path res ->
     res <> Diverge /\ exists N, forall fuel, (N <= fuel)%nat -> resolve_walk X fuel fs dir c path None = res).
  { intros res H. destruct (path_complete X fs dir G _ _ _ H) as (ND & N & E). split; [exact ND|]. exists N. intros fuel L. exact (E fuel L None (or_introl eq_refl)). }
  split; [exact C|]. split.
  - intros res res' H H'. destruct (C _ H) as (_ & N & E). destruct (C _ H') as (_ & N' & E').
    specialize (E (Nat.max N N') ltac:(lia)). specialize (E' (Nat.max N N') ltac:(lia)). congruence.
  - intros fuel ND. exact (path_sound X fs dir G fuel path c None (or_introl eq_refl) ND).
Qed.
Print Assumptions C70_resolve.

(** the programs: 0 for success, 1 for an error, and a panic ends them; what was
    printed before stays printed *)
Definition exit_code {E A} (r : outcome E A) : outcome Empty_set N :=
  match r with Ok _ => Ok 0 | Err _ => Ok 1 | Panic => Panic | Diverge => Diverge end.
Theorem C70_main : forall X ipfs dir fs cid_of_str arg, blocks_place ipfs dir ->
  (forall c res out, cid_of_str arg = Some c -> cat_run X fs dir c res out ->
     exists N, forall fuel, (N <= fuel)%nat -> cat_main X cid_of_str fuel fs (Some arg) (Some ipfs) = (exit_code res, out))
  /\ (forall c res lines, ext_dbg X = true -> cid_of_str arg = Some c -> get_on X fs dir (SpecWalkSteps.beginning c []) res lines ->
     exists N, forall fuel, (N <= fuel)%nat -> get_main X cid_of_str fuel fs (Some arg) (Some ipfs) = (exit_code res, lines))
  /\ (forall c path res, path_try_from cid_of_str arg = Ok (c, path) -> path_on X fs dir c path res ->
     exists N, forall fuel, (N <= fuel)%nat ->
     resolve_main X cid_of_str fuel fs (Some arg) (Some ipfs) = (exit_code res, match res with Ok (Some d) => [d] | _ => [] end)).
Proof.
  intros X ipfs dir fs f arg PL. pose proof (proj1 (C54_dir _ _) PL) as PD.
  unfold cat_main, get_main, resolve_main, main, ok_or. split; [|split].
  - intros c res out A H. destruct (C70_cat X ipfs dir fs c PL) as (C & _). destruct (C _ _ H) as (_ & N & E). exists N. intros fuel L.
    rewrite A, <- PD, (E fuel L). reflexivity.
  - intros c res out D A H. destruct (C70_get X ipfs dir fs c D PL) as (C & _). destruct (C _ _ H) as (_ & N & E). exists N. intros fuel L.
    rewrite A, <- PD, (E fuel L). reflexivity.
  - intros c path res A H. destruct (C70_resolve X ipfs dir fs c path PL) as (C & _). destruct (C _ H) as (_ & N & E). exists N. intros fuel L.
    rewrite A. cbn [fst snd]. rewrite <- PD, (E fuel L). reflexivity.
Qed.
Print Assumptions C70_main.

(** The store is not checked against the Cids: a disk that has for [c] a
    directory with an entry for [c] makes get print lines for ever *)
Definition self_dir : flat := dirm [nlnk 1 [x61]].
Theorem C70_get_forever : forall X ipfs dir fs, ext_ok X -> ext_dbg X = true -> blocks_place ipfs dir ->
  on_disk fs dir (idc 1) (Contents (flat_write self_dir)) ->
  forall fuel, fst (get_walk X fuel fs dir (idc 1)) = Diverge.
Proof.
  intros X ipfs dir fs HX D PL O fuel.
  assert (P : try_parse (ext_dbg X) (flat_write self_dir) = Ok self_dir) by (destruct (ext_dbg X); vm_compute; reflexivity).
  assert (S : supported_dir (f_data self_dir)) by (repeat split; left; reflexivity).
  assert (L : forall cs, SpecWalkSteps.links_in (SpecWalkSteps.link_in_dir X cs) 0 (f_links self_dir) (Ok [(idc 1, SpecWalkSteps.Entry cs [x61])])).
  { intros cs. eapply SpecWalkSteps.l_good; [constructor|]. apply SpecWalkSteps.d_named; [apply nlnk_cid, HX|discriminate|].
    intros [H|[]]. discriminate H. }
  assert (W : forall s, (s = SpecWalkSteps.beginning (idc 1) [] \/ exists cs, s = SpecWalkSteps.State SpecWalkSteps.PlainDirectory None [(idc 1, SpecWalkSteps.Entry cs [x61])]) ->
     SpecWalkSteps.awaited s = [idc 1] /\ exists it cs, SpecWalkSteps.step X s (flat_write self_dir)
       (Ok (it, SpecWalkSteps.State SpecWalkSteps.PlainDirectory None [(idc 1, SpecWalkSteps.Entry cs [x61])]))
       /\ forall t c p md, it <> WSymlink t c p md).
  { intros s [-> |[cs ->]]; (split; [reflexivity|]); eexists _, _.
    - split; [eapply SpecWalkSteps.s_enters; [exact P|]; exact (SpecWalkSteps.e_root_dir X SpecWalkSteps.Nothing [] (idc 1) (SpecWalkSteps.AtRoot []) self_dir _ S (L []) (ex_intro _ [] eq_refl))|discriminate].
    - split; [eapply SpecWalkSteps.s_enters; [exact P|]; refine (SpecWalkSteps.e_dir X SpecWalkSteps.PlainDirectory [] (idc 1) (SpecWalkSteps.Entry cs [x61]) self_dir _ S (L (cs ++ [[x61]])) _ _); [intros [? H]; discriminate H|right; discriminate]|discriminate]. }
  assert (B : forall b, on_disk fs dir (idc 1) (Contents b) -> b = flat_write self_dir).
  { intros b O'. destruct (C54_path Empty_set ipfs dir (idc 1) PL) as (q & A & U). specialize (O q (proj2 (U q) eq_refl)). specialize (O' q (proj2 (U q) eq_refl)). congruence. }
  assert (NE : forall err : program_error walk_error, ~ unreadable fs dir (idc 1) err).
  { intros err U. destruct (C54_path Empty_set ipfs dir (idc 1) PL) as (q & A & Uq). specialize (O q (proj2 (Uq q) eq_refl)).
    destruct U as [(e & U & _)|(e & U & _)]; specialize (U q (proj2 (Uq q) eq_refl)); congruence. }
  assert (F : forall s res lines, get_on X fs dir s res lines ->
     (s = SpecWalkSteps.beginning (idc 1) [] \/ exists cs, s = SpecWalkSteps.State SpecWalkSteps.PlainDirectory None [(idc 1, SpecWalkSteps.Entry cs [x61])]) -> False).
  { intros s res lines H. induction H as [s A|s c others err A U|s c others b e A O' St|s c others b A O' St|s c others b t d path md s' A O' St U
    |s c others b it s' ls res more A O' St Pr H IH]; intros Q; destruct (W s Q) as (A1 & it0 & cs & St0 & N0); rewrite A1 in A; try discriminate A;
      injection A as <- <-; try (rewrite (B _ O') in St; pose proof (Walk_exact.step_det X _ _ _ _ St St0) as E; try discriminate E).
    - exact (NE _ U).
    - injection E as <- _. exact (N0 _ _ _ _ eq_refl).
    - injection E as -> ->. apply IH. right. eexists. reflexivity. }
  destruct (get_walk X fuel fs dir (idc 1)) as [res lines] eqn:E. cbn [fst].
  destruct res as [u|e| |]; [exfalso..|reflexivity];
    (destruct (C70_get X ipfs dir fs (idc 1) D PL) as (_ & _ & C); eapply F; [eapply C; [exact E|discriminate]|left; reflexivity]).
Qed.
Print Assumptions C70_get_forever.

(** there are such runs: of the file, the tree and a path of PropertiesPrograms.v,
    and of the same file with a block missing *)
Example C70_nonvacuous : forall X, ext_ok X -> ext_dbg X = true -> exists fs,
  on_disk fs ex_dir (idc 10) (Contents (flat_write (t_msg 10)))
  /\ (exists n, cat_run X fs ex_dir (idc 11) (Ok (n, 4)) [x61; x62; x63; x64])
  /\ get_on X fs ex_dir (SpecWalkSteps.beginning (idc 10) []) (Ok tt) (listing [] t_tree)
  /\ path_on X fs ex_dir (idc 10) [[x73]; [x64]; [x78]] (Ok (Some (idc 3))).
Proof.
  intros X HX D. destruct (C58_nonvacuous X HX) as (_ & _ & _ & _ & _ & U & L & _).
  destruct (C54_store [x2f] ex_dir kept_blocks ex_place) as (fs & St & At). exists fs.
  split; [intros p; apply St; apply kept_has; cbn; tauto|]. split; [|split].
  - destruct (C55_cat X [x2f] ex_dir fs _ (idc 11) _ _ ex_place (kept_file X HX) St) as (blocks & B & H).
    pose proof (kept_below X HX) as B'.
    assert (E : blocks = map (fun n => (idc n, flat_write (t_msg n))) [11; 1; 2; 4; 5; 3]).
    { clear - B B'. revert blocks B. generalize dependent (map (fun n => (idc n, flat_write (t_msg n))) [11; 1; 2; 4; 5; 3]).
      intros l B'. induction B' as [|c b f ds more kbs G P M B' IH]; intros blocks B; inversion B as [|? b2 f2 ds2 ? kbs2 G2 P2 M2 B2]; subst; [reflexivity|].
      rewrite G in G2. injection G2 as <-. rewrite P in P2. injection P2 as <-. rewrite M in M2.
      assert (ds = ds2) by (clear - M2; revert ds2 M2; induction ds; intros [|? ?] E; try discriminate; [reflexivity|]; injection E as -> E; f_equal; auto).
      subst ds2. f_equal. apply IH. exact B2. }
    subst blocks. specialize (H ltac:(vm_compute; reflexivity) 6%nat (le_n 6)).
    destruct (C70_cat X [x2f] ex_dir fs (idc 11) ex_place) as (_ & _ & C). eexists. eapply C; [exact H|discriminate].
  - destruct (C59_listing X [x2f] ex_dir fs _ (idc 10) t_tree ex_place (kept_tree X HX) t_walkable) as (N & H); [|exact St|].
    { intros c p md target I. cbn -[idc] in I. repeat (destruct I as [I|I]; [first [discriminate I|injection I as _ _ _ <-; apply Text_proofs.valid_text; reflexivity]|]). destruct I. }
    destruct (C70_get X [x2f] ex_dir fs (idc 10) D ex_place) as (_ & _ & C). eapply C; [apply (H N (le_n N))|discriminate].
  - destruct (C58_found X [x2f] ex_dir fs (holding kept_blocks) (idc 10) t_tree [[x73]; [x64]; [x78]] (idc 3) x_tree ex_place (kept_tree X HX)) as (N & H).
    + exact U.
    + exact St.
    + exact L.
    + destruct (C70_resolve X [x2f] ex_dir fs (idc 10) [[x73]; [x64]; [x78]] ex_place) as (_ & _ & C). specialize (C N).
      rewrite (H N (le_n N)) in C. apply C. discriminate.
Qed.
Example C70_forever_nonvacuous : exists fs, on_disk fs ex_dir (idc 1) (Contents (flat_write self_dir)).
Proof.
  destruct (C54_store [x2f] ex_dir [(idc 1, flat_write self_dir)] ex_place) as (fs & St & _). exists fs.
  intros p. apply St. vm_compute. reflexivity.
Qed.
