(** * Property C72: walks in builds without debug assertions, call by call, on
    arbitrary blocks, including those that do not fit their places; from it the
    exact conditions of the panics (C41), and what the program get does (C70).
    The vocabulary is in SpecWalkAstray.v and SpecRunsAstray.v, the proofs in
    Walk_astray.v and Runs_astray.v. *)
From Coq Require Import Arith.
From Verif Require Import Base Tac Wire Utf8 Cid Pb Reader Visit Dir Walk SpecFile SpecDir SpecWalk
  Dir_proofs Visit_proofs Walk_proofs Walk_sim Walk_steps Walk_thms Walk_paths
  Programs SpecPrograms Store_proofs SpecRuns SpecRunsAstray Runs_proofs Runs_astray PropertiesPrograms PropertiesRuns
  Examples_codec Examples_file Examples_dir Examples_walk SpecFileSteps Steps_proofs SpecWalkSteps Walk_exact PropertiesWalkSteps SpecWalkAstray Walk_astray.

(** C72: at every point of every walk there is a state of SpecWalkAstray.v that
    tells which blocks are awaited, and the one answer it gives to any block is
    the answer of the code *)
Theorem C72_step : forall X gives root name bs asked items w, ~ In x2f name -> ext_dbg X = false ->
  walks X gives (walker_new root name) bs asked items w ->
  exists a, wanders X root name bs asked items a
  /\ (should_continue w = true <-> awaited (a_state a) <> [])
  /\ forall c others, awaited (a_state a) = c :: others ->
     w_pending_links w = Ok (c, others)
     /\ forall b k, clean_cache k -> exists res, strays X a b res /\ (forall res', strays X a b res' -> res' = res)
        /\ match res with
           | Ok (it, _) => exists w' k', walk_next X w b k = (Ok it, w', k')
           | Err e => exists w' k', walk_next X w b k = (Err e, w', k')
           | Panic => fst (fst (walk_next X w b k)) = Panic
           | Diverge => fst (fst (walk_next X w b k)) = Diverge
           end.
Proof.
  intros X gives root name bs asked items w Hn Hd H.
  destruct (walks_wander X Hd gives root name bs Hn asked items w H) as (a & F & R). exists a. split; [exact F|]. split.
  { rewrite (arel_continue a w R). destruct (awaited (a_state a)); cbn; split; congruence. }
  intros c others A. split; [exact (arel_pending a w c others R A)|]. intros b k K.
  destruct (strays_model X Hd a w b k R ltac:(rewrite A; discriminate) K) as (res & S & Ag).
  exists res. split; [exact S|]. split; [intros res' S'; exact (strays_det X _ _ _ _ S' S)|].
  destruct res as [[it s']|e| |]; cbn in Ag; try exact Ag.
  - destruct Ag as (w' & k' & E & _). eauto.
  - destruct Ag as (w' & k' & E & _). eauto.
Qed.
Print Assumptions C72_step.

(** and conversely *)
Theorem C72_accepts : forall X root name bs asked items a, ~ In x2f name -> ext_dbg X = false ->
  wanders X root name bs asked items a ->
  exists w, walks X anything (walker_new root name) bs asked items w /\ (should_continue w = true <-> awaited (a_state a) <> []).
Proof.
  intros X root name bs asked items a Hn Hd F. destruct (wander_walks X Hd root name bs asked items a Hn F) as (w & W & R).
  exists w. split; [exact W|]. rewrite (arel_continue a w R). destruct (awaited (a_state a)); cbn; split; congruence.
Qed.
Print Assumptions C72_accepts.

(** as long as every block fits its place, this is SpecWalkSteps.v *)
Theorem C72_conforms : forall X root name bs asked items s, ~ In x2f name -> ext_dbg X = false ->
  follows X root name bs asked items s ->
  exists a, wanders X root name bs asked items a /\ (awaited (a_state a) <> [] <-> awaited s <> []).
Proof.
  intros X root name bs asked items s Hn Hd F. destruct (C52_accepts X root name bs asked items s Hn F) as (w & W & C).
  destruct (C72_step X anything root name bs asked items w Hn Hd W) as (a & Wa & C' & _). exists a. split; [exact Wa|]. rewrite <- C, <- C'. reflexivity.
Qed.
Print Assumptions C72_conforms.

(** the answers inside a file *)
Lemma file_panics X pr r q b : step X (State pr (Some r) q) b Panic <->
  exists c rg rest, r_links r = (c, rg) :: rest
  /\ (next_step X None (r_prev r) rg rest b Panic
      \/ (forall e, ~ misplaced (r_prev r) rg e) /\ exists e, try_parse (ext_dbg X) b = Err e).
Proof.
  split.
  - intros S. inversion S as [? ? ? ? c rg rest e L N|? ? ? ? c rg rest L N| | | | | |]; subst; exists c, rg, rest; (split; [exact L|]).
    + right. destruct e as [fe|t|oe|ie]; cbn in *; try discriminate.
      inversion N as [|? MP P| | |? MP P NM|f ? MP P NM O]; subst.
      * split; [exact MP|eauto].
      * exfalso. eapply (opened_err X _ _ _ _ O). reflexivity.
    + left. exact N.
  - intros (c & rg & rest & L & [N|(MP & e & P)]).
    + eapply s_file_panic; eassumption.
    + pose proof (n_unreadable X None (r_prev r) rg rest b e MP P) as N. pose proof (s_file_error X pr r q b c rg rest _ L N) as S.
      destruct e; exact S.
Qed.
Lemma failure_panic {A B} (r : outcome walk_error A) : (forall a, r <> Ok a) -> @failure A B r = Panic -> r = Panic.
Proof. intros N H. destruct r as [a|e| |]; try discriminate H; [exfalso; eapply N; reflexivity|reflexivity]. Qed.

(** a block in order is accepted, or there is a panic *)
Lemma in_order_accepted X pr q c p f res : in_order X f -> enters X pr q c p f res -> (forall a, res <> Ok a) -> res = Panic.
Proof.
  intros IO H NO. unfold in_order in IO.
  assert (T : forall e, told e = res -> is_file (f_data f) -> opened X None (0, blen (own_data f)) [] f (Err e) -> False).
  { intros e _ F O. assert (IO' : exists r, opened X None (0, blen (own_data f)) [] f (Ok r)) by (destruct F as [F|F]; rewrite F in IO; exact IO).
    destruct IO' as [r O']. discriminate (opened_det X None _ _ f _ _ O O'). }
  inversion H as [| Ty NS|e S L| | | |Ty NS|Ty H1 H2 NS|e S L| | | | | | |e F O| | | |Ty]; subst; try reflexivity; try (exfalso; eapply NO; reflexivity); exfalso.
  - rewrite Ty in IO. apply NS, IO.
  - rewrite (sd_type _ S) in IO. destruct (dir_back X f p (proj2 IO)) as [es L']. discriminate (links_det _ (link_dir_det X (names p)) _ _ _ L _ L').
  - rewrite Ty in IO. apply NS. apply ss_props, IO.
  - rewrite Ty in IO. apply NS, IO.
  - rewrite (ss_type _ S) in IO. destruct (shard_back X f p (proj2 IO)) as [es L']. discriminate (links_det _ (link_shard_det X (names p)) _ _ _ L _ L').
  - exact (T e eq_refl F O).
  - rewrite Ty in IO. exact IO.
Qed.
Lemma accepted_in_order X pr q c p f a : enters X pr q c p f (Ok a) -> in_order X f.
Proof.
  intros H. unfold in_order. inversion H; subst;
    try (match goal with A : supported_dir _ |- _ => rewrite (sd_type _ A); split; [exact A|eapply dir_good; eassumption] end);
    try (match goal with A : supported_shard _ |- _ => rewrite (ss_type _ A); split; [exact A|eapply shard_good; eassumption] end).
  - match goal with E : told ?e = Ok _ |- _ => destruct e; discriminate E end.
  - match goal with A : is_file _ |- _ => destruct A as [A|A]; rewrite A; eauto end.
  - match goal with A : u_type _ = Symlink |- _ => rewrite A; exact Logic.I end.
Qed.
(** the panics of blocks that fit their places *)
Lemma enters_panic X pr q c p f : ext_dbg X = false -> enters X pr q c p f Panic ->
  supported_dir (f_data f) /\ last_bad X bad_in_dir (f_links f)
  \/ supported_shard (f_data f) /\ last_bad X bad_in_shard (f_links f)
  \/ is_file (f_data f) /\ opened X None (0, blen (own_data f)) [] f Panic
  \/ u_type (f_data f) = HAMTShard /\ in_order X f /\ pr = PlainDirectory /\ (exists dir, p = Bucket dir).
Proof.
  intros Hd O. inversion O; subst.
  - congruence.
  - left. split; [assumption|]. eapply dir_panic; eassumption.
  - right. left. split; [assumption|]. eapply shard_panic; eassumption.
  - right. right. right. split; [eapply ss_type; eassumption|]. split; [|split; [reflexivity|eauto]].
    unfold in_order. match goal with Z : supported_shard _ |- _ => rewrite (ss_type _ Z) end. split; [assumption|]. eapply (shard_good X f (Bucket _)); eassumption.
  - exfalso. match goal with Z : told ?e = Panic |- _ => destruct e as [fe|t|oe|ie]; try discriminate Z end. eapply opened_err; [eassumption|reflexivity].
  - right. right. left. split; assumption.
Qed.

(** C41 without debug assertions: as C41_exact, but a block that does not fit its
    place is no reason to panic; it is one that the way to the place of the block
    leads up from the empty path *)
Theorem C72_panics : forall X gives root name bs asked items w, ~ In x2f name -> ext_dbg X = false ->
  walks X gives (walker_new root name) bs asked items w -> should_continue w = true ->
  exists a, wanders X root name bs asked items a
  /\ forall b k, clean_cache k ->
     (fst (fst (walk_next X w b k)) = Panic <->
      match s_file (a_state a), s_queue (a_state a) with
      | None, (c, p) :: _ =>
        try_parse false b = Panic
        \/ exists f, try_parse false b = Ok f
           /\ (supported_dir (f_data f) /\ last_bad X bad_in_dir (f_links f)
               \/ supported_shard (f_data f) /\ last_bad X bad_in_shard (f_links f)
               \/ is_file (f_data f) /\ opened X None (0, blen (own_data f)) [] f Panic
               \/ u_type (f_data f) = HAMTShard /\ in_order X f /\ s_prior (a_state a) = PlainDirectory /\ (exists dir, p = Bucket dir)
               \/ in_order X f /\ arrive (a_path a) (a_level a) p (u_type (f_data f)) = None)
      | Some r, _ => exists c rg rest, r_links r = (c, rg) :: rest
        /\ (next_step X None (r_prev r) rg rest b Panic
            \/ (forall e, ~ misplaced (r_prev r) rg e) /\ exists e, try_parse false b = Err e)
      | None, [] => False
      end).
Proof.
  intros X gives root name bs asked items w Hn Hd H SC.
  destruct (walks_wander X Hd gives root name bs Hn asked items w H) as (a & F & R). exists a. split; [exact F|].
  intros b k K. rewrite (arel_continue a w R) in SC. destruct (awaited (a_state a)) as [|c0 o0] eqn:Aw; [discriminate SC|].
  destruct (strays_model X Hd a w b k R ltac:(rewrite Aw; discriminate) K) as (res & S & Ag).
  assert (Q : fst (fst (walk_next X w b k)) = Panic <-> strays X a b Panic).
  { split.
    - intros E. destruct res as [[it s']|e| |]; cbn in Ag; [destruct Ag as (? & ? & Ag & _); rewrite Ag in E; discriminate E..|exact S|congruence].
    - intros E. rewrite (strays_det X _ _ _ _ S E) in Ag. exact Ag. }
  rewrite Q. clear Q. clear F H SC. destruct a as [[pr [r|] q] l n]; cbn [a_state s_file s_queue s_prior a_path a_level] in *.
  - rewrite <- Hd, <- (file_panics X pr r q b). split.
    + intros Z. inversion Z as [|? ? ? ? ? ? res0 S0 NO| | | |]; subst. rewrite <- (failure_panic res0 NO ltac:(eassumption)). exact S0.
    + intros Z. exact (y_file_fails X pr r q l n b Panic Z ltac:(discriminate)).
  - destruct q as [|[c p] q]; [discriminate Aw|]. split.
    + intros Z. inversion Z as [| |? ? ? ? ? res0 S0 NP|? ? ? ? ? ? ? f res0 P E NO| |? ? ? ? ? ? ? f it s' P E A]; subst.
      * left. inversion S0 as [| | | |? ? ? e P|? ? ? P|? ? ? P|? ? ? ? ? f ? P ?]; subst.
        -- match goal with E : failure _ = Panic |- _ => discriminate E end.
        -- rewrite <- Hd. exact P.
        -- match goal with E : failure _ = Panic |- _ => discriminate E end.
        -- exfalso. apply (NP f). rewrite <- Hd. exact P.
      * right. exists f. split; [exact P|]. pose proof (failure_panic res0 NO ltac:(eassumption)) as ->.
        destruct E as [Fi E|Fi E]; apply (enters_panic X _ _ _ _ _ Hd) in E; [tauto|]. destruct E as [E|[E|[E|(T & IO & Pr & dir & E)]]]; [tauto..|].
        destruct p; discriminate E.
      * right. exists f. split; [exact P|]. right. right. right. right. split; [|exact A]. destruct E as [_ E|_ E]; eapply accepted_in_order; exact E.
    + intros [P|(f & P & Z)].
      * apply (y_unparsable X pr _ l n b Panic); [apply s_panic; rewrite Hd; exact P|congruence].
      * assert (Y : forall r0, enters_anyway X pr q c p f r0 -> r0 = Panic -> strays X (Astray (State pr None ((c, p) :: q)) l n) b Panic).
        { intros r0 E ->. exact (y_fails X pr c p q l n b f Panic P E ltac:(discriminate)). }
        destruct (place_for X pr q c p f) as (p0 & F0 & EA & P0).
        destruct Z as [[Su L]|[[Su L]|[[I O]|[(T & IO & Pr & dir & ->)|[IO NA]]]]].
        -- eapply Y; [apply EA, e_dir_panic; [exact Su|apply dir_panic; exact L]|reflexivity].
        -- eapply Y; [apply EA, e_shard_panic; [exact Su|apply shard_panic; exact L]|reflexivity].
        -- eapply Y; [apply EA, e_file_panic; assumption|reflexivity].
        -- unfold in_order in IO. rewrite T in IO. destruct IO as [Su G]. destruct (shard_back X f (Bucket dir) G) as [es L].
           eapply Y; [|reflexivity]. apply a_fits; [exact T|]. eapply e_bucket_after_dir; [exact Su|exact L|reflexivity|exact Pr].
        -- inversion S as [| |? ? ? ? ? res0 S0 NP|? ? ? ? ? ? ? f' res0 P' E NO|? ? ? ? ? ? ? f' it s' l' P' E A|? ? ? ? ? ? ? f' it s' P' E A]; subst.
           ++ exfalso. exact (NP f P).
           ++ rewrite P in P'. injection P' as <-. eapply Y; [exact E|]. destruct E as [_ E|_ E]; eapply in_order_accepted; eassumption.
           ++ exfalso. rewrite P in P'. injection P' as <-. congruence.
           ++ exact S.
Qed.
Print Assumptions C72_panics.

(** C70, get, without debug assertions *)
Theorem C72_get : forall X ipfs dir fs c, ext_dbg X = false -> blocks_place ipfs dir ->
  (forall res lines, get_astray X fs dir (Astray (beginning c []) [] 0) res lines ->
     res <> Diverge /\ exists N, forall fuel, (N <= fuel)%nat -> get_walk X fuel fs dir c = (res, lines))
  /\ (forall res lines res' lines', get_astray X fs dir (Astray (beginning c []) [] 0) res lines ->
      get_astray X fs dir (Astray (beginning c []) [] 0) res' lines' -> res' = res /\ lines' = lines)
  /\ (forall fuel res lines, get_walk X fuel fs dir c = (res, lines) -> res <> Diverge ->
      get_astray X fs dir (Astray (beginning c []) [] 0) res lines).
Proof.
  intros X ipfs dir fs c D PL. pose proof (place_good _ _ PL) as G.
  assert (R : ARel (Astray (beginning c []) [] 0) (walker_new c [])) by (apply ar_begin; intros []).
  assert (C : forall res lines, get_astray X fs dir (Astray (beginning c []) [] 0) res lines ->
    res <> Diverge /\ exists N, forall fuel, (N <= fuel)%nat -> get_walk X fuel fs dir c = (res, lines)).
  { intros res lines H. destruct (astray_complete X fs dir G D _ _ _ H) as (ND & N & E). split; [exact ND|]. exists N. intros fuel L.
    exact (E fuel L _ _ _ R (or_introl eq_refl)). }
  split; [exact C|]. split.
  - intros res out res' out' H H'. destruct (C _ _ H) as (_ & N & E). destruct (C _ _ H') as (_ & N' & E').
    specialize (E (Nat.max N N') ltac:(lia)). specialize (E' (Nat.max N N') ltac:(lia)). rewrite E in E'. injection E' as <- <-. auto.
  - intros fuel res lines E ND. destruct (astray_sound X fs dir G D fuel _ _ _ _ _ _ R (or_introl eq_refl) E ND) as (more & -> & H). exact H.
Qed.
Print Assumptions C72_get.
Theorem C72_get_main : forall X ipfs dir fs cid_of_str arg, blocks_place ipfs dir -> ext_dbg X = false ->
  forall c res lines, cid_of_str arg = Some c -> get_astray X fs dir (Astray (beginning c []) [] 0) res lines ->
  exists N, forall fuel, (N <= fuel)%nat -> get_main X cid_of_str fuel fs (Some arg) (Some ipfs) = (exit_code res, lines).
Proof.
  intros X ipfs dir fs f arg PL D c res out A H. pose proof (proj1 (C54_dir _ _) PL) as PD. unfold get_main, main, ok_or.
  destruct (C72_get X ipfs dir fs c D PL) as (C & _). destruct (C _ _ H) as (_ & N & E). exists N. intros fuel L.
  rewrite A, <- PD, (E fuel L). reflexivity.
Qed.
Print Assumptions C72_get_main.

(** The directory "a" with the entries "." and "b", and "c" beside it: "b" is
    reported as "b" instead of "a/b", and "c" makes the walk panic *)
Definition ap1 : bytes := flat_write (dirm [nlnk 1 [x61]; nlnk 4 [x63]]).
Definition ap2 : bytes := flat_write (dirm [nlnk 2 [x2e]; nlnk 3 [x62]]).
Definition ap0 : bytes := flat_write (dirm []).
Example C72_nonvacuous : forall X, ext_ok X -> ext_dbg X = false -> exists a,
  wanders X (idc 9) [] [ap1; ap2; ap0; ap0] [idc 9; idc 1; idc 2; idc 3]
    [WRootDirectory (idc 9) [] (MData None None); WDirectory (idc 1) [x61] (MData None None);
     WDirectory (idc 2) [x61; x2f; x2e] (MData None None); WDirectory (idc 3) [x62] (MData None None)] a
  /\ awaited (a_state a) = [idc 4] /\ strays X a ap0 Panic /\ strays X a [] (Err EEmptyDagPbNode).
Proof.
  intros X HX Hd.
  assert (P0 : try_parse false ap0 = Ok (dirm [])) by (vm_compute; reflexivity).
  assert (P1 : try_parse false ap1 = Ok (dirm [nlnk 1 [x61]; nlnk 4 [x63]])) by (vm_compute; reflexivity).
  assert (P2 : try_parse false ap2 = Ok (dirm [nlnk 2 [x2e]; nlnk 3 [x62]])) by (vm_compute; reflexivity).
  assert (L : forall dir i n x, x <> x2f -> link_in_dir X dir i (nlnk n [x]) (Ok (idc n, Entry dir [x]))).
  { intros dir i n x Hx. apply (d_named X dir i (nlnk n [x])); [apply nlnk_cid, HX|discriminate|]. cbn. intuition congruence. }
  assert (D : forall pr q c dir x ls es, x <> x2e -> links_in (link_in_dir X (dir ++ [[x]])) 0 ls (Ok es) ->
    enters X pr q c (Entry dir [x]) (dirm ls) (Ok (WDirectory c (slashed (dir ++ [[x]])) (MData None None), State PlainDirectory None (es ++ q)))).
  { intros pr q c dir x ls es Hx Ls. apply (e_dir X pr q c (Entry dir [x]) (dirm ls) es); [apply dir_ok|exact Ls|intros [? ?]; discriminate|right; congruence]. }
  assert (S1 : strays X (Astray (beginning (idc 9) []) [] 0) ap1
    (Ok (WRootDirectory (idc 9) [] (MData None None), Astray (State PlainDirectory None [(idc 1, Entry [] [x61]); (idc 4, Entry [] [x63])]) [] 0))).
  { refine (y_arrives X Nothing (idc 9) (AtRoot []) [] [] 0 ap1 _ (WRootDirectory (idc 9) [] (MData None None)) _ [] P1 _ eq_refl). apply a_fits; [exact Logic.I|].
    refine (e_root_dir X _ [] _ (AtRoot []) _ [(idc 1, Entry [] [x61]); (idc 4, Entry [] [x63])] _ _ _); [apply dir_ok| |eexists; reflexivity].
    repeat (apply l_good; [|apply L; discriminate]). apply l_none. }
  assert (S2 : strays X (Astray (State PlainDirectory None [(idc 1, Entry [] [x61]); (idc 4, Entry [] [x63])]) [] 0) ap2
    (Ok (WDirectory (idc 1) [x61] (MData None None),
         Astray (State PlainDirectory None [(idc 2, Entry [[x61]] [x2e]); (idc 3, Entry [[x61]] [x62]); (idc 4, Entry [] [x63])]) [[x61]] 1))).
  { refine (y_arrives X PlainDirectory (idc 1) (Entry [] [x61]) [(idc 4, Entry [] [x63])] [] 0 ap2 _ (WDirectory (idc 1) [x61] (MData None None)) _ [[x61]] P2 _ eq_refl). apply a_fits; [left; reflexivity|].
    apply (D _ [(idc 4, Entry [] [x63])] _ [] x61 _ [(idc 2, Entry [[x61]] [x2e]); (idc 3, Entry [[x61]] [x62])]); [discriminate|].
    repeat (apply l_good; [|apply L; discriminate]). apply l_none. }
  assert (S3 : strays X (Astray (State PlainDirectory None [(idc 2, Entry [[x61]] [x2e]); (idc 3, Entry [[x61]] [x62]); (idc 4, Entry [] [x63])]) [[x61]] 1) ap0
    (Ok (WDirectory (idc 2) [x61; x2f; x2e] (MData None None),
         Astray (State PlainDirectory None [(idc 3, Entry [[x61]] [x62]); (idc 4, Entry [] [x63])]) [[x61]; [x2e]] 2))).
  { refine (y_arrives X PlainDirectory (idc 2) (Entry [[x61]] [x2e]) [(idc 3, Entry [[x61]] [x62]); (idc 4, Entry [] [x63])] [[x61]] 1 ap0 _ (WDirectory (idc 2) [x61; x2f; x78] (MData None None)) _ [[x61]; [x2e]] P0 _ eq_refl). apply a_misfit; [intros [E|E]; [discriminate E|congruence]|].
    apply (D _ [(idc 3, Entry [[x61]] [x62]); (idc 4, Entry [] [x63])] _ [[x61]] x78 [] []); [discriminate|apply l_none]. }
  assert (S4 : strays X (Astray (State PlainDirectory None [(idc 3, Entry [[x61]] [x62]); (idc 4, Entry [] [x63])]) [[x61]; [x2e]] 2) ap0
    (Ok (WDirectory (idc 3) [x62] (MData None None), Astray (State PlainDirectory None [(idc 4, Entry [] [x63])]) [[x62]] 2))).
  { refine (y_arrives X PlainDirectory (idc 3) (Entry [[x61]] [x62]) [(idc 4, Entry [] [x63])] [[x61]; [x2e]] 2 ap0 _ (WDirectory (idc 3) [x61; x2f; x62] (MData None None)) _ [[x62]] P0 _ eq_refl). apply a_fits; [right; discriminate|].
    apply (D _ [(idc 4, Entry [] [x63])] _ [[x61]] x62 [] []); [discriminate|apply l_none]. }
  eexists. split.
  { eapply (wan_next X _ _ [_; _; _] [_; _; _] [_; _; _]); [| |exact S4]; [|reflexivity].
    eapply (wan_next X _ _ [_; _] [_; _] [_; _]); [| |exact S3]; [|reflexivity].
    eapply (wan_next X _ _ [_] [_] [_]); [| |exact S2]; [|reflexivity].
    eapply (wan_next X _ _ [] [] []); [constructor|reflexivity|exact S1]. }
  split; [reflexivity|]. split.
  - eapply (y_lost X PlainDirectory (idc 4) (Entry [] [x63])); [exact P0| |reflexivity]. apply a_fits; [left; reflexivity|].
    apply (D _ [] _ [] x63 [] []); [discriminate|apply l_none].
  - assert (Q : exists n, try_parse (ext_dbg X) [] = Err (NoData n)) by (eexists; rewrite Hd; vm_compute; reflexivity). destruct Q as [n Q].
    exact (y_unparsable X _ _ _ _ _ _ (s_unparsable X _ _ [] _ Q) ltac:(intros f E; rewrite Hd in Q; congruence)).
Qed.
