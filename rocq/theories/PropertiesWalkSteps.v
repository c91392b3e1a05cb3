(** * Property C52: walks, call by call, on arbitrary blocks; and from it the exact
    conditions of the panics (C41).
    The vocabulary is in SpecWalkSteps.v, the proofs in Walk_exact.v. *)
From Verif Require Import Base Tac Wire Utf8 Cid Pb Reader Visit Dir Walk SpecFile SpecDir SpecWalk
  Dir_proofs Visit_proofs Walk_proofs Walk_sim Walk_steps Walk_thms Walk_paths SpecFileSteps Steps_proofs SpecWalkSteps Walk_exact
  Examples_codec Examples_file Examples_dir Examples_walk.

(** C52: at every point of every walk, whatever blocks were accepted before, there
    is a state of SpecWalkSteps.v that tells which blocks are awaited, and the one
    answer it gives to any block is the answer of the code.
    The second case: without debug assertions nothing is said from the first block
    on that does not fit its place. *)
Theorem C52_step : forall X gives root name bs asked items w, ~ In x2f name ->
  walks X gives (walker_new root name) bs asked items w ->
  (exists s, follows X root name bs asked items s
   /\ (should_continue w = true <-> awaited s <> [])
   /\ forall c others, awaited s = c :: others ->
      w_pending_links w = Ok (c, others)
      /\ forall b k, clean_cache k ->
         ext_dbg X = false /\ misfit X s b
         \/ exists res, step X s b res /\ (forall res', step X s b res' -> res' = res)
            /\ match res with
               | Ok (it, _) => exists w' k', walk_next X w b k = (Ok it, w', k')
               | Err e => exists w' k', walk_next X w b k = (Err e, w', k')
               | Panic => fst (fst (walk_next X w b k)) = Panic
               | Diverge => fst (fst (walk_next X w b k)) = Diverge
               end)
  \/ ext_dbg X = false /\ exists bs1 b bs2 asked1 items1 s, bs = bs1 ++ b :: bs2
     /\ follows X root name bs1 asked1 items1 s /\ misfit X s b.
Proof.
  intros X gives root name bs asked items w Hn H.
  destruct (walks_follow X gives root name bs Hn asked items w H) as [(s & F & R)|M]; [left|right; exact M].
  exists s. split; [exact F|]. split.
  { rewrite (rel_continue s w R). destruct (awaited s); cbn; split; congruence. }
  intros c others A. split; [exact (rel_pending s w c others R A)|]. intros b k K.
  destruct (step_model X s w b k R ltac:(rewrite A; discriminate) K) as [M|(res & S & Ag)]; [left; exact M|right].
  exists res. split; [exact S|]. split; [intros res' S'; exact (step_det X _ _ _ _ S' S)|].
  destruct res as [[it s']|e| |]; cbn in Ag; try exact Ag.
  - destruct Ag as (w' & k' & E & _). eauto.
  - destruct Ag as (w' & k' & E & _). eauto.
Qed.
Print Assumptions C52_step.

(** with debug assertions that is all there is to say *)
Corollary C52_checked : forall X gives root name bs asked items w, ~ In x2f name -> ext_dbg X = true ->
  walks X gives (walker_new root name) bs asked items w ->
  exists s, follows X root name bs asked items s /\ (should_continue w = true <-> awaited s <> [])
  /\ forall c others, awaited s = c :: others ->
     w_pending_links w = Ok (c, others)
     /\ forall b k, clean_cache k -> exists res, step X s b res /\ (forall res', step X s b res' -> res' = res)
        /\ match res with
           | Ok (it, _) => exists w' k', walk_next X w b k = (Ok it, w', k')
           | Err e => exists w' k', walk_next X w b k = (Err e, w', k')
           | Panic => fst (fst (walk_next X w b k)) = Panic
           | Diverge => fst (fst (walk_next X w b k)) = Diverge
           end.
Proof.
  intros X gives root name bs asked items w Hn Hd H.
  destruct (C52_step X gives root name bs asked items w Hn H) as [(s & F & C & A)|[E _]]; [|congruence].
  exists s. split; [exact F|]. split; [exact C|]. intros c others E. destruct (A c others E) as [P B]. split; [exact P|].
  intros b k K. destruct (B b k K) as [[E' _]|B']; [congruence|exact B'].
Qed.
Print Assumptions C52_checked.

(** and conversely every sequence of blocks that SpecWalkSteps.v accepts is
    accepted by the code, with the same links asked for and the same items *)
Theorem C52_accepts : forall X root name bs asked items s, ~ In x2f name ->
  follows X root name bs asked items s ->
  exists w, walks X anything (walker_new root name) bs asked items w /\ (should_continue w = true <-> awaited s <> []).
Proof.
  intros X root name bs asked items s Hn F. destruct (follows_walks X root name bs asked items s Hn F) as (w & W & R).
  exists w. split; [exact W|]. rewrite (rel_continue s w R). destruct (awaited s); cbn; split; congruence.
Qed.
Print Assumptions C52_accepts.

(** after an error the walk is over, in any case *)
Theorem C52_error_ends : forall X w b k e w' k', walk_next X w b k = (Err e, w', k') -> should_continue w' = false.
Proof.
  intros X w b k e w' k' H.
  assert (FF : forall r k0, failed w r k0 = (Err e, w', k') -> should_continue w' = false).
  { unfold failed. intros r k0 E. injection E as _ <- _. reflexivity. }
  assert (SP : forall ie n d er, set_path X ie n d <> Err er).
  { intros ie n d er. unfold set_path, dassert, assert.
    assert (PT : forall d0 p er, @pop_to d0 d p <> Err er).
    { induction d0 as [|d0 IH]; intros p er0; cbn [pop_to]; [discriminate|]. destruct (d <=? S d0)%nat; [|discriminate].
      destruct (path_pop p); cbn [unwrap bind]; [apply IH|discriminate]. }
    destruct (ext_dbg X); cbn [bind].
    - destruct (_ =? _)%nat; cbn [bind]; [|discriminate]. destruct (pop_to _ _ _) as [p|e0| |] eqn:E; cbn [bind]; try discriminate; [|exfalso; eapply PT; exact E].
      destruct (_ =? _)%nat; discriminate.
    - destruct (pop_to _ _ _) as [p|e0| |] eqn:E; cbn [bind]; try discriminate. exfalso; eapply PT; exact E. }
  assert (AE : forall ie kd c n d md er, as_entry X ie kd c n d md <> Err er).
  { intros ie kd c n d md er. unfold as_entry. destruct (in_file _); [discriminate|].
    destruct (set_path X ie n d) as [p|e0| |] eqn:E; cbn [bind]; try discriminate. exfalso; eapply SP; exact E. }
  assert (AB : forall ie c n d er, as_bucket ie c n d <> Err er).
  { intros ie c n d er. unfold as_bucket, assert.
    assert (PB : forall d0 p er, pop_bucket d0 d p <> Err er).
    { induction d0 as [|d0 IH]; intros p er0; cbn [pop_bucket]; destruct (d <? _)%nat; try discriminate.
      destruct (path_pop p); cbn [unwrap bind]; [apply IH|discriminate]. }
    destruct (ie_kind ie) as [| | | | |[v|] z|]; try discriminate.
    1: destruct (_ =? _)%nat; discriminate.
    all: destruct (is_nil n); cbn [bind]; [|discriminate]; destruct (pop_bucket _ _ _) as [p|e0| |] eqn:E; cbn [bind]; try discriminate;
      [destruct (_ =? _)%nat; discriminate|exfalso; eapply PB; exact E]. }
  assert (FD : forall links conv entry k0, (forall er, entry <> Err er) -> finish_dir w links conv entry k0 = (Err e, w', k') -> should_continue w' = false).
  { intros links conv entry k0 NE E. unfold finish_dir in E. destruct (push_links _ _ _) as [[u| | |] q]; try discriminate E.
    - destruct (match q with [] => _ | _ => _ end) as [[? ?] ?]. destruct entry as [[? ?]| er | |]; try discriminate E. exfalso. eapply NE. reflexivity.
    - injection E as _ <- _. reflexivity. }
  destruct (match w_current w with Some ie => in_file (ie_kind ie) | None => false end) eqn:IF.
  - destruct (w_current w) as [[ic [| | | | |[v|] sz|] ip im id]|] eqn:C; try discriminate IF.
    unfold walk_next in H. rewrite C in H. unfold next_in_file in H. destruct (continue_walk X v b k) as [r kk].
    destruct (walk_read r) as [[? ?]| | |]; try discriminate H. injection H as _ <- _. reflexivity.
  - assert (NF : forall ie, w_current w = Some ie -> in_file (ie_kind ie) = false) by (intros ie E; rewrite E in IF; exact IF).
    destruct (try_parse (ext_dbg X) b) as [f|pe| |] eqn:P.
    2-4: unfold walk_next in H; rewrite P in H; destruct (w_current w) as [[? [| | | | |[v|] ?|] ? ? ?]|];
         try (eapply FF; exact H); specialize (NF _ eq_refl); discriminate NF.
    rewrite (next_not_file X w b k NF f P) in H.
    destruct (u_type (f_data f)).
    1,3: destruct (start_from_parsed X idle_default f k) as [r kk]; destruct (walk_read r) as [[[[? ?] ?] ?]| | |]; try (eapply FF; exact H);
      destruct (w_next w) as [[[? ?] ?]|]; [|eapply FF; exact H]; cbv zeta in H;
      match type of H with context [match ?m with Ok _ => _ | Err _ => _ | Panic => _ | Diverge => _ end] => destruct m as [ie| | |] end;
      try (eapply FF; exact H); destruct (match w_pending w with [] => _ | _ => _ end) as [? ?]; discriminate H.
    + destruct (check_directory_supported f); try (eapply FF; exact H). destruct (w_next w) as [[[? ?] ?]|]; [|eapply FF; exact H].
      eapply FD; [|exact H]. intros er. destruct (w_current w); [|discriminate].
      match goal with |- bind ?m _ <> _ => destruct m as [ie|e0| |] eqn:E; cbn [bind]; try discriminate; exfalso; eapply AE; exact E end.
    + eapply FF; exact H.
    + destruct (w_next w) as [[[? ?] ?]|]; [|eapply FF; exact H].
      match type of H with context [match ?m with Ok _ => _ | Err _ => _ | Panic => _ | Diverge => _ end] => destruct m as [ie| | |] end;
      try (eapply FF; exact H); destruct (match w_pending w with [] => _ | _ => _ end) as [[? ?] ?]; discriminate H.
    + destruct (check_supported f); try (eapply FF; exact H). destruct (w_next w) as [[[? ?] ?]|]; [|eapply FF; exact H].
      eapply FD; [|exact H]. intros er. destruct (w_current w); [|discriminate]. destruct (is_nil _).
      * match goal with |- bind ?m _ <> _ => destruct m as [ie|e0| |] eqn:E; cbn [bind]; try discriminate; exfalso; eapply AB; exact E end.
      * match goal with |- bind ?m _ <> _ => destruct m as [ie|e0| |] eqn:E; cbn [bind]; try discriminate; exfalso; eapply AE; exact E end.
Qed.
Print Assumptions C52_error_ends.

(** a walk of several steps, and a name that is taken apart *)
Example C52_nonvacuous : forall X, ext_ok X -> exists asked items s,
  follows X (idc 9) [] [flat_write (dirm [nlnk 1 [x61]; nlnk 2 [x62]]); flat_write (dirm [nlnk 3 [x63]])] asked items s
  /\ items = [WRootDirectory (idc 9) [] (MData None None); WDirectory (idc 1) [x61] (MData None None)]
  /\ asked = [idc 9; idc 1] /\ awaited s = [idc 3; idc 2]
  /\ step X s [] (Err EEmptyDagPbNode)
  /\ exists s', step X s (flat_write (leafm File [x78])) (Ok (WFile (FileSegment [x78] true true) (idc 3) [x61; x2f; x63] (MData None None) 1, s'))
     /\ awaited s' = [idc 2].
Proof.
  intros X HX.
  assert (P1 : try_parse (ext_dbg X) (flat_write (dirm [nlnk 1 [x61]; nlnk 2 [x62]])) = Ok (dirm [nlnk 1 [x61]; nlnk 2 [x62]])) by (destruct (ext_dbg X); vm_compute; reflexivity).
  assert (P2 : try_parse (ext_dbg X) (flat_write (dirm [nlnk 3 [x63]])) = Ok (dirm [nlnk 3 [x63]])) by (destruct (ext_dbg X); vm_compute; reflexivity).
  assert (P3 : try_parse (ext_dbg X) (flat_write (leafm File [x78])) = Ok (leafm File [x78])) by (destruct (ext_dbg X); vm_compute; reflexivity).
  assert (L : forall dir i n x, x <> x2f -> link_in_dir X dir i (nlnk n [x]) (Ok (idc n, Entry dir [x]))).
  { intros dir i n x Hx. apply (d_named X dir i (nlnk n [x])); [apply nlnk_cid, HX|discriminate|]. cbn. intuition congruence. }
  assert (S1 : step X (beginning (idc 9) []) (flat_write (dirm [nlnk 1 [x61]; nlnk 2 [x62]]))
    (Ok (WRootDirectory (idc 9) [] (MData None None), State PlainDirectory None ([(idc 1, Entry [] [x61]); (idc 2, Entry [] [x62])] ++ [])))).
  { eapply s_enters; [exact P1|]. apply (e_root_dir X _ _ _ (AtRoot [])); [apply dir_ok| |eexists; reflexivity].
    repeat (apply l_good; [|apply L; discriminate]). apply l_none. }
  assert (S2 : step X (State PlainDirectory None ([(idc 1, Entry [] [x61]); (idc 2, Entry [] [x62])] ++ [])) (flat_write (dirm [nlnk 3 [x63]]))
    (Ok (WDirectory (idc 1) [x61] (MData None None), State PlainDirectory None ([(idc 3, Entry [[x61]] [x63])] ++ [(idc 2, Entry [] [x62])])))).
  { cbn [app]. eapply s_enters; [exact P2|]. apply (e_dir X PlainDirectory [(idc 2, Entry [] [x62])] (idc 1) (Entry [] [x61]) (dirm [nlnk 3 [x63]]) [(idc 3, Entry [[x61]] [x63])]); [apply dir_ok| |intros [? ?]; discriminate|left; reflexivity].
    repeat (apply l_good; [|apply L; discriminate]). apply l_none. }
  eexists _, _, _. split.
  { eapply (fol_next X _ _ [_] [_] [_]); [eapply (fol_next X _ _ [] [] []); [constructor|reflexivity|exact S1]|reflexivity|exact S2]. }
  split; [reflexivity|]. split; [reflexivity|]. split; [reflexivity|]. split.
  { assert (P0 : exists n, try_parse (ext_dbg X) [] = Err (NoData n)) by (eexists; destruct (ext_dbg X); vm_compute; reflexivity).
    destruct P0 as [n P0]. exact (s_unparsable X _ _ [] _ P0). }
  exists (State Other None [(idc 2, Entry [] [x62])]). split.
  { cbn [app]. eapply s_enters; [exact P3|]. apply (e_file X PlainDirectory [(idc 2, Entry [] [x62])] (idc 3) (Entry [[x61]] [x63]) (leafm File [x78]) [x78] [] (AfterLeaf 1) 1).
    - first [left; reflexivity|right; reflexivity].
    - eapply o_leaf; [|apply cut_all; reflexivity].
      eapply j_leaf; try reflexivity; [left; reflexivity|intros (_ & E & _); discriminate E|split; reflexivity].
    - right. discriminate.
    - reflexivity. }
  reflexivity.
Qed.

(** ** C41: exactly when a walk panics *)

(** some link is bad although its Cid is valid, and so are all after it *)
Definition last_bad (X : ext) (bad : pblink -> Prop) (links : list pblink) : Prop :=
  exists n l, nth_error links n = Some l /\ bad l /\ link_cid X l <> None
  /\ forall m l', (n < m)%nat -> nth_error links m = Some l' -> link_cid X l' <> None.
(** names that a directory, or a shard, must not have *)
Definition bad_in_dir (l : pblink) : Prop := name_of l = [] \/ In x2f (name_of l).
Definition bad_in_shard (l : pblink) : Prop :=
  (length (name_of l) < 2)%nat \/ splits_char l \/ In x2f (skipn 2 (name_of l)).

Lemma links_panic X bad (one : nat -> pblink -> outcome walk_error (cid * place) -> Prop) :
  (forall i l r r', one i l r -> one i l r' -> r = r') ->
  (forall i l, one i l Panic <-> bad l /\ link_cid X l <> None) ->
  (forall i l e, one i l (Ok e) -> link_cid X l <> None) ->
  (forall i l e, one i l (Err e) -> link_cid X l = None) ->
  (forall ls i, exists r, links_in one i ls r /\ r <> Diverge) ->
  forall ls i, links_in one i ls Panic <-> last_bad X bad ls.
Proof.
  intros Det HP HO HE Tot.
  assert (OKS : forall ls i es, links_in one i ls (Ok es) -> forall m l, nth_error ls m = Some l -> link_cid X l <> None /\ ~ bad l).
  { induction ls as [|l ls IH]; intros i es H m l' E; [destruct m; discriminate|]. inversion H as [|? ? ? e es' H1 O| | |? ? ? ? ? NE]; subst; [|exfalso; eapply NE; reflexivity].
    destruct m as [|m]; cbn in E; [injection E as <-|eapply IH; eassumption]. split; [eapply HO; exact O|].
    intros B. assert (Q : one i l Panic) by (apply HP; split; [exact B|eapply HO; exact O]). discriminate (Det _ _ _ _ O Q). }
  assert (ERR : forall ls i e, links_in one i ls (Err e) -> exists m l, nth_error ls m = Some l /\ link_cid X l = None
     /\ forall m' l', (m < m')%nat -> nth_error ls m' = Some l' -> ~ (bad l' /\ link_cid X l' <> None)).
  { induction ls as [|l ls IH]; intros i e H; [inversion H|]. inversion H as [| |? ? ? es ? H1 O| |? ? ? ? H1 NE]; subst.
    - exists 0%nat, l. split; [reflexivity|]. split; [eapply HE; exact O|]. intros [|m'] l' Hm E [B _]; [lia|]. cbn in E.
      apply (OKS _ _ _ H1) in E as [_ E]. exact (E B).
    - destruct (IH _ _ H1) as (m & l' & E & C & N). exists (S m), l'. split; [exact E|]. split; [exact C|].
      intros [|m'] l2 Hm E2; [lia|]. apply (N m'); [lia|exact E2]. }
  induction ls as [|l ls IH]; intros i.
  - split; [intros H; inversion H|]. intros (n & l & E & _). destruct n; discriminate.
  - split.
    + intros H. inversion H as [| | |? ? ? es H1 O|? ? ? ? H1 NE]; subst.
      * apply HP in O as [B C]. exists 0%nat, l. split; [reflexivity|]. split; [exact B|]. split; [exact C|].
        intros [|m] l' Hm E; [lia|]. apply (OKS _ _ _ H1 m). exact E.
      * apply IH in H1 as (n & l' & E & B & C & N). exists (S n), l'. split; [exact E|]. split; [exact B|]. split; [exact C|].
        intros [|m] l2 Hm E2; [lia|]. apply (N m); [lia|exact E2].
    + intros (n & l' & E & B & C & N). destruct (Tot ls (S i)) as (r & L & ND). destruct r as [es|e| |]; [| | |congruence].
      * destruct n as [|n]; cbn in E.
        -- injection E as <-. eapply l_panic; [exact L|]. apply HP. auto.
        -- exfalso. apply (OKS _ _ _ L) in E as [_ E]. exact (E B).
      * exfalso. destruct (ERR _ _ _ L) as (m & l2 & E2 & C2 & N2). destruct n as [|n]; cbn in E.
        -- apply (N (S m) l2); [lia|exact E2|exact C2].
        -- destruct (Nat.lt_trichotomy m n) as [Q|[Q|Q]].
           ++ apply (N2 n l' Q E). auto.
           ++ subst m. rewrite E in E2. injection E2 as <-. congruence.
           ++ apply (N (S m) l2); [lia|exact E2|exact C2].
      * apply l_later; [exact L|discriminate].
Qed.

Lemma dir_panic X dir f : links_in (link_in_dir X dir) 0 (f_links f) Panic <-> last_bad X bad_in_dir (f_links f).
Proof.
  apply links_panic.
  - apply link_dir_det.
  - intros i l. split.
    + intros H. inversion H as [| |c C B]; subst. split; [exact B|congruence].
    + intros [B C]. destruct (link_cid X l) as [c|] eqn:E; [|congruence]. eapply d_panic; eassumption.
  - intros i l e H. inversion H; congruence.
  - intros i l e H. inversion H; congruence.
  - intros ls i. destruct (links_model dir (link_in_dir X dir) (convert_link X (S (S (length dir)))) (link_dir_model X dir) ls i []) as (r & L & R).
    exists r. split; [exact L|]. intros ->. exact R.
Qed.
Lemma shard_panic X dir f : links_in (link_in_shard X dir) 0 (f_links f) Panic <-> last_bad X bad_in_shard (f_links f).
Proof.
  apply links_panic.
  - apply link_shard_det.
  - intros i l. split.
    + intros H. inversion H as [| | |c C L|c a b name C N B]; subst; (split; [|congruence]); [left; exact L|].
      right. rewrite N. exact B.
    + intros [B C]. destruct (link_cid X l) as [c|] eqn:E; [|congruence]. unfold bad_in_shard in B.
      destruct (name_of l) as [|a [|b name]] eqn:N; [eapply h_short; [exact E|rewrite N; cbn; lia]..|].
      destruct B as [B|B]; [cbn in B; lia|]. eapply h_panic; [exact E|exact N|exact B].
  - intros i l e H. inversion H; congruence.
  - intros i l e H. inversion H; congruence.
  - intros ls i. destruct (links_model dir (link_in_shard X dir) (convert_sharded_link X (S (S (length dir))) (S (length dir))) (link_shard_model X dir) ls i []) as (r & L & R).
    exists r. split; [exact L|]. intros ->. exact R.
Qed.

(** the block is otherwise in order *)
Definition in_order (X : ext) (f : flat) : Prop :=
  match u_type (f_data f) with
  | Directory => supported_dir (f_data f) /\ forall l, In l (f_links f) -> link_cid X l <> None /\ ~ bad_in_dir l
  | HAMTShard => supported_shard (f_data f) /\ forall l, In l (f_links f) -> link_cid X l <> None /\ ~ bad_in_shard l
  | File | Raw => exists r, opened X None (0, blen (own_data f)) [] f (Ok r)
  | Symlink => True
  | Metadata => False
  end.

(** links in order *)
Lemma dir_good X : forall f p es, links_in (link_in_dir X (names p)) 0 (f_links f) (Ok es) -> forall l, In l (f_links f) -> link_cid X l <> None /\ ~ bad_in_dir l.
Proof.
  intros f p es. generalize 0%nat as i. revert es. induction (f_links f) as [|l ls IH]; intros es i L l' I; [destruct I|].
  inversion L as [|? ? ? e es' L1 O| | |? ? ? ? ? NE']; subst; [|exfalso; eapply NE'; reflexivity]. destruct I as [<-|I]; [|eapply IH; eassumption].
  inversion O; subst. split; [congruence|]. intros [?|?]; contradiction.
Qed.
Lemma shard_good X : forall f p es, links_in (link_in_shard X (names p)) 0 (f_links f) (Ok es) -> forall l, In l (f_links f) -> link_cid X l <> None /\ ~ bad_in_shard l.
Proof.
  intros f p es. generalize 0%nat as i. revert es. induction (f_links f) as [|l ls IH]; intros es i L l' I; [destruct I|].
  inversion L as [|? ? ? e es' L1 O| | |? ? ? ? ? NE']; subst; [|exfalso; eapply NE'; reflexivity]. destruct I as [<-|I]; [|eapply IH; eassumption].
  inversion O as [|c a b' n C N NN NS SL|c a b' C N| |]; subst; (split; [congruence|]); unfold bad_in_shard; rewrite N; cbn [length skipn]; intros [?|[?|?]]; try lia; try contradiction.
  - match goal with Q : splits_char _ |- _ => destruct Q as (? & ? & ? & ? & Q & _); rewrite N in Q; discriminate Q end.
Qed.
Lemma dir_back X : forall f p, (forall l, In l (f_links f) -> link_cid X l <> None /\ ~ bad_in_dir l) -> exists es, links_in (link_in_dir X (names p)) 0 (f_links f) (Ok es).
Proof.
  intros f p. generalize 0%nat as i. induction (f_links f) as [|l ls IH]; intros i G; [exists []; constructor|].
  destruct (IH (Datatypes.S i)) as (es & L); [intros l' I; apply G; right; exact I|]. destruct (G l (or_introl eq_refl)) as [C NB].
  destruct (link_cid X l) as [c|] eqn:E; [|congruence]. eexists. eapply l_good; [exact L|]. apply (d_named X _ i l c E); intros Z; apply NB; [left|right]; exact Z.
Qed.
Lemma shard_back X : forall f p, (forall l, In l (f_links f) -> link_cid X l <> None /\ ~ bad_in_shard l) -> exists es, links_in (link_in_shard X (names p)) 0 (f_links f) (Ok es).
Proof.
  intros f p. generalize 0%nat as i. induction (f_links f) as [|l ls IH]; intros i G; [exists []; constructor|].
  destruct (IH (Datatypes.S i)) as (es & L); [intros l' I; apply G; right; exact I|]. destruct (G l (or_introl eq_refl)) as [C NB].
  destruct (link_cid X l) as [c|] eqn:E; [|congruence]. unfold bad_in_shard in NB. destruct (name_of l) as [|a [|b' n]] eqn:N; [exfalso; apply NB; left; cbn; lia..|].
  destruct n as [|x n].
  - eexists. eapply l_good; [exact L|]. eapply h_bucket; eassumption.
  - eexists. eapply l_good; [exact L|]. eapply (h_named X _ i l c a b' (x :: n) E N); [discriminate|intros Z; apply NB; auto|intros Z; apply NB; auto].
Qed.

(** C41: with debug assertions a call of a walk panics in exactly these cases.
    For a block that is not inside a file: the parser panics (C04), or it is a
    directory or shard with a bad link name, or a file that makes reading panic
    (C22), or it is a bucket right after a plain directory (C39), or a block in
    order which does not fit its place.
    Inside a file: the block is in the right place and cannot be parsed, or makes
    reading panic (C22). *)
Theorem C41_exact : forall X gives root name bs asked items w, ~ In x2f name -> ext_dbg X = true ->
  walks X gives (walker_new root name) bs asked items w -> should_continue w = true ->
  exists s, follows X root name bs asked items s
  /\ forall b k, clean_cache k ->
     (fst (fst (walk_next X w b k)) = Panic <->
      match s_file s, s_queue s with
      | None, (c, p) :: _ =>
        try_parse true b = Panic
        \/ exists f, try_parse true b = Ok f
           /\ (supported_dir (f_data f) /\ last_bad X bad_in_dir (f_links f)
               \/ supported_shard (f_data f) /\ last_bad X bad_in_shard (f_links f)
               \/ is_file (f_data f) /\ opened X None (0, blen (own_data f)) [] f Panic
               \/ u_type (f_data f) = HAMTShard /\ in_order X f /\ s_prior s = PlainDirectory /\ (exists dir, p = Bucket dir)
               \/ in_order X f /\ ~ fits p (u_type (f_data f)))
      | Some r, _ => exists c rg rest, r_links r = (c, rg) :: rest
        /\ (next_step X None (r_prev r) rg rest b Panic
            \/ (forall e, ~ misplaced (r_prev r) rg e) /\ exists e, try_parse true b = Err e)
      | None, [] => False
      end).
Proof.
  intros X gives root name bs asked items w Hn Hd H SC.
  destruct (C52_checked X gives root name bs asked items w Hn Hd H) as (s & F & C & A). exists s. split; [exact F|].
  intros b k K. assert (NE : awaited s <> []) by (apply C; exact SC). destruct (awaited s) as [|c0 o0] eqn:Aw; [congruence|].
  destruct (A c0 o0 eq_refl) as [_ B]. destruct (B b k K) as (res & S & D & R). clear B A C H.
  assert (Q : fst (fst (walk_next X w b k)) = Panic <-> step X s b Panic).
  { split.
    - intros E. destruct res as [[it s']|e| |]; [destruct R as (? & ? & R); rewrite R in E; discriminate E..|exact S|congruence].
    - intros E. apply D in E. subst res. exact R. }
  rewrite Q. clear Q R S D res.
  destruct s as [pr [r|] q]; cbn [s_file s_queue s_prior].
  - split.
    + intros S. inversion S as [? ? ? ? c rg rest e L N|? ? ? ? c rg rest L N| | | | | |]; subst; exists c, rg, rest; (split; [exact L|]).
      * right. destruct e as [fe|t|oe|ie]; cbn in *; try discriminate. rewrite <- Hd.
        inversion N as [|? MP P| | |? MP P NM|f ? MP P NM O]; subst.
        -- split; [exact MP|eauto].
        -- exfalso. eapply (opened_err X _ _ _ _ O). reflexivity.
      * left. exact N.
    + intros (c & rg & rest & L & [N|(MP & e & P)]).
      * eapply s_file_panic; eassumption.
      * rewrite <- Hd in P. pose proof (n_unreadable X None (r_prev r) rg rest b e MP P) as N. pose proof (s_file_error X pr r q b c rg rest _ L N) as S.
        destruct e; exact S.
  - destruct q as [|[c p] q]; [discriminate Aw|]. replace (try_parse true) with (try_parse (ext_dbg X)) by (rewrite Hd; reflexivity). split.
    + intros S. inversion S as [| | | |? ? ? ? P|? ? ? P|? ? ? P|? ? ? ? ? f res P O]; subst; [left; exact P|]. right. exists f. split; [exact P|].
      inversion O; subst.
      * right. right. right. right. split; [|assumption]. unfold in_order. destruct (u_type (f_data f)).
        -- match goal with Z : exists _ _ _, _ |- _ => destruct Z as (? & ? & ? & Z); eauto end.
        -- match goal with Z : _ /\ _ |- _ => destruct Z as [? Z]; split; [assumption|exact (dir_good X f p _ Z)] end.
        -- match goal with Z : exists _ _ _, _ |- _ => destruct Z as (? & ? & ? & Z); eauto end.
        -- assumption.
        -- exact Logic.I.
        -- match goal with Z : _ /\ _ |- _ => destruct Z as [? Z]; split; [assumption|exact (shard_good X f p _ Z)] end.
      * left. split; [assumption|]. eapply dir_panic; eassumption.
      * right. left. split; [assumption|]. eapply shard_panic; eassumption.
      * right. right. right. left. split; [eapply ss_type; eassumption|]. split; [|split; [reflexivity|eauto]].
        unfold in_order. match goal with Z : supported_shard _ |- _ => rewrite (ss_type _ Z) end. split; [assumption|]. eapply (shard_good X f (Bucket _)); eassumption.
      * exfalso. match goal with Z : told ?e = Panic |- _ => destruct e as [fe|t|oe|ie]; try discriminate Z end. eapply opened_err; [eassumption|reflexivity].
      * right. right. left. split; assumption.
    + intros [P|(f & P & Z)]; [apply s_panic; exact P|]. eapply s_enters; [exact P|].
      destruct Z as [[Su L]|[[Su L]|[[I O]|[(T & IO & Pr & dir & ->)|[IO NF]]]]].
      * apply e_dir_panic; [exact Su|apply dir_panic; exact L].
      * apply e_shard_panic; [exact Su|apply shard_panic; exact L].
      * apply e_file_panic; assumption.
      * unfold in_order in IO. rewrite T in IO. destruct IO as [Su G]. destruct (shard_back X f (Bucket dir) G) as [es L].
        eapply e_bucket_after_dir; [exact Su|exact L|reflexivity|exact Pr].
      * unfold in_order in IO. destruct (u_type (f_data f)) eqn:T.
        -- destruct IO as [[[? ?] ?] O]. apply (e_misfit X _ _ _ _ _ []); [rewrite T; exact NF|exact Hd|rewrite T; eauto].
        -- destruct IO as [Su G]. destruct (dir_back X f p G) as [es L]. apply (e_misfit X _ _ _ _ _ es); [rewrite T; exact NF|exact Hd|rewrite T; auto].
        -- destruct IO as [[[? ?] ?] O]. apply (e_misfit X _ _ _ _ _ []); [rewrite T; exact NF|exact Hd|rewrite T; eauto].
        -- destruct IO.
        -- apply (e_misfit X _ _ _ _ _ []); [rewrite T; exact NF|exact Hd|rewrite T; exact IO].
        -- destruct IO as [Su G]. destruct (shard_back X f p G) as [es L]. apply (e_misfit X _ _ _ _ _ es); [rewrite T; exact NF|exact Hd|rewrite T; auto].
Qed.
Print Assumptions C41_exact.
