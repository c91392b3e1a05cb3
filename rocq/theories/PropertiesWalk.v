(** * Properties C39-C42, C47 and the rest of C24 and C46: walking trees
    (/repo/src/walk.rs).
    Only theorem statements and short glue; the proofs are in Walk_steps.v and
    Walk_thms.v, the vocabulary in SpecWalk.v, the concrete trees in
    Examples_walk.v. *)
From Verif Require Import Base Tac Wire Utf8 Cid Sha256 Pb Dagpb Parse_safety Reader Visit Dir Walk SpecFile SpecDir SpecWalk
  Dir_proofs Visit_proofs Visit_thms Walk_proofs Walk_paths Walk_sim Walk_steps Walk_thms Walk_safe Examples_file Examples_dir Examples_walk
  PropertiesFile.

(** ** C39 *)

Lemma stuck_blocked X items it : stuck X items it <-> blocked X (last_dir false items) it.
Proof.
  unfold stuck, blocked. split; (intros [H|H]; [left|right; exact H]).
  - destruct H as (pre & c & p & md & c' & p' & -> & ->). unfold last_dir. rewrite rev_app_distr. reflexivity.
  - apply andb_prop in H as [H1 H2]. unfold last_dir in H1. destruct (rev items) as [|d l] eqn:E; [discriminate|].
    destruct d; try discriminate. destruct it; try discriminate. apply (f_equal (@rev _)) in E. rewrite rev_involutive in E.
    cbn [rev] in E. subst items. repeat eexists.
Qed.

Lemma walk_from_snoc X get root name items w c others b k it w' k' : walk_from X get root name items w ->
  should_continue w = true -> w_pending_links w = Ok (c, others) -> get c = Some b -> clean_cache k ->
  walk_next X w b k = (Ok it, w', k') -> walk_from X get root name (items ++ [it]) w'.
Proof.
  intros (bs & asked & HW) SC PL G K NX. exists (bs ++ [b]), (asked ++ [c]).
  induction HW as [w|w c0 others0 b0 k0 k2 it0 w1 bs asked items w2 SC1 PL1 G1 K1 NX1 HW IH].
  - eapply walks_next; [exact SC|exact PL|exact G|exact K|exact NX|apply walks_here].
  - eapply walks_next; [exact SC1|exact PL1|exact G1|exact K1|exact NX1|apply IH; assumption].
Qed.
(** Over every stored tree there is one list of items, given by the tree alone
    ([sights], in pre-order, see SpecWalk.v), such that every walk returns a
    prefix of it, continues as long as there is more, and, given the block it
    asks for, returns the next one, except that it panics when this is a bucket
    right after a plain directory or, with debug assertions, something with a "."
    inside its path.  So a walk reaches everything up to there.  Without debug
    assertions this is said about the items up to the first one with such a
    path (for those after it see C72). *)
Theorem C39_exact : forall X get root name n,
  ~ In x2f name -> stored X get root n ->
  walked X get root name (sights true name root n).
Proof.
  intros X get root name n Hn St. destruct (start_inv X get root name n Hn St) as (items0 & A & I0).
  exists items0. split; [eapply all_mono; [|exact A]; apply emits_reported|].
  match goal with |- ?P /\ _ => assert (H : P) end.
  - intros items w (bs & asked & H) ND. assert (ND0 : ext_dbg X = true \/ no_dots_told items \/ no_dots_told items0).
    { destruct ND as [ND|[ND|ND]]; [auto|auto|]. right. right. intros it Hit.
      destruct (all_paths _ _ _ _ (emits_path X get) A Hit) as (e & He & ->). exact (as_told_no_dots _ ND e He). }
    destruct (walks_inv X get _ _ _ _ _ H _ _ I0 ND0) as (rest & -> & I1 & ND1).
    exists rest. split; [reflexivity|]. split; [exact ND1|]. split.
    + destruct rest as [|it rest].
      * apply inv_end in I1. rewrite I1. split; [discriminate|congruence].
      * apply inv_step in I1 as (SC & _). rewrite SC. split; [discriminate|reflexivity].
    + intros it rest' ->. apply inv_step in I1 as (_ & c & others & b & PL & G & NX).
      exists c, others, b. split; [exact PL|]. split; [exact G|]. intros k Hk. destruct (NX k Hk) as [NX1 NX2].
      rewrite stuck_blocked. split; [|exact NX1]. intros B. destruct (NX2 B) as (w' & k' & E1 & _). eauto.
  - split; [exact H|]. intros items. induction items as [|it items IH] using rev_ind; intros rest E NS.
    + exists (walker_new root name), [], []. apply walks_here.
    + rewrite <- app_assoc in E. cbn [app] in E.
      destruct (IH (it :: rest) E) as [w HW].
      { intros pre i post -> . destruct (NS pre i (post ++ [it])) as [N1 N2]; [rewrite <- app_assoc; reflexivity|].
        split; [exact N1|]. intros D. specialize (N2 D). destruct post; discriminate. }
      assert (ND : no_dots_told items).
      { intros x Hx D. apply in_split in Hx as (l1 & l2 & ->). destruct (NS l1 x (l2 ++ [it])) as [_ N2]; [rewrite <- app_assoc; reflexivity|].
        specialize (N2 D). destruct l2; discriminate. }
      destruct (H items w HW (or_intror (or_introl ND))) as (rest2 & E2 & _ & SC & NX). rewrite E in E2. apply app_inv_head in E2. subst rest2.
      destruct (NX _ _ eq_refl) as (c & others & b & PL & G & NX2). destruct (NX2 None (or_introl eq_refl)) as [NX3 _].
      destruct NX3 as (w' & k' & N); [apply (NS items it []); reflexivity|]. exists w'.
      eapply walk_from_snoc; [exact HW|apply SC; discriminate|exact PL|exact G|left; reflexivity|exact N].
Qed.
Print Assumptions C39_exact.

Lemma told_but evs items : all reported (as_told evs) items -> all reported_but evs items.
Proof.
  intros A. assert (R : forall evs items, all reported evs items -> all reported_but evs items)
    by (intros; eapply all_mono; [|eassumption]; intros; apply but_same; assumption).
  destruct evs as [|[] evs]; try (apply R, A). cbn [as_told] in A. apply all_inv in A as (its & items' & E & A & ->).
  constructor; [apply but_same, E|]. revert items' A. induction evs as [|e evs IH]; intros items' A; [apply R, A|].
  destruct e; try (apply R, A). cbn [relabel] in A. apply all_inv in A as (its2 & items2 & E2 & A & ->).
  constructor; [|apply IH, A]. inversion E2; subst. apply but_bucket.
Qed.
(** So the walk of a tree in which no bucket follows a plain directory and no path
    has a "." inside is the pre-order of the tree, the walk ends, and
    [should_continue] is false exactly at the end.  (The other trees are in
    C39_exact, the Cids of buckets in C42.) *)
Theorem C39_preorder : forall X get root name n,
  ~ In x2f name -> stored X get root n -> walkable (sights true name root n) ->
  walked_through X get root name (sights true name root n).
Proof.
  intros X get root name n Hn St W. destruct (C39_exact X get root name n Hn St) as (items0 & A & H & R).
  pose proof (as_told_walkable _ W) as [W1 W2].
  assert (ND : forall it, In it items0 -> ~ dotted (path_told it)).
  { intros it Hit. destruct (all_paths _ _ _ _ reported_path A Hit) as (e & He & ->). apply W2, He. }
  assert (NS : forall items it rest, items0 = items ++ it :: rest -> ~ stuck X items it).
  { intros items it rest E [(pre & d & p & md & c' & p' & -> & ->)|[_ D]].
    - destruct (all_adjacent get _ _ A pre (WDirectory d p md) (WBucket c' p') rest) as (pre' & ? & ? & ? & ? & ? & post' & E2);
        [rewrite E, <- app_assoc; reflexivity|reflexivity|reflexivity|]. eapply W1. exact E2.
    - apply (ND it); [|exact D]. rewrite E. apply in_or_app. right. left. reflexivity. }
  exists items0. split; [|split].
  - exact (told_but _ _ A).
  - destruct (R items0 []) as [w HW]; [symmetry; apply app_nil_r| |].
    { intros pre it post E. split; [eapply NS; exact E|]. intros D. exfalso. apply (ND it); [|exact D]. rewrite E. apply in_or_app. right. left. reflexivity. }
    exists w. split; [exact HW|]. destruct (H _ _ HW (or_intror (or_intror (proj2 W)))) as (rest & E & _ & SC & _).
    rewrite <- (app_nil_r items0) in E at 1. apply app_inv_head in E. subst rest.
    destruct (should_continue w); [exfalso; apply SC; reflexivity|reflexivity].
  - intros items w HW. destruct (H items w HW (or_intror (or_intror (proj2 W)))) as (rest & E & _ & SC & NX). exists rest. split; [exact E|]. split; [exact SC|].
    intros it rest' ->. destruct (NX it rest' eq_refl) as (c & others & b & PL & G & NX2). exists c, others, b.
    split; [exact PL|]. split; [exact G|]. intros k Hk. apply (proj1 (NX2 k Hk)). eapply NS. exact E.
Qed.
Print Assumptions C39_preorder.
Example C39_nonvacuous : forall X, ext_ok X -> stored X t_get (idc 10) t_tree /\ walkable (sights true [] (idc 10) t_tree)
  /\ length (sights true [] (idc 10) t_tree) = 10%nat.
Proof. intros X HX. split; [apply t_stored, HX|]. split; [apply t_walkable|reflexivity]. Qed.

(** a tree with a file called "." in the directory a *)
Example C39_dotted_nonvacuous : forall X, ext_ok X -> stored X t_get (idc 23) w_tree
  /\ exists before e after, sights true [] (idc 23) w_tree = before ++ e :: after /\ path_seen e = [x61; x2f; x2e]
     /\ dotted (path_seen e) /\ no_dots before /\ after <> [].
Proof.
  intros X HX. split; [apply w_stored, HX|]. eexists [_; _], _, [_]. split; [reflexivity|]. split; [reflexivity|].
  split; [exists [x61], []; auto|]. split; [apply no_dots_parts; vm_compute; reflexivity|discriminate].
Qed.

(** C39 refuted: a sharded directory with an entry that is an empty directory,
    followed by a bucket; the walk asks for the bucket and panics *)
Theorem C39_refuted : forall X, ext_ok X -> exists get root n items w c others b,
  stored X get root n /\ walk_from X get root [] items w /\ should_continue w = true
  /\ w_pending_links w = Ok (c, others) /\ get c = Some b
  /\ forall k, clean_cache k -> fst (fst (walk_next X w b k)) = Panic.
Proof.
  intros X HX. pose proof (u_stored X HX) as St.
  destruct (C39_exact X t_get (idc 20) [] u_tree (@in_nil _ _) St) as (items0 & A & H & R).
  cbn [sights u_tree as_told relabel item_sights flat_map app] in A.
  apply all_inv in A as (i1 & r1 & R1 & A & ->). inversion R1; subst.
  apply all_inv in A as (i2 & r2 & R2 & A & ->). inversion R2; subst.
  apply all_inv in A as (i3 & r3 & R3 & A & ->). inversion R3; subst. inversion A; subst. cbn [app] in H, R.
  destruct (R [_; _] [_] eq_refl) as [w HW].
  { intros pre it post E. assert (ND : ~ dotted (path_told it)).
    { assert (Hin : In it (pre ++ it :: post)) by (apply in_or_app; right; left; reflexivity). rewrite <- E in Hin.
      intros D%dotted_parts. destruct Hin as [<- |[<- |[]]]; exact D. }
    split; [|contradiction]. intros [(pre2 & ? & ? & ? & ? & ? & -> & ->)|[_ D]]; [|contradiction].
    destruct pre2; [discriminate E|]. apply (f_equal (@length _)) in E. rewrite !app_length in E. cbn in E. lia. }
  destruct (H _ _ HW) as (rest & E & _ & SC & NX). { right. right. apply no_dots_parts. vm_compute. reflexivity. }
  cbn [app] in E. injection E as <-.
  destruct (NX _ _ eq_refl) as (c & o & b & PL & G & NX').
  eexists t_get, (idc 20), u_tree, _, w, c, o, b. split; [exact St|]. split; [exact HW|]. split; [apply SC; discriminate|].
  split; [exact PL|]. split; [exact G|]. intros k Hk. apply (proj2 (NX' k Hk)).
  left. exists [WRootDirectory (idc 20) [] (MData None None)], (idc 21), [x64], (MData None None). repeat eexists.
Qed.
Print Assumptions C39_refuted.

(** ** C40 *)

(** Every file of the tree is reported by consecutive segments (see
    [file_segments]) between the items of what comes before and after it *)
Theorem C40_segments : forall X get root name n items w,
  ~ In x2f name -> stored X get root n -> ext_dbg X = true \/ no_dots (sights true name root n) ->
  walk_from X get root name items w -> should_continue w = false ->
  forall e1 c p md content e2, sights true name root n = e1 ++ SeenFile c p md content :: e2 ->
  exists before segments after, items = before ++ segments ++ after
    /\ file_segments c p md content segments
    /\ all reported_but e1 before /\ all reported_but e2 after.
Proof.
  intros X get root name n items w Hn St ND HW SC e1 c p md content e2 E.
  destruct (C39_exact X get root name n Hn St) as (items0 & A & H & _).
  destruct (H items w HW ltac:(tauto)) as (rest & -> & _ & SC2 & _). destruct rest as [|it rest]; [|exfalso; rewrite SC in SC2; assert (false = true) by (apply SC2; discriminate); discriminate].
  rewrite app_nil_r in A. clear H SC2. rewrite E in A.
  assert (R : forall evs items, all reported evs items -> all reported_but evs items)
    by (intros; eapply all_mono; [|eassumption]; intros; apply but_same; assumption).
  assert (S : forall e1 items, all reported (e1 ++ SeenFile c p md content :: e2) items ->
    exists before segments after, items = before ++ segments ++ after
      /\ file_segments c p md content segments /\ all reported_but e1 before /\ all reported_but e2 after).
  { clear - R. intros e1. induction e1 as [|e e1 IH]; intros items A.
    - cbn [app] in A. apply all_inv in A as (its & items' & E & A & ->). inversion E; subst.
      exists [], its, items'. split; [reflexivity|]. split; [assumption|]. split; [constructor|apply R, A].
    - cbn [app] in A. apply all_inv in A as (its & items' & E & A & ->). destruct (IH _ A) as (b & s & a & -> & FS & A1 & A2).
      exists (its ++ b), s, a. split; [rewrite <- app_assoc; reflexivity|]. split; [exact FS|]. split; [|exact A2].
      constructor; [apply but_same, E|exact A1]. }
  assert (S2 : forall d e1 items, all reported (relabel d (e1 ++ SeenFile c p md content :: e2)) items ->
    exists before segments after, items = before ++ segments ++ after
      /\ file_segments c p md content segments /\ all reported_but e1 before /\ all reported_but e2 after).
  { clear - R S. intros d e1. induction e1 as [|e e1 IH]; intros items A; [apply (S [] items A)|].
    destruct e; try (exact (S (_ :: e1) items A)). cbn [app relabel] in A.
    apply all_inv in A as (its & items' & E & A & ->). destruct (IH _ A) as (b & s & a & -> & FS & A1 & A2).
    exists (its ++ b), s, a. split; [rewrite <- app_assoc; reflexivity|]. split; [exact FS|]. split; [|exact A2].
    constructor; [|exact A1]. inversion E; subst. apply but_bucket. }
  destruct e1 as [|e e1]; [exact (S [] items A)|].
  destruct e; try (exact (S (_ :: e1) items A)). cbn [app as_told] in A.
  apply all_inv in A as (its & items' & E2 & A & ->). destruct (S2 _ _ _ A) as (b & s & a & -> & FS & A1 & A2).
  exists (its ++ b), s, a. split; [rewrite <- app_assoc; reflexivity|]. split; [exact FS|]. split; [|exact A2].
  constructor; [apply but_same, E2|exact A1].
Qed.
Print Assumptions C40_segments.
Example C40_nonvacuous : exists e1 e2, sights true [] (idc 10) t_tree
  = e1 ++ SeenFile (idc 11) [x66] (MData None None) [x61; x62; x63; x64] :: e2.
Proof. exists [SeenRootDirectory (idc 10) [] (MData None None)]. eexists. reflexivity. Qed.

(** Whatever the blocks are: after a segment not marked as last comes a segment
    of the same file not marked as first; after anything else, and at the
    start, no file segment but a first one *)
Definition in_sequence (previous : option continued) (it : continued) : Prop :=
  match previous with
  | Some (WFile s c p md size) =>
    if is_last s then match it with WFile s' _ _ _ _ => is_first s' = true | _ => True end
    else match it with WFile s' c' p' md' size' => is_first s' = false /\ (c', p', md', size') = (c, p, md, size) | _ => False end
  | _ => match it with WFile s' _ _ _ _ => is_first s' = true | _ => True end
  end.
Theorem C40_any_blocks : forall X root name bs asked items w,
  walks X anything (walker_new root name) bs asked items w ->
  forall i it, nth_error items i = Some it ->
  in_sequence (match i with O => None | S j => nth_error items j end) it.
Proof.
  intros X root name bs asked items w H.
  set (I := fun (items : list continued) w => last_inv items w /\
     forall i it, nth_error items i = Some it -> in_sequence (match i with O => None | S j => nth_error items j end) it).
  enough (G : I items w) by apply G.
  apply (walks_items X anything I) in H; [exact H| |].
  2: { split; [reflexivity|]. intros [|?] ?; discriminate. }
  clear. intros h w c others b it w' [L S] _ _ _ N. destruct (last_inv_step X _ _ _ _ _ L N) as (L' & F0 & F).
  split; [exact L'|]. intros i it0 Hi.
  destruct (Nat.lt_ge_cases i (length h)) as [Lt|Ge].
  - rewrite nth_error_app1 in Hi by exact Lt. specialize (S i it0 Hi). destruct i as [|j]; [exact S|].
    rewrite nth_error_app1 by lia. exact S.
  - assert (E : i = length h).
    { apply Nat.le_antisymm; [|exact Ge]. assert (i < length (h ++ [it]))%nat by (apply nth_error_Some; congruence).
      rewrite app_length in H. cbn in H. lia. }
    subst i. rewrite nth_error_app2, Nat.sub_diag in Hi by lia. injection Hi as <-.
    assert (B0 : begins it = true -> match it with WFile s' _ _ _ _ => is_first s' = true | _ => True end) by (destruct it; auto).
    destruct h as [|a h] using rev_ind; [apply B0, F0; reflexivity|]. clear IHh.
    rewrite app_length. cbn [length]. rewrite Nat.add_1_r. rewrite <- app_assoc, nth_error_app2, Nat.sub_diag by lia. cbn [app nth_error].
    specialize (F _ _ eq_refl). destruct a; cbn [unfinished] in F; try (apply B0; exact F).
    cbn [in_sequence]. destruct (is_last s); [apply B0; exact F|]. cbn [negb] in F. destruct F as [F1 F2].
    destruct it; try contradiction. cbn in F1. destruct F1 as (-> & -> & -> & ->). cbn in F2. auto.
Qed.
Print Assumptions C40_any_blocks.

(** ** C42 *)

(** Exactly: whatever the blocks are, a bucket is reported with its own Cid,
    unless all items before it, except for the first one, are buckets; then the
    Cid is the one of the first item. *)
Definition all_buckets (items : list continued) : Prop := forall it, In it items -> exists c p, it = WBucket c p.
Theorem C42_exact : forall X root name bs asked items w c others b k c' p w' k',
  walks X anything (walker_new root name) bs asked items w ->
  w_pending_links w = Ok (c, others) -> clean_cache k -> walk_next X w b k = (Ok (WBucket c' p), w', k') ->
  exists first rest, items = first :: rest
    /\ (all_buckets rest -> exists p0 md0, first = WRootDirectory c' p0 md0)
    /\ (~ all_buckets rest -> c' = c).
Proof.
  intros X root name bs asked items w c others b k c' p w' k' H PL K NX.
  assert (I : root_inv items w).
  { apply (walks_items X anything root_inv) in H; [exact H| |split; reflexivity].
    intros h w0 c0 o0 b0 it w1 HI _ _ _ N. eapply root_inv_step; eassumption. }
  apply next_inv in NX; [|exact K]. destruct (bucket_cid X _ _ _ _ _ _ _ _ I PL NX) as (it0 & rest & -> & C).
  assert (E : all_buckets rest <-> buckets rest).
  { unfold all_buckets, buckets. rewrite Forall_forall. split; intros HB it Hi; specialize (HB it Hi).
    - destruct HB as (? & ? & ->). reflexivity.
    - destruct it; try discriminate. eauto. }
  exists it0, rest. split; [reflexivity|]. destruct C as [(B & p0 & md & ->)|(B & ->)]; split; intros HB; try tauto.
  - eauto.
Qed.
Print Assumptions C42_exact.

(** C42 refuted: the walk of a sharded directory reports its first bucket with
    the Cid of the directory *)
Theorem C42_refuted : forall X, ext_ok X -> exists get root n items w c others b,
  stored X get root n /\ walkable (sights true [] root n)
  /\ walk_from X get root [] items w /\ w_pending_links w = Ok (c, others) /\ get c = Some b
  /\ exists c' p w' k', walk_next X w b None = (Ok (WBucket c' p), w', k') /\ c' <> c.
Proof.
  intros X HX. pose proof (v_stored X HX) as St.
  assert (WK : walkable (sights true [] (idc 22) v_tree)).
  { split; [|apply no_dots_parts; vm_compute; reflexivity]. intros pre c p md c' p' post H. cbn -[idc] in H.
    repeat (destruct pre as [|? pre]; [discriminate H|injection H as _ H]). destruct pre; discriminate H. }
  destruct (C39_preorder X t_get (idc 22) [] v_tree (@in_nil _ _) St WK) as (items0 & A & _ & H).
  destruct (C39_exact X t_get (idc 22) [] v_tree (@in_nil _ _) St) as (items1 & A1 & H1 & R1).
  cbn [sights v_tree b_items as_told relabel item_sights flat_map app] in A1.
  apply all_inv in A1 as (i1 & r1 & Q1 & A1 & ->). inversion Q1; subst.
  apply all_inv in A1 as (i2 & r2 & Q2 & A1 & ->). inversion Q2; subst. cbn [app] in H1, R1.
  destruct (R1 [_] (_ :: r2) eq_refl) as [w HW].
  { intros pre it post E. assert (ND : ~ dotted (path_told it)).
    { assert (Hin : In it (pre ++ it :: post)) by (apply in_or_app; right; left; reflexivity). rewrite <- E in Hin.
      intros D%dotted_parts. destruct Hin as [<- |[]]; exact D. }
    split; [|contradiction]. intros [(pre2 & ? & ? & ? & ? & ? & -> & ->)|[_ D]]; [|contradiction]. destruct pre2; [discriminate E|].
    apply (f_equal (@length _)) in E. rewrite !app_length in E. cbn in E. lia. }
  destruct (H1 _ _ HW) as (rest & E & _ & SC & NX). { right. right. exact (proj2 WK). }
  cbn [app] in E. injection E as <-.
  destruct (NX _ _ eq_refl) as (c & o & b & PL & G & NX'). destruct (NX' None (or_introl eq_refl)) as [NX2 _].
  destruct NX2 as (w' & k' & N).
  { intros [(pre2 & ? & ? & ? & ? & ? & E & _)|[_ D%dotted_parts]]; [|exact D]. destruct pre2 as [|? [|? ?]]; discriminate E. }
  eexists t_get, (idc 22), v_tree, _, w, c, o, b. split; [exact St|]. split; [exact WK|]. split; [exact HW|].
  split; [exact PL|]. split; [exact G|]. eexists _, _, w', k'. split; [exact N|]. clear H.
  intros Ec. subst c. destruct HW as (bs & asked & HW). inversion HW as [|w0 c0 o0 b0 k0 k1 it0 w1 bs' asked' items' w2 SC0 PL0 G0 K0 N0 HW']; subst.
  inversion HW'; subst. apply next_inv in N0; [|exact K0].
  destruct (todo_step X _ _ _ _ _ _ (wfw_start _ _) PL0 N0) as (f & new & P & AD & TD & _).
  unfold w_pending_links, walker_new in PL0. cbn -[idc] in PL0. assert (o0 = []) by congruence. subst o0. unfold store in G0.
  destruct (t_parse (ext_dbg X) 22 ltac:(cbn; tauto)) as [G22 P22]. assert (Eb : b0 = flat_write (t_msg 22)) by congruence. clear G0. subst b0. rewrite P22 in P. injection P as <-.
  rewrite (pending_todo _ _ _ PL), app_nil_r in TD. unfold adds in AD. cbn [t_msg shardm f_data u_type f_links map] in AD.
  rewrite (nlnk_cid X 14 _ HX) in AD. rewrite <- TD in AD. injection AD as AD _. discriminate AD.
Qed.
Print Assumptions C42_refuted.
(** C42, what does hold.  Missing: the buckets which directly follow the root. *)
Theorem C42_bucket_cid : forall X root name bs asked items w c others b k c' p w' k',
  walks X anything (walker_new root name) bs asked items w ->
  w_pending_links w = Ok (c, others) -> clean_cache k -> walk_next X w b k = (Ok (WBucket c' p), w', k') ->
  ~ all_buckets (tl items) -> c' = c.
Proof.
  intros X root name bs asked items w c others b k c' p w' k' H PL K NX B.
  destruct (C42_exact _ _ _ _ _ _ _ _ _ _ _ _ _ _ _ H PL K NX) as (first & rest & -> & _ & G). apply G, B.
Qed.
Print Assumptions C42_bucket_cid.
Lemma walks_block X w c others b k' it w1 bs asked items w2 :
  should_continue w = true -> w_pending_links w = Ok (c, others) -> walk_next X w b None = (Ok it, w1, k') ->
  walks X anything w1 bs asked items w2 -> walks X anything w (b :: bs) (c :: asked) (it :: items) w2.
Proof. intros A B C D. exact (walks_next X anything w c others b None k' it w1 bs asked items w2 A B Logic.I (or_introl eq_refl) C D). Qed.
(** The walk of a sharded directory that has returned its root, the bucket 14
    and the file "a", and is then given the bucket 15 *)
Example C42_nonvacuous : forall dbg, exists bs asked items w others b w' k',
  walks (real_ext dbg) anything (walker_new (idc 13) []) bs asked items w /\ length items = 3%nat
  /\ w_pending_links w = Ok (idc 15, others) /\ walk_next (real_ext dbg) w b None = (Ok (WBucket (idc 15) []), w', k')
  /\ ~ all_buckets (tl items).
Proof.
  intros dbg.
  assert (H : exists asked first p c md w others w' k',
    walks (real_ext dbg) anything (walker_new (idc 13) []) [flat_write (t_msg 13); flat_write (t_msg 14); flat_write (t_msg 1)] asked
      [first; WBucket (idc 13) p; WFile (FileSegment [x61; x62] true true) c [x61] md 2] w
    /\ w_pending_links w = Ok (idc 15, others) /\ walk_next (real_ext dbg) w (flat_write (t_msg 15)) None = (Ok (WBucket (idc 15) []), w', k')).
  { destruct dbg; do 9 eexists;
      (split; [do 3 (eapply walks_block; [reflexivity|vm_compute; reflexivity|vm_compute; reflexivity|]); apply walks_here
              |split; vm_compute; reflexivity]). }
  destruct H as (asked & first & p & c & md & w & others & w' & k' & H1 & H2 & H3).
  eexists _, _, _, w, others, _, w', k'. split; [exact H1|]. split; [reflexivity|]. split; [exact H2|]. split; [exact H3|].
  intros B. destruct (B _ (or_intror (or_introl eq_refl))) as (? & ? & E). discriminate E.
Qed.

(** ** C46, for walks *)

(** the links a walk follows: all but the ones of symlinks *)
Definition followed (f : flat) : list pblink := match u_type (f_data f) with Symlink => [] | _ => f_links f end.

(** Whatever the blocks are: while [should_continue], [pending_links] returns
    the blocks to be asked for; a successful [next] replaces the first of them by
    the links of the block it was given, and the walk goes on while there are
    any *)
Theorem C46_walk_step : forall X root name bs asked items w,
  walks X anything (walker_new root name) bs asked items w -> should_continue w = true ->
  exists c others, w_pending_links w = Ok (c, others)
  /\ forall b k it w' k', clean_cache k -> walk_next X w b k = (Ok it, w', k') ->
     exists f new, try_parse (ext_dbg X) b = Ok f /\ map Some new = map (link_cid X) (followed f)
     /\ match new ++ others with
        | [] => should_continue w' = false
        | c' :: others' => should_continue w' = true /\ w_pending_links w' = Ok (c', others')
        end.
Proof.
  intros X root name bs asked items w H SC.
  pose proof (wfw_walks X _ _ _ _ _ _ H (wfw_start _ _)) as W. destruct (wfw_pending _ W SC) as (c & others & PL).
  exists c, others. split; [exact PL|]. intros b k it w' k' K NX. apply next_inv in NX; [|exact K].
  destruct (todo_step X _ _ _ _ _ _ W PL NX) as (f & new & P & A & TD & W'). exists f, new. split; [exact P|]. split.
  - unfold adds, followed in *. destruct (u_type (f_data f)); cbn in A; try exact A. subst new. reflexivity.
  - rewrite <- TD. pose proof W' as (_ & _ & W3). destruct (todo w') as [|c' o'] eqn:T; [exact W3|]. split; [exact W3|].
    destruct (wfw_pending w' W' W3) as (c2 & o2 & PL2).
    rewrite PL2. apply pending_todo in PL2. rewrite T in PL2. injection PL2 as -> ->. reflexivity.
Qed.
Print Assumptions C46_walk_step.

(** At every point of every walk over a store that runs to its end, the blocks
    asked for from there on are, in this order, each pending link followed by
    blocks below it *)
Theorem C46_walk_pending : forall X get root name items w c others bs asked items2 w2,
  walk_from X get root name items w -> w_pending_links w = Ok (c, others) ->
  walks X (store get) w bs asked items2 w2 -> should_continue w2 = false ->
  exists groups, asked = concat groups
    /\ Forall2 (fun d g => exists rest, g = d :: rest /\ Forall (below X get d) rest) (c :: others) groups.
Proof.
  intros X get root name items w c others bs asked items2 w2 (bs0 & a0 & H0) PL H SC.
  pose proof (wfw_walks X _ _ _ _ _ _ H0 (wfw_start _ _)) as W.
  destruct (walks_groups X get _ _ _ _ _ H W SC) as (groups & G & ->). rewrite (pending_todo _ _ _ PL) in G.
  exists groups. split; [reflexivity|exact G].
Qed.
Print Assumptions C46_walk_pending.
(** a tree with a walk that runs to its end *)
Example C46_walk_nonvacuous : forall X, ext_ok X -> exists items w, (10 <= length items)%nat
  /\ walk_from X t_get (idc 10) [] items w /\ should_continue w = false.
Proof.
  intros X HX. destruct (C39_preorder X t_get (idc 10) [] t_tree (@in_nil _ _) (t_stored X HX) t_walkable)
    as (items & A & (w & HW & SC) & _).
  exists items, w. split; [|auto]. change 10%nat with (length (sights true [] (idc 10) t_tree)). clear - A.
  induction A as [|e its evs its' R A IH]; [apply Nat.le_refl|]. rewrite app_length. cbn [length].
  assert (1 <= length its)%nat; [|lia].
  assert (Q : forall e, reported e its -> (1 <= length its)%nat).
  { intros e0 Q. inversion Q as [| |c p md content its0 (pieces & NE & _ & L & _)| |]; subst; cbn; try lia.
    rewrite L. destruct pieces; [congruence|cbn; lia]. }
  inversion R; subst; [eapply Q; eassumption|cbn; lia].
Qed.

(** ** C24, for walks *)

(** the caches that can be around when visits and walks share one: none, a fresh
    one, and whatever any operation, failed or not, leaves behind *)
Inductive any_cache (X : ext) : option cache -> Prop :=
| ac_none : any_cache X None
| ac_default : any_cache X (Some [])
| ac_start : forall v f k, any_cache X k -> any_cache X (snd (start_from_parsed X v f k))
| ac_continue : forall v b k, any_cache X k -> any_cache X (snd (continue_walk X v b k))
| ac_walk : forall w b k, any_cache X k -> any_cache X (snd (walk_next X w b k)).
Lemma any_cache_clean X k : any_cache X k -> clean_cache k.
Proof.
  intros H. induction H as [| |v f k _ IH|v b k _ IH|w b k _ IH]; [left; reflexivity|right; reflexivity| | |].
  - apply start_clean, IH.
  - apply continue_clean, IH.
  - exact (proj2 (walk_next_cache X w b k None IH (or_introl eq_refl))).
Qed.
Theorem C24_walk_cache : forall X k, any_cache X k ->
  (forall w b, fst (walk_next X w b k) = fst (walk_next X w b None))
  /\ (forall v f, fst (start_from_parsed X v f k) = fst (start_from_parsed X v f None))
  /\ (forall v b, fst (continue_walk X v b k) = fst (continue_walk X v b None)).
Proof.
  intros X k H. apply any_cache_clean in H. split; [|split].
  - intros w b. apply (walk_next_cache X w b k None H). left. reflexivity.
  - intros v f. apply start_cache. apply clean_opt, H.
  - intros v b. apply Visit_proofs.continue_cache.
Qed.
Print Assumptions C24_walk_cache.

(** ** C47 *)

(** Whatever the blocks are: what is reported is what the block says, under the
    Cid asked for *)
Theorem C47_items_match_blocks : forall X root name bs asked items w c others b k it w' k',
  walks X anything (walker_new root name) bs asked items w -> w_pending_links w = Ok (c, others) ->
  clean_cache k -> walk_next X w b k = (Ok it, w', k') ->
  exists f, try_parse (ext_dbg X) b = Ok f /\
  match it with
  | WRootDirectory c' _ md => c' = c /\ md = says (f_data f) /\ (supported_dir (f_data f) \/ supported_shard (f_data f))
  | WDirectory c' _ md => c' = c /\ md = says (f_data f) /\ supported_dir (f_data f)
  | WBucket _ _ => supported_shard (f_data f)
  | WSymlink target c' _ md => c' = c /\ md = says (f_data f) /\ u_type (f_data f) = Symlink /\ target = own_data f
  | WFile s c' _ md size =>
    plain_file (f_data f)
    /\ as_bytes s = (match f_links f with [] => own_data f | _ => [] end)
    /\ (is_first s = true -> c' = c /\ md = says (f_data f) /\ u_filesize (f_data f) = Some size)
    /\ (is_first s = false -> no_metadata (f_data f))
  end.
Proof.
  intros X root name bs asked items w c others b k it w' k' H PL K NX.
  pose proof (wfw_walks X _ _ _ _ _ _ H (wfw_start _ _)) as (W1 & _).
  apply next_inv in NX; [|exact K]. destruct NX as [ie v size out step C KI CW|f d name0 depth ie it new NF P N E].
  - destruct (W1 _ _ _ C KI) as [R _]. destruct (continue_walk X v b None) as [r k2] eqn:CE. cbn in CW. subst r.
    apply continue_ok in CE as (c0 & rg & pending & f & fs & e & _ & _ & Hf & M & T & _ & _ & _ & Hc).
    exists f. split; [exact Hf|]. cbn [is_first seg_first as_bytes seg_bytes]. split; [exact T|]. split; [|split; [discriminate|auto]].
    rewrite R in Hc. destruct Hc as [(-> & Hs & _)|(NL & -> & _)].
    + cbn in Hs. congruence.
    + destruct (f_links f); [congruence|reflexivity].
  - exists f. split; [exact P|]. pose proof (asked_next _ _ _ _ _ _ PL NF N) as <-. 
    destruct E as [new C T S F|ie0 ie new C T S F A|new C T S F|ie0 ie new C T S F NE A|ie0 ie new C T S F NE A
      |ie out size step T S F|ie T F]; rewrite ?says_metadata; auto.
    cbn [is_first seg_first as_bytes seg_bytes].
    rewrite <- (start_parsed_visit X None b f P) in S. apply start_ok in S as (f' & e & P' & T' & L & _ & FS & _ & S).
    rewrite P in P'. injection P' as <-. split; [exact T'|]. split; [|split; [intros _; auto|discriminate]].
    destruct S as [(-> & Hs & _)|(NL & -> & _)].
    + cbn in Hs. congruence.
    + destruct (f_links f); [congruence|reflexivity].
Qed.
Print Assumptions C47_items_match_blocks.
(** a walk with its next block: C42_nonvacuous *)

(** ** C41 *)

(** a walk which, given [blocks] for what it asked for, wants another block, and
    panics when given [b] *)
Definition panics_after (X : ext) (blocks : list bytes) (b : bytes) : Prop :=
  exists root asked items w c others,
    walks X anything (walker_new root []) blocks asked items w
    /\ should_continue w = true /\ w_pending_links w = Ok (c, others)
    /\ forall k, clean_cache k -> fst (fst (walk_next X w b k)) = Panic.

Lemma panics_first X f : try_parse (ext_dbg X) (flat_write f) = Ok f ->
  (forall k, fst (fst (walk_next X (walker_new (idc 9) []) (flat_write f) k)) = Panic) ->
  panics_after X [] (flat_write f).
Proof.
  intros P H. exists (idc 9), [], [], (walker_new (idc 9) []), (idc 9), [].
  split; [apply walks_here|]. split; [reflexivity|]. split; [reflexivity|]. intros k _. apply H.
Qed.
Lemma panics_second X f b it w c others : try_parse (ext_dbg X) (flat_write f) = Ok f ->
  walk_next X (walker_new (idc 9) []) (flat_write f) None = (Ok it, w, None) ->
  should_continue w = true -> w_pending_links w = Ok (c, others) ->
  (forall k, clean_cache k -> fst (fst (walk_next X w b k)) = Panic) ->
  panics_after X [flat_write f] b.
Proof.
  intros P N S PL H. exists (idc 9), [idc 9], [it], w, c, others. split; [|auto].
  eapply walks_next; [reflexivity|reflexivity|exact Logic.I|left; reflexivity|exact N|apply walks_here].
Qed.

(** C41 refuted: a directory with an empty link name, or with one with a slash;
    a shard with a link name of one byte, or one cut within a character; a file
    without a size; a part of a file which is no UnixFS block; a bucket which is
    a file; a directory entry called "." below
    another directory (without debug assertions, its next sibling) *)
Theorem C41_refuted : forall X, ext_ok X ->
  panics_after X [] (flat_write (dirm [nlnk 1 []]))
  /\ panics_after X [] (flat_write (dirm [nlnk 1 [x61; x2f]]))
  /\ panics_after X [] (flat_write (shardm [nlnk 1 [x61]]))
  /\ panics_after X [] (flat_write (shardm [nlnk 1 [x61; xc3; xa9; x62]]))
  /\ panics_after X [] nosize_block
  /\ panics_after X [flat_write ex_root] []
  /\ panics_after X [flat_write (shardm [nlnk 1 [x30; x30]])] (flat_write (leafm File [x61]))
  /\ (let blocks := [flat_write (dirm [nlnk 1 [x61]; nlnk 2 [x62]]); flat_write (dirm [nlnk 3 [x2e]])] in
      let file := flat_write (leafm File [x61]) in
      if ext_dbg X then panics_after X blocks file else panics_after X (blocks ++ [file]) file).
Proof.
  intros X HX.
  assert (NF0 : forall ie, w_current (walker_new (idc 9) []) = Some ie -> in_file (ie_kind ie) = false) by discriminate.
  assert (LT : forall i n nm, link_target X i (nlnk n nm) = Ok (idc n)) by (intros; apply link_target_ok, nlnk_cid, HX).
  split; [|split; [|split; [|split; [|split; [|split; [|split]]]]]].
  - apply panics_first; [destruct (ext_dbg X); vm_compute; reflexivity|]. intros k.
    rewrite (next_not_file X _ _ _ NF0 (dirm [nlnk 1 []])) by (destruct (ext_dbg X); vm_compute; reflexivity).
    cbn -[link_target idc nlnk]. unfold finish_dir, enumerate_rev. cbn -[link_target idc nlnk]. unfold convert_link. rewrite LT. reflexivity.
  - apply panics_first; [destruct (ext_dbg X); vm_compute; reflexivity|]. intros k.
    rewrite (next_not_file X _ _ _ NF0 (dirm [nlnk 1 [x61; x2f]])) by (destruct (ext_dbg X); vm_compute; reflexivity).
    cbn -[link_target idc nlnk]. unfold finish_dir, enumerate_rev. cbn -[link_target idc nlnk]. unfold convert_link. rewrite LT. reflexivity.
  - apply panics_first; [destruct (ext_dbg X); vm_compute; reflexivity|]. intros k.
    rewrite (next_not_file X _ _ _ NF0 (shardm [nlnk 1 [x61]])) by (destruct (ext_dbg X); vm_compute; reflexivity).
    cbn -[link_target idc nlnk]. unfold finish_dir, enumerate_rev. cbn -[link_target idc nlnk]. unfold convert_sharded_link. rewrite LT. reflexivity.
  - apply panics_first; [destruct (ext_dbg X); vm_compute; reflexivity|]. intros k.
    rewrite (next_not_file X _ _ _ NF0 (shardm [nlnk 1 [x61; xc3; xa9; x62]])) by (destruct (ext_dbg X); vm_compute; reflexivity).
    cbn -[link_target idc nlnk]. unfold finish_dir, enumerate_rev. cbn -[link_target idc nlnk]. unfold convert_sharded_link. rewrite LT. reflexivity.
  - exists (idc 9), [], [], (walker_new (idc 9) []), (idc 9), [].
    split; [apply walks_here|]. split; [reflexivity|]. split; [reflexivity|]. intros k _.
    destruct (evil_parse (ext_dbg X)) as (_ & _ & _ & _ & _ & P).
    rewrite (next_not_file X _ _ _ NF0 _ P). cbn -[start_from_parsed].
    unfold start_from_parsed, from_parsed, from_parts.
    cbn [f_data f_links u_type u_data u_filesize u_blocksizes u_hashtype u_fanout length Nat.eqb negb opt is_nil andb].
    rewrite (add64_ok (E := read_failed)) by reflexivity. reflexivity.
  - assert (S : exists v, start_from_parsed X None ex_root None = (Ok ([], 4, MData None None, Some v), None)
       /\ exists c r rest, fv_pending v = (c, r) :: rest /\ check_is_suitable_next (tr_last_ending (fv_state v)) (tr_last_offset (fv_state v)) r = None).
    { unfold start_from_parsed, from_parsed.
      rewrite (from_parts_intro X ex_root 0 (metadata_of (f_data ex_root)) 4);
        [|repeat split; left; reflexivity|reflexivity|reflexivity|discriminate|reflexivity].
      unfold start_from_reader, fr_content. cbn [fr_links fr_blocksizes fr_offset ex_root nodem f_links f_data u_blocksizes is_nil combine select_links].
      rewrite !(add64_ok (E := read_failed)) by reflexivity. cbn [bind block_is_in_target_range].
      rewrite !idc_pending by exact HX. cbn [bind]. rewrite !(add64_ok (E := read_failed)) by reflexivity. cbn [bind].
      rewrite !idc_pending by exact HX. cbn [bind]. rewrite !(add64_ok (E := read_failed)) by reflexivity. cbn [bind].
      rewrite !idc_pending by exact HX. eexists. split; [reflexivity|]. repeat eexists. }
    destruct S as (v & S & c & r & rest & Pd & CK).
    eapply panics_second; [apply ex_root_parse| | | |].
    + rewrite (next_not_file X _ _ _ NF0 _ (ex_root_parse _)). cbn -[start_from_parsed idc ex_root].
      change (u_type (f_data ex_root)) with File. cbv iota. unfold idle_default. rewrite S. cbn -[idc]. reflexivity.
    + reflexivity.
    + unfold w_pending_links. cbn [w_current option_map ie_kind new_root]. unfold pending_links. rewrite Pd. reflexivity.
    + intros k _. unfold walk_next, new_root. cbn [w_current]. unfold next_in_file, continue_walk. rewrite Pd.
      unfold tr_continue_walk. rewrite CK. unfold from_continued.
      assert (P : exists e, try_parse (ext_dbg X) [] = Err e) by (destruct (ext_dbg X); vm_compute; eauto).
      destruct P as [e ->]. destruct e; reflexivity.
  - eapply panics_second; [destruct (ext_dbg X); vm_compute; reflexivity| | | |].
    + rewrite (next_not_file X _ _ _ NF0 (shardm [nlnk 1 [x30; x30]])) by (destruct (ext_dbg X); vm_compute; reflexivity).
      cbn -[link_target idc nlnk]. unfold finish_dir, enumerate_rev. cbn -[link_target idc nlnk]. unfold convert_sharded_link. rewrite LT. cbn -[idc]. reflexivity.
    + reflexivity.
    + reflexivity.
    + intros k Hk. match goal with |- context [walk_next X ?w _ _] => assert (NF : forall ie, w_current w = Some ie -> in_file (ie_kind ie) = false) by (intros ? [= <-]; reflexivity) end.
      rewrite (next_not_file X _ _ _ NF (leafm File [x61])) by (destruct (ext_dbg X); vm_compute; reflexivity).
      change (u_type (f_data (leafm File [x61]))) with File. cbv iota. unfold idle_default, start_from_parsed, from_parsed.
      rewrite (from_parts_intro X (leafm File [x61]) 0 (metadata_of (f_data (leafm File [x61]))) 1);
        [|repeat split; left; reflexivity|reflexivity|reflexivity|discriminate|reflexivity].
      cbn -[idc]. unfold set_path. destruct (ext_dbg X); reflexivity.
  - cbv zeta.
    assert (N1 : exists it w, walk_next X (walker_new (idc 9) []) (flat_write (dirm [nlnk 1 [x61]; nlnk 2 [x62]])) None = (Ok it, w, None)
      /\ should_continue w = true /\ w_pending_links w = Ok (idc 1, [idc 2])
      /\ w = Walker (Some (new_root KRootDirectory (idc 9) (MData None None) [] 1)) (Some (idc 1, [x61], 2%nat)) [(idc 2, [x62], 2%nat)] true).
    { eexists _, _. split; [|split; [|split; [|reflexivity]]]; try reflexivity.
      rewrite (next_not_file X _ _ _ NF0 (dirm [nlnk 1 [x61]; nlnk 2 [x62]])) by (destruct (ext_dbg X); vm_compute; reflexivity).
      cbn -[link_target idc nlnk]. unfold finish_dir, enumerate_rev. cbn -[link_target idc nlnk]. unfold convert_link. rewrite !LT. cbn -[idc]. reflexivity. }
    destruct N1 as (it1 & w1 & N1 & S1 & PL1 & E1).
    assert (N2 : exists it w, walk_next X w1 (flat_write (dirm [nlnk 3 [x2e]])) None = (Ok it, w, None)
      /\ should_continue w = true /\ w_pending_links w = Ok (idc 3, [idc 2])
      /\ w = Walker (Some (InnerEntry (idc 1) KDirectory [x61] (MData None None) 2)) (Some (idc 3, [x2e], 3%nat)) [(idc 2, [x62], 2%nat)] true).
    { eexists _, _. split; [|split; [|split; [|reflexivity]]]; try reflexivity. subst w1.
      match goal with |- context [walk_next X ?w _ _] => assert (NF : forall ie, w_current w = Some ie -> in_file (ie_kind ie) = false) by (intros ? [= <-]; reflexivity) end.
      rewrite (next_not_file X _ _ _ NF (dirm [nlnk 3 [x2e]])) by (destruct (ext_dbg X); vm_compute; reflexivity).
      cbn -[link_target idc nlnk finish_dir]. unfold set_path, finish_dir, enumerate_rev. cbn -[link_target idc nlnk]. unfold convert_link. rewrite !LT.
      destruct (ext_dbg X); cbn -[idc]; reflexivity. }
    destruct N2 as (it2 & w2 & N2 & S2 & PL2 & E2).
    assert (FS : forall k, start_from_parsed X None (leafm File [x61]) k = (Ok ([x61], 1, MData None None, None), k)).
    { intros k. unfold start_from_parsed, from_parsed.
      rewrite (from_parts_intro X (leafm File [x61]) 0 (metadata_of (f_data (leafm File [x61]))) 1);
        [|repeat split; left; reflexivity|reflexivity|reflexivity|discriminate|reflexivity]. reflexivity. }
    assert (NX2 : forall k, walk_next X w2 (flat_write (leafm File [x61])) k
      = if ext_dbg X then failed w2 Panic k
        else (Ok (WFile (FileSegment [x61] true true) (idc 3) [x61; x2f; x2e] (MData None None) 1),
              Walker (Some (InnerEntry (idc 3) (KFile None 1) [x61; x2f; x2e] (MData None None) 3)) (Some (idc 2, [x62], 2%nat)) [] true, k)).
    { intros k.
      assert (NF : forall ie, w_current w2 = Some ie -> in_file (ie_kind ie) = false) by (subst w2; intros ? [= <-]; reflexivity).
      rewrite (next_not_file X _ _ _ NF (leafm File [x61])) by (destruct (ext_dbg X); vm_compute; reflexivity). subst w2.
      change (u_type (f_data (leafm File [x61]))) with File. cbv iota. unfold idle_default. rewrite FS.
      cbn -[idc]. unfold set_path. destruct (ext_dbg X); reflexivity. }
    destruct (ext_dbg X) eqn:D.
    + eexists (idc 9), _, _, w2, _, _. split; [|split; [exact S2|split; [exact PL2|intros k _; rewrite NX2; reflexivity]]].
      eapply walks_next; [reflexivity|reflexivity|exact Logic.I|left; reflexivity|exact N1|].
      eapply walks_next; [exact S1|exact PL1|exact Logic.I|left; reflexivity|exact N2|apply walks_here].
    + eexists (idc 9), _, _, _, _, _. split.
      * eapply walks_next; [reflexivity|reflexivity|exact Logic.I|left; reflexivity|exact N1|].
        eapply walks_next; [exact S1|exact PL1|exact Logic.I|left; reflexivity|exact N2|].
        eapply walks_next; [exact S2|exact PL2|exact Logic.I|left; reflexivity|apply NX2|apply walks_here].
      * split; [reflexivity|]. split; [reflexivity|]. intros k _.
        match goal with |- context [walk_next X ?w _ _] => assert (NF : forall ie, w_current w = Some ie -> in_file (ie_kind ie) = false) by (intros ? [= <-]; reflexivity) end.
        rewrite (next_not_file X _ _ _ NF (leafm File [x61])) by (rewrite D; vm_compute; reflexivity).
        change (u_type (f_data (leafm File [x61]))) with File. cbv iota. unfold idle_default. rewrite FS.
        cbn -[idc]. unfold set_path. rewrite D. reflexivity.
Qed.
Print Assumptions C41_refuted.

(** C41, what does hold.  [pending_links] never panics while [should_continue],
    whatever the blocks are (C46_walk_step).  [next] returns Ok or Err for all
    blocks of an [orderly] store (see SpecWalk.v), unless it is given a shard
    right after it reported a plain directory.  Missing: the cases refuted above
    and in C39_refuted. *)
Theorem C41_orderly : forall X get root name items w c others b k,
  orderly X get -> ~ In x2f name -> walk_from X get root name items w ->
  w_pending_links w = Ok (c, others) -> get c = Some b -> clean_cache k ->
  (fst (fst (walk_next X w b k)) <> Panic /\ fst (fst (walk_next X w b k)) <> Diverge)
  \/ (exists pre c' p md, items = pre ++ [WDirectory c' p md])
     /\ exists f, try_parse (ext_dbg X) b = Ok f /\ u_type (f_data f) = HAMTShard.
Proof.
  intros X get root name items w c others b k O Hn (bs & asked & H) PL G Hk.
  exact (safe_next X get O items w b k c others (safe_walks X get O _ _ _ _ _ _ Hn H) PL G Hk).
Qed.
Print Assumptions C41_orderly.
(** So there is no panic at all without shards *)
Corollary C41_unsharded : forall X get root name items w c others b k,
  orderly X get -> (forall c b f, get c = Some b -> try_parse (ext_dbg X) b = Ok f -> u_type (f_data f) <> HAMTShard) ->
  ~ In x2f name -> walk_from X get root name items w ->
  w_pending_links w = Ok (c, others) -> get c = Some b -> clean_cache k ->
  fst (fst (walk_next X w b k)) <> Panic /\ fst (fst (walk_next X w b k)) <> Diverge.
Proof.
  intros X get root name items w c others b k O NS Hn H PL G Hk.
  destruct (C41_orderly X get root name items w c others b k O Hn H PL G Hk) as [F|[_ (f & P & T)]]; [exact F|].
  destruct (NS c b f G P T).
Qed.
Print Assumptions C41_unsharded.
(** the blocks of t_tree, u_tree and v_tree *)
Example C41_nonvacuous : forall X, ext_ok X -> orderly X o_get
  /\ forall n, In n t_ids -> o_get (idc n) = Some (flat_write (t_msg n)).
Proof. intros X HX. split; [apply o_orderly, HX|apply o_ids]. Qed.

(** ** C44, the walker's part: a symlink block is walked in one step, which
    reports its target, the Cid and name of the walk, and no metadata *)
Theorem C44_walk : forall X target c name k, blen target < 2 ^ 31 ->
  exists w, walk_next X (walker_new c name) (serialize_symlink_block target []) k
            = (Ok (WSymlink target c name (MData None None)), w, k)
  /\ should_continue w = false.
Proof.
  intros X target c name k Ht. destruct (symlink_parse (ext_dbg X) target [] Ht) as (blk & E & P). rewrite E. cbn [app].
  eexists. split.
  - rewrite (next_not_file X (walker_new c name) blk k ltac:(discriminate) _ P).
    cbn -[path_push]. unfold new_root. cbn [ie_cid ie_path ie_metadata]. replace (path_push [] name) with name by (unfold path_push; destruct (is_absolute name); reflexivity). reflexivity.
  - reflexivity.
Qed.
Print Assumptions C44_walk.
Example C44_walk_nonvacuous : blen [x62] < 2 ^ 31. Proof. vm_compute. reflexivity. Qed.
