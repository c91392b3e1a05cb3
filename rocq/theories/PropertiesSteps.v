(** * Property C51: file visits, call by call, on arbitrary blocks; and from it the
    exact conditions of the panics (C22).
    The vocabulary is in SpecFileSteps.v, the proofs in Steps_proofs.v. *)
From Verif Require Import Base Tac Wire Cid Pb Parsed Reader Visit SpecFile SpecWalk Visit_proofs SpecFileSteps Steps_proofs Examples_file.

(** the ends of the target range are u64 *)
Definition target_u64 (target : option (N * N)) : Prop :=
  match target with None => True | Some (a, b) => a < 2 ^ 64 /\ b < 2 ^ 64 end.

(** C51: what starting a visit on any block returns.  The answer of
    SpecFileSteps.v is unique, and it is the answer of the code. *)
Theorem C51_start : forall X target b, target_u64 target ->
  exists r, first_step X target b r /\ (forall r', first_step X target b r' -> r' = r)
  /\ match r with
     | Ok (out, links, _) => exists f size ov,
         try_parse (ext_dbg X) b = Ok f /\ u_filesize (f_data f) = Some size
         /\ visit_start X target b = Ok (out, size, says (f_data f), ov)
         /\ match ov with
            | None => links = []
            | Some v => exists c r rest, links = (c, r) :: rest /\ pending_links v = Ok (c, map fst rest)
            end
     | Err e => visit_start X target b = Err e
     | Panic => visit_start X target b = Panic
     | Diverge => visit_start X target b = Diverge
     end.
Proof.
  intros X target b U. destruct (start_model X target b U) as (r & F & R). exists r. split; [exact F|].
  split; [intros r' F'; eapply first_det; eassumption|].
  destruct r as [[[out links] prev]|e| |]; try exact R. destruct R as (f & size & ov & P & Z & S & R).
  exists f, size, ov. split; [exact P|]. split; [exact Z|]. split; [exact S|]. destruct ov as [v|]; [|exact R].
  destruct R as (NE & R & _). destruct links as [|[c r] rest]; [congruence|]. exists c, r, rest. split; [reflexivity|].
  unfold pending_links. rewrite R. reflexivity.
Qed.
Print Assumptions C51_start.

(** and what continuing it returns, at any point of any visit: [links] are what
    is left to visit, and the next block is judged by its place after the block
    before and by its contents *)
Theorem C51_continue : forall X gives target bs asked out v, target_u64 target ->
  visit X gives target bs asked out (Some v) ->
  exists links prev, unfolds X target bs asked out links prev
  /\ match links with
     | [] => pending_links v = Panic /\ forall b k, fst (continue_walk X v b k) = Panic
     | (c, r) :: rest => pending_links v = Ok (c, map fst rest)
       /\ forall b k, exists res, next_step X target prev r rest b res
          /\ (forall res', next_step X target prev r rest b res' -> res' = res)
          /\ match res with
             | Ok (out', links', prev') => exists ov, fst (continue_walk X v b k) = Ok (out', ov)
                 /\ (ov = None <-> links' = [] /\ exists e, prev' = AfterLeaf e)
             | Err e => fst (continue_walk X v b k) = Err e
             | Panic => fst (continue_walk X v b k) = Panic
             | Diverge => fst (continue_walk X v b k) = Diverge
             end
     end.
Proof.
  intros X gives target bs asked out v U V. destruct (visit_unfolds X gives target bs asked out _ U V) as (links & prev & Un & T1 & T2 & T3).
  exists links, prev. split; [exact Un|]. destruct links as [|[c r] rest].
  - unfold pending_links, continue_walk. rewrite T1. auto.
  - split; [unfold pending_links; rewrite T1; reflexivity|]. intros b k.
    destruct (continue_model X v b k c r rest) as (res & NS & R); [rewrite T2; exact U|exact T1|]. rewrite T2, <- T3 in NS.
    exists res. split; [exact NS|]. split; [intros res' N'; eapply next_det; eassumption|].
    destruct res as [[[out' links'] prev']|e| |]; try exact R. destruct R as (ov & k' & C & R). exists ov. rewrite C. split; [reflexivity|].
    destruct ov as [v'|]; [|destruct R as [-> R]; tauto]. split; [discriminate|]. intros [-> [e E]]. destruct R as (R & _).
    destruct (R eq_refl) as (s & e' & E'). congruence.
Qed.
Print Assumptions C51_continue.

(** and conversely every sequence of blocks accepted by SpecFileSteps.v is
    accepted by the code, with the same links asked for and the same bytes *)
Theorem C51_accepts : forall X target bs asked out links prev, target_u64 target ->
  unfolds X target bs asked out links prev ->
  exists ov, visit X anything target bs asked out ov /\ (ov = None -> links = []).
Proof.
  intros X target bs asked out links prev U Un. destruct (unfolds_visit X target _ _ _ _ _ U Un) as (ov & V & T).
  exists ov. split; [exact V|]. intros ->. exact T.
Qed.
Print Assumptions C51_accepts.

(** all of it happens: a visit of [root][leaf], to be continued *)
Example C51_nonvacuous : forall X, ext_ok X -> exists v,
  visit X (store ex_get) None [flat_write ex_root] [] [] (Some v) /\ exists c others, pending_links v = Ok (c, others) /\ length others = 2%nat.
Proof.
  intros X HX.
  assert (S : visit_start X None (flat_write ex_root) = Ok ([], 4, nomd,
    Some (FileVisit [(idc 1, (0, 2)); (idc 2, (2, 3)); (idc 3, (3, 4))] None (Traversal (TreeCoverage 4) 0 4 nomd)))).
  { apply (start_nodem X None _ _ _ _ _ _ (ex_root_parse _)); [discriminate|reflexivity|reflexivity|].
    cbn [combine select_links]. rewrite !(add64_ok (E := read_failed)) by reflexivity. cbn [bind block_is_in_target_range].
    rewrite !idc_pending by exact HX. cbn [bind].
    repeat (rewrite !(add64_ok (E := read_failed)) by reflexivity; cbn [bind]; rewrite !idc_pending by exact HX; cbn [bind]). reflexivity. }
  eexists. split; [change (@nil byte) with (@nil byte ++ []); eapply visit_multi; [exact S|apply cont_here]|].
  eexists _, _. split; reflexivity.
Qed.

(** ** C22: exactly when a visit panics *)

(** the sizes of the links, added to the offset, exceed 64 bits at some link, and
    no link before that is reported as invalid instead *)
Definition overflows (X : ext) (target : option (N * N)) (off : N) (f : flat) : Prop :=
  exists n, (n < length (f_links f))%nat
  /\ 2 ^ 64 <= off + sumN (firstn (S n) (u_blocksizes (f_data f)))
  /\ forall j l, (j < n)%nat -> nth_error (f_links f) j = Some l ->
     touches target (off + sumN (firstn j (u_blocksizes (f_data f))), off + sumN (firstn (S j) (u_blocksizes (f_data f)))) ->
     link_cid X l <> None.

Lemma picks_panic X target ls : forall i off zs, length ls = length zs -> off < 2 ^ 64 ->
  picks X target i off ls zs Panic <->
  ext_dbg X = true /\ exists n, (n < length ls)%nat /\ 2 ^ 64 <= off + sumN (firstn (S n) zs)
    /\ forall j l, (j < n)%nat -> nth_error ls j = Some l ->
       touches target (off + sumN (firstn j zs), off + sumN (firstn (S j) zs)) -> link_cid X l <> None.
Proof.
  induction ls as [|l ls IH]; intros i off [|z zs] L O; try discriminate L.
  { split; [intros H; inversion H|intros (_ & n & H & _); cbn in H; lia]. }
  injection L as L.
  assert (P : forall e, plus X off z = Some e -> ext_dbg X = true -> e = off + z /\ e < 2 ^ 64).
  { intros e. unfold plus. destruct (N.ltb_spec (off + z) two64) as [Lt|Lt]; [intros H _; injection H as <-; split; [reflexivity|exact Lt]|].
    intros H Hd. rewrite Hd in H. discriminate. }
  assert (PN : plus X off z = None <-> ext_dbg X = true /\ 2 ^ 64 <= off + z).
  { unfold plus. change two64 with (2 ^ 64). destruct (N.ltb_spec (off + z) (2 ^ 64)) as [Lt|Lt].
    - split; [discriminate|lia].
    - destruct (ext_dbg X); split; try discriminate; auto. intros [? _]. discriminate. }
  assert (Tail : forall e, plus X off z = Some e -> (touches target (off, e) -> link_cid X l <> None) ->
    (picks X target (S i) e ls zs Panic <->
     ext_dbg X = true /\ exists n, (n < length (l :: ls))%nat /\ 2 ^ 64 <= off + sumN (firstn (S n) (z :: zs))
      /\ forall j l0, (j < n)%nat -> nth_error (l :: ls) j = Some l0 ->
        touches target (off + sumN (firstn j (z :: zs)), off + sumN (firstn (S j) (z :: zs))) -> link_cid X l0 <> None)).
  { intros e E V. destruct (ext_dbg X) eqn:Hd.
    - destruct (P e E eq_refl) as [-> Lt]. rewrite (IH (S i) (off + z) zs L Lt). split.
      + intros (_ & n & Hn & Ho & Hv). split; [reflexivity|]. exists (S n). cbn [length]. split; [lia|].
        change (firstn (S (S n)) (z :: zs)) with (z :: firstn (S n) zs). cbn [sumN fold_right]. fold (sumN (firstn (S n) zs)).
        split; [lia|]. intros [|j] l0 Hj Hnth Ht.
        * injection Hnth as <-. apply V. cbn in Ht. rewrite !N.add_0_r in Ht. exact Ht.
        * apply (Hv j l0); [lia|exact Hnth|]. cbn [firstn sumN fold_right] in Ht |- *. fold (sumN (firstn j zs)) in Ht.
          rewrite <- !N.add_assoc. exact Ht.
      + intros (_ & n & Hn & Ho & Hv). split; [reflexivity|]. destruct n as [|n].
        { cbn in Ho. rewrite N.add_0_r in Ho. lia. }
        exists n. cbn [length] in Hn. split; [lia|].
        change (firstn (S (S n)) (z :: zs)) with (z :: firstn (S n) zs) in Ho. cbn [sumN fold_right] in Ho. fold (sumN (firstn (S n) zs)) in Ho.
        split; [lia|]. intros j l0 Hj Hnth Ht. apply (Hv (S j) l0); [lia|exact Hnth|]. cbn [firstn sumN fold_right] in Ht |- *. fold (sumN (firstn j zs)).
        rewrite <- !N.add_assoc in Ht. exact Ht.
    - split; [|intros [? _]; discriminate]. intros H. exfalso. clear - H Hd L. revert H.
      assert (G : forall ls i e zs, ~ picks X target i e ls zs Panic); [|apply G].
      clear - Hd. induction ls as [|l ls IH]; intros i e zs H; [inversion H|].
      inversion H; subst; try (eapply IH; eassumption). match goal with A : plus X _ _ = None |- _ => unfold plus in A; rewrite Hd in A; destruct (_ <? _); discriminate A end. }
  split.
  - intros H. inversion H as [|? ? ? ? ? ? PO|? ? e ? ? ? ? ? PO T PK| | |? ? e ? ? ? ? c ? PO T C PK NE]; subst.
    + apply PN in PO as [Hd Ho]. split; [exact Hd|]. exists 0%nat. cbn [length firstn sumN fold_right]. split; [lia|]. split; [lia|]. intros j ? Hj. lia.
    + apply (Tail e PO); [intros; contradiction|exact PK].
    + apply (Tail e PO); [intros _; congruence|exact PK].
  - intros H. assert (H' := H). destruct H' as (Hd & n & Hn & Ho & Hv).
    destruct (plus X off z) as [e|] eqn:E; [|apply p_overflow; exact E].
    destruct (P e eq_refl Hd) as [Ee Lt].
    assert (n <> 0%nat) by (intros ->; cbn in Ho; rewrite N.add_0_r in Ho; lia).
    assert (V : touches target (off, e) -> link_cid X l <> None).
    { intros T. apply (Hv 0%nat l); [lia|reflexivity|]. cbn. rewrite !N.add_0_r, <- Ee. exact T. }
    apply (Tail e eq_refl V) in H.
    destruct (block_is_in_target_range (off, e) target) eqn:T.
    + apply touches_model in T. destruct (link_cid X l) as [c|] eqn:C; [|exfalso; exact (V T eq_refl)].
      eapply p_take_fails; [exact E|exact T|exact C|exact H|discriminate].
    + apply touches_false in T. eapply p_skip; eassumption.
Qed.

Lemma plus_lt X a b s : plus X a b = Some s -> s < 2 ^ 64.
Proof.
  unfold plus. change two64 with (2 ^ 64). destruct (N.ltb_spec (a + b) (2 ^ 64)); [intros H0; injection H0 as <-; assumption|].
  destruct (ext_dbg X); [discriminate|]. intros H0. injection H0 as <-. apply N.mod_lt. discriminate.
Qed.
Lemma plus_none X a b : plus X a b = None <-> ext_dbg X = true /\ 2 ^ 64 <= a + b.
Proof.
  unfold plus. change two64 with (2 ^ 64). destruct (N.ltb_spec (a + b) (2 ^ 64)) as [Lt|Lt].
  - split; [discriminate|lia].
  - destruct (ext_dbg X); split; try discriminate; auto. intros [? _]. discriminate.
Qed.
Definition low (p : cid * (N * N)) : Prop := fst (snd p) < 2 ^ 64.
Lemma picks_low X target i off ls zs r : picks X target i off ls zs r -> off < 2 ^ 64 -> forall ps, r = Ok ps -> Forall low ps.
Proof.
  induction 1 as [| |i off e l ls z zs r P T H IH| |i off e l ls z zs c ps P T C H IH|i off e l ls z zs c r P T C H IH NE];
    intros O ps0 E; try discriminate; try (injection E as <-); try (constructor; fail).
  - eapply IH; [eapply plus_lt; exact P|exact E].
  - constructor; [exact O|]. eapply IH; [eapply plus_lt; exact P|reflexivity].
  - exfalso. exact (NE _ E).
Qed.
Lemma opened_low X target r rest f out links prev : opened X target r rest f (Ok (out, links, prev)) ->
  fst r < 2 ^ 64 -> Forall low rest -> Forall low links.
Proof.
  intros H O F. inversion H; subst; [exact F|]. apply Forall_app. split; [|exact F]. eapply picks_low; [eassumption|exact O|reflexivity].
Qed.
Lemma unfolds_low X target bs asked out links prev : unfolds X target bs asked out links prev -> Forall low links.
Proof.
  induction 1 as [b out links prev F|bs asked out c r rest prev b out' links' prev' H IH N].
  - inversion F; subst. eapply opened_low; [eassumption|reflexivity|constructor].
  - inversion IH as [|? ? L1 L2]; subst. inversion N; subst. eapply opened_low; [eassumption|exact L1|exact L2].
Qed.

(** C22: starting a visit panics in exactly these cases: the parser does (C04); a
    leaf tells no file size; with overflow checks, the sizes of the links
    overflow *)
Theorem C22_start_panics : forall X target b, target_u64 target ->
  visit_start X target b = Panic <->
  try_parse (ext_dbg X) b = Panic
  \/ exists f, try_parse (ext_dbg X) b = Ok f /\ is_file (f_data f) /\ matched f /\ bare (f_data f)
     /\ (f_links f = [] /\ u_filesize (f_data f) = None
         \/ ext_dbg X = true /\ u_filesize (f_data f) <> None /\ overflows X target 0 f).
Proof.
  intros X target b U. destruct (C51_start X target b U) as (r & F & D & R).
  assert (K : visit_start X target b = Panic <-> first_step X target b Panic).
  { split.
    - intros E. destruct r as [[[out links] prev]|e| |]; try congruence.
      destruct R as (f & size & ov & _ & _ & S & _). congruence.
    - intros H. apply D in H. subst r. exact R. }
  rewrite K. clear K F D R r. split.
  - intros F. inversion F as [| | |f r P O]; subst; [left; assumption|]. right. exists f. split; [exact P|].
    assert (B : forall size, u_filesize (f_data f) = Some size -> size < 2 ^ 64).
    { destruct (try_parse_parsed _ _ _ P) as (_ & B & _). exact B. }
    inversion O as [|J|? ? J|? J C|? ? ? J|? ? ? J|s e J PK]; subst; cbn [fst] in *.
    + inversion J as [| | | | |? ? ? ? ?|size ? ? ? ? Z PL| |]; subst; [split; [assumption|]; split; [assumption|]; split; [assumption|]; left; auto|].
      apply plus_none in PL as [_ PL]. specialize (B _ Z). lia.
    + inversion C as [| | |? ? ? ? Q]; subst. cbn [fst snd] in Q. lia.
    + inversion J as [| | | | | | | |size ? ? M ? ? Z PL NE]; subst. split; [assumption|]. split; [assumption|]. split; [assumption|]. right.
      apply (picks_panic X target (f_links f) 0 0 (u_blocksizes (f_data f)) M) in PK; [|reflexivity]. destruct PK as [Hd PK].
      split; [exact Hd|]. split; [congruence|exact PK].
  - intros [P|(f & P & T & M & Ba & [[L Z]|(Hd & Z & OV)])]; [apply f_panic; exact P| |]; apply (f_opened X target b f _ P).
    + apply o_panic. apply j_nosize_leaf; assumption.
    + destruct (u_filesize (f_data f)) as [size|] eqn:Ez; [|congruence].
      assert (B : size < 2 ^ 64) by (destruct (try_parse_parsed _ _ _ P) as (_ & B & _); apply (B _ Ez)).
      destruct OV as (n & Hn & OV).
      assert (NE : f_links f <> []) by (intros E; rewrite E in Hn; cbn in Hn; lia).
      assert (PL : plus X 0 size = Some size) by (unfold plus; change two64 with (2 ^ 64); rewrite (proj2 (N.ltb_lt _ _)) by lia; reflexivity).
      eapply o_node_panic; [eapply j_node; try eassumption|].
      * intros (E & _). exact (NE E).
      * apply (picks_panic X target (f_links f) 0 0 (u_blocksizes (f_data f)) M); [reflexivity|]. split; [exact Hd|]. exists n. auto.
Qed.
Print Assumptions C22_start_panics.

(** Continuing one panics in exactly these cases: there is nothing left to visit
    (which happens if a node has no link in the range it is said to cover); or
    the block is in the right place and the parser panics, or it is a file block
    without metadata and either a leaf without a file size, or a leaf with less
    data than needed, or, with overflow checks, its sizes overflow. *)
Theorem C22_continue_panics : forall X gives target bs asked out v b k, target_u64 target ->
  visit X gives target bs asked out (Some v) ->
  exists links prev, unfolds X target bs asked out links prev
  /\ (fst (continue_walk X v b k) = Panic <->
      match links with
      | [] => True
      | (_, (s, e)) :: _ =>
        (forall err, ~ misplaced prev (s, e) err)
        /\ (try_parse (ext_dbg X) b = Panic
            \/ exists f, try_parse (ext_dbg X) b = Ok f /\ no_metadata (f_data f) /\ is_file (f_data f) /\ matched f /\ bare (f_data f)
               /\ (f_links f = [] /\ u_filesize (f_data f) = None
                   \/ (exists size, u_filesize (f_data f) = Some size) /\ ~ void f
                      /\ (f_links f = []
                          /\ (exists from to, target = Some (from, to) /\ touches target (s, e)
                                /\ blen (own_data f) < N.min to e - s)
                          \/ ext_dbg X = true /\ (exists size, u_filesize (f_data f) = Some size /\ 2 ^ 64 <= s + size)
                          \/ ext_dbg X = true /\ overflows X target s f)))
      end).
Proof.
  intros X gives target bs asked out v b k U V. destruct (C51_continue X gives target bs asked out v U V) as (links & prev & Un & R).
  exists links, prev. split; [exact Un|]. pose proof (unfolds_low _ _ _ _ _ _ _ Un) as Low.
  destruct links as [|[c [s e]] rest].
  { destruct R as [_ R]. rewrite R. tauto. }
  inversion Low as [|? ? Ls _]; subst. unfold low in Ls. cbn [fst snd] in Ls.
  destruct R as [_ R]. destruct (R b k) as (res & F & D & R'). clear R.
  assert (K : fst (continue_walk X v b k) = Panic <-> next_step X target prev (s, e) rest b Panic).
  { split.
    - intros E. destruct res as [[[o l] p]|er| |]; try congruence. destruct R' as (ov & S & _). congruence.
    - intros H. apply D in H. subst res. exact R'. }
  rewrite K. clear K F D R' res. split.
  - intros N. inversion N as [|? ?|MP P|? ?|? ?|f res MP P NM O]; subst; (split; [assumption|]); [left; assumption|]. right. exists f.
    split; [exact P|]. split; [exact NM|].
    inversion O as [|J|? ? J|? J C|? ? ? J|? ? ? J|s0 e0 J PK]; subst; cbn [fst] in *.
    + inversion J as [| | | | |? ? ? ? ?|size ? ? ? ? Z PL| |]; subst; (split; [assumption|]; split; [assumption|]; split; [assumption|]).
      * left. auto.
      * right. apply plus_none in PL as [Hd PL]. split; [eauto|]. split; [assumption|]. right. left. eauto.
    + inversion J as [| | | | | | |size ? ? M ? ? Z PL NE|]; subst. split; [assumption|]. split; [assumption|]. split; [assumption|]. right.
      split; [eauto|]. split; [assumption|]. left. split; [assumption|]. inversion C as [| | |from to E T Q]; subst. exists from, to. auto.
    + inversion J as [| | | | | | | |size ? ? M ? ? Z PL NE]; subst. split; [assumption|]. split; [assumption|]. split; [assumption|]. right.
      split; [eauto|]. split; [assumption|]. right. right.
      apply (picks_panic X target (f_links f) 0 _ (u_blocksizes (f_data f)) M) in PK; [|exact Ls]. destruct PK as [Hd PK]. split; [exact Hd|exact PK].
  - intros (MP & [P|(f & P & NM & T & M & Ba & H)]); [apply n_panic; assumption|]. apply (n_opened X target prev (s, e) rest b f _ MP P NM).
    destruct H as [[L Z]|([size Z] & NV & H)]; [apply o_panic; apply j_nosize_leaf; assumption|].
    destruct (plus X s size) as [e0|] eqn:PL; [|apply o_panic; eapply j_overflow; eassumption].
    destruct H as [(L & from & to & Et & Tt & Q)|[(Hd & size' & Z' & Q)|(Hd & OV)]].
    + eapply o_short; [eapply j_leaf; eassumption|]. eapply cut_short; [exact Et|exact Tt|exact Q].
    + exfalso. rewrite Z in Z'. injection Z' as <-. assert (plus X s size = None) by (apply plus_none; auto). congruence.
    + destruct OV as (n & Hn & OV). assert (NE : f_links f <> []) by (intros E; rewrite E in Hn; cbn in Hn; lia).
      eapply o_node_panic; [eapply j_node; eassumption|].
      apply (picks_panic X target (f_links f) 0 s (u_blocksizes (f_data f)) M); [exact Ls|]. split; [exact Hd|]. exists n. auto.
Qed.
Print Assumptions C22_continue_panics.
