From Coq Require Import Permutation.
From Verif Require Import Base Tac Wire Cid Pb Adder SpecAdder Adder_proofs Adder_thms Reader Visit SpecFile Visit_proofs.

Section v.
Context (X : ext).
Notation dbg := (ext_dbg X).

Lemma select_none t : forall (ls : list pblink) (ds : list bytes) n o, length ls = length ds ->
  o + blen (concat ds) < two64 -> ~ inr o (o + blen (concat ds)) t ->
  select_links X n o (combine ls (map blen ds)) t = Ok [].
Proof.
  induction ls as [|l ls IH]; intros [|d ds] n o L Ho Hn; try discriminate; [reflexivity|].
  cbn [concat] in *. rewrite blen_app in *. cbn [combine map select_links].
  rewrite (add64_ok (E := read_failed)) by lia. cbn [bind].
  destruct (block_is_in_target_range (o, o + blen d) t) eqn:E.
  - apply in_range_spec in E; [|lia|lia]. exfalso. unfold inr in *. lia.
  - apply IH; [cbn in L; lia|lia|]. unfold inr in *. lia.
Qed.

Lemma root_reads get t root f c :
  try_parse dbg root = Ok f -> file_dag X get f c -> blen c < two64 -> reads X get t root (sl t 0 c).
Proof.
  intros Hp Hd Hc. pose proof (dag_reads X get t) as [_ HD]. inv Hd.
  - pose proof (from_parts_intro X f 0 (metadata_of (f_data f)) (blen (own_data f)) H) as Hf.
    rewrite H0, H1 in Hf. specialize (Hf eq_refl H2 ltac:(intros _ ->; reflexivity) ltac:(lia)).
    cbn [is_nil] in Hf.
    exists [], []. eapply visit_single. unfold visit_start, from_block. rewrite Hp. cbn [map_err bind].
    rewrite Hf. cbn [bind]. unfold start_from_reader, fr_content.
    cbn [fr_links is_nil fr_data fr_end fr_offset fr_file_size fr_metadata fst].
    pose proof (maybe_slice_ok X t 0 (own_data f) ltac:(lia)) as M. rewrite N.add_0_l in M.
    rewrite M. cbn [bind]. reflexivity.
  - destruct (HD _ _ H3) as [L IH].
    pose proof (from_parts_intro X f 0 (metadata_of (f_data f)) (blen (concat cs)) H) as Hf.
    rewrite H1, map_length in Hf. specialize (Hf L H2 (fun e => match H0 e with end) ltac:(lia)).
    rewrite (proj2 (is_nil_false _) H0) in Hf. rewrite N.add_0_l in Hf.
    assert (ST : forall sel, select_links X 0 0 (combine (f_links f) (map blen cs)) t = Ok sel ->
      visit_start X t root = Ok ([], blen (concat cs), metadata_of (f_data f),
        match sel with [] => None | _ => Some (FileVisit sel t (Traversal (TreeCoverage (blen (concat cs))) 0 (blen (concat cs)) (metadata_of (f_data f)))) end)).
    { intros sel Hs. unfold visit_start, from_block. rewrite Hp. cbn [map_err bind]. rewrite Hf. cbn [bind].
      unfold start_from_reader, fr_content.
      cbn [fr_links fr_data fr_end fr_offset fr_file_size fr_metadata fr_blocksizes].
      rewrite (proj2 (is_nil_false _) H0), Hs. cbn [opt app]. destruct sel; reflexivity. }
    assert (D : inr 0 (0 + blen (concat cs)) t \/ ~ inr 0 (0 + blen (concat cs)) t) by (unfold inr; lia).
    destruct D as [D|D].
    + destruct (IH 0%nat 0 (0 + blen (concat cs)) []
        (Traversal (TreeCoverage (blen (concat cs))) 0 (blen (concat cs)) (metadata_of (f_data f))) []) as (sel & S1 & S2 & S3).
      { reflexivity. } { lia. } { left. cbn. rewrite N.add_0_l in *. repeat split; try apply D; try lia. exact H0. }
      specialize (S2 H0 D). specialize (S3 ltac:(intros; reflexivity)).
      rewrite !app_nil_r in S3. specialize (ST sel S1). destruct sel as [|p sel]; [congruence|].
      destruct S3 as (bs & asked & S3). exists bs, asked.
      change (sl t 0 (concat cs)) with ([] ++ sl t 0 (concat cs)). eapply visit_multi; eassumption.
    + specialize (ST [] (select_none t _ _ 0%nat 0 L ltac:(lia) D)).
      rewrite (sl_out t 0 _ D). exists [], []. eapply visit_single; exact ST.
Qed.

Lemma sl_none (c : bytes) : blen c < two64 -> sl None 0 c = c.
Proof.
  intros H. unfold sl, lo, hi. cbn [N.to_nat N.sub skipn]. apply firstn_all2. unfold blen, two64 in *. lia.
Qed.

Lemma sl_some a b (c : bytes) : sl (Some (a, b)) 0 c = byte_range a b c.
Proof. unfold sl, byte_range, lo, hi. cbn [fst snd]. rewrite N.max_0_r, N.sub_0_r. reflexivity. Qed.

(** ** Adder output *)
Lemma block_cid_wf (HX : ext_ok X) b : cid_wf (block_cid X b) = true.
Proof.
  unfold cid_wf, block_cid. cbn [cid_v1 cid_codec cid_code cid_digest]. unfold blen.
  rewrite (sha_len X HX). reflexivity.
Qed.

Lemma ftree_dag (HX : ext_ok X) get t :
  (forall n, In n (nodes t) -> try_parse dbg (block X n) = Ok (msg_of X n)
     /\ get (block_cid X (block X n)) = Some (block X n)
     /\ match n with FNode ts => ts <> [] | _ => True end) ->
  file_dag X get (msg_of X t) (content t).
Proof.
  induction t as [d|ts IH] using ftree_ind'; intros H.
  - cbn [msg_of content].
    assert (E : own_data (leaf_msg d) = d) by (unfold own_data, leaf_msg; destruct d; reflexivity).
    rewrite <- E at 2. apply dag_leaf; try reflexivity; [|rewrite E; reflexivity].
    repeat split; left; reflexivity.
  - cbn [msg_of content].
    assert (Hne : ts <> []).
    { apply (H (FNode ts)). cbn [nodes]. apply in_or_app. right. left. reflexivity. }
    apply dag_node.
    + repeat split; left; reflexivity.
    + unfold inner_msg, links_of. cbn [f_links]. destruct ts; [congruence|discriminate].
    + unfold inner_msg, sizes_of. cbn. rewrite map_map. reflexivity.
    + unfold inner_msg. cbn. rewrite <- (content_node ts). reflexivity.
    + unfold inner_msg, links_of. cbn [f_links].
      assert (Hall : forall t, In t ts -> forall n, In n (nodes t) -> In n (nodes (FNode ts))).
      { intros t Ht n Hn. cbn [nodes]. apply in_or_app. left. apply in_concat. exists (nodes t). split; [apply in_map, Ht|exact Hn]. }
      assert (HL : forall l, incl l ts -> file_dags X get
        (map (fun t => PBLink (Some (cid_bytes (block_cid X (block X t)))) (Some []) (Some (tsize X t))) l) (map content l)).
      { induction l as [|t l IHl]; intros Hi; [constructor|]. cbn [map].
        assert (Ht : In t ts) by (apply Hi; left; reflexivity).
        destruct (H t) as (P1 & P2 & _).
        { apply (Hall t Ht). destruct t; cbn [nodes]; [left; reflexivity|apply in_or_app; right; left; reflexivity]. }
        eapply dags_cons; [| exact P2 | exact P1 | | |].
        - unfold link_cid. cbn [l_hash]. apply (decode_bytes X HX). apply block_cid_wf. exact HX.
        - destruct t; split; reflexivity.
        - rewrite Forall_forall in IH. apply (IH t Ht). intros n Hn. apply H. apply (Hall t Ht n Hn).
        - apply IHl. intros x Hx. apply Hi. right. exact Hx. }
      apply HL. apply incl_refl.
Qed.

Lemma adder_dag (HX : ext_ok X) get chunk bf c r :
  cfg_ok chunk bf -> moderate chunk bf -> 2 <= bf \/ blen c <= chunk -> blen c <= max_content ->
  canonical chunk bf c r ->
  (forall cd b, In (cd, b) (tree_blocks X r) -> get cd = Some b) ->
  exists f, try_parse dbg (block X r) = Ok f /\ no_metadata (f_data f) /\ file_dag X get f c.
Proof.
  intros Hcfg Hm Hb Hc Hr Hg. pose proof Hcfg as [Hc1 Hc2].
  assert (HN : forall n, In n (nodes r) -> try_parse dbg (block X n) = Ok (msg_of X n)
     /\ get (block_cid X (block X n)) = Some (block X n)
     /\ match n with FNode ts => ts <> [] | _ => True end).
  { intros n Hn.
    pose proof (canonical_limits chunk bf c r ltac:(lia) ltac:(lia) Hr) as HL. rewrite Forall_forall in HL.
    specialize (HL n Hn). split; [|split].
    - eapply node_parses; [exact HX | exact Hm | exact HL |].
      eapply N.le_lt_trans; [apply weight_in, Hn|]. eapply canonical_weight; [| exact Hb | exact Hc | exact Hr]. lia.
    - apply Hg. unfold tree_blocks. apply in_map_iff. exists n. split; [reflexivity|exact Hn].
    - destruct n as [|ts]; [exact I|]. cbn [node_ok] in HL. intros ->. cbn in HL. lia. }
  exists (msg_of X r). split; [|split].
  - apply HN. destruct r; cbn [nodes]; [left; reflexivity|apply in_or_app; right; left; reflexivity].
  - destruct r; split; reflexivity.
  - erewrite <- (canonical_content chunk bf c r); [apply (ftree_dag HX), HN | lia | lia | exact Hr].
Qed.

(** ** Invariants of visits over arbitrary blocks *)

Lemma continues_inv (gives : cid -> bytes -> Prop) (I : file_visit -> Prop) v bs asked out ov :
  (forall v c others b k out v' k', I v -> pending_links v = Ok (c, others) -> gives c b ->
     continue_walk X v b k = (Ok (out, Some v'), k') -> I v') ->
  continues X gives v bs asked out ov -> I v -> match ov with Some v' => I v' | None => True end.
Proof.
  intros Hstep H. induction H; intros Hi; auto. apply IHcontinues. eapply Hstep; eassumption.
Qed.

Lemma continue_metadata v b k out v' k' : continue_walk X v b k = (Ok (out, Some v'), k') ->
  fv_metadata v' = fv_metadata v /\ fv_range v' = fv_range v.
Proof.
  intros H. apply continue_ok in H as (c & r & pending & f & fs & e & _ & _ & _ & _ & _ & _ & _ & _ & [(_ & _ & H)|(_ & _ & sel & _ & H)]).
  - destruct pending; [discriminate|]. injection H as ->. split; reflexivity.
  - injection H as ->. split; reflexivity.
Qed.

Lemma visit_metadata (gives : cid -> bytes -> Prop) t root bs asked out v :
  visit X gives t (root :: bs) asked out (Some v) ->
  exists f, try_parse dbg root = Ok f /\ fv_metadata v = metadata_of (f_data f) /\ fv_range v = t.
Proof.
  intros H. inv H.
  match goal with H : visit_start _ _ _ = _ |- _ => apply start_ok in H as (f & e & Hp & _ & _ & Hm & _ & _ & S) end.
  exists f. split; [exact Hp|].
  match goal with H : continues _ _ _ _ _ _ _ |- _ =>
    apply (continues_inv gives (fun v => fv_metadata v = metadata_of (f_data f) /\ fv_range v = t)) in H end; [assumption| |].
  - intros ? ? ? ? ? ? ? ? [I1 I2] _ _ Hc. apply continue_metadata in Hc as [E1 E2]. split; congruence.
  - destruct S as [(_ & _ & S)|(_ & _ & sel & _ & S)]; [discriminate|]. destruct sel; [discriminate|]. inv S. auto.
Qed.

Definition pl_start (p : pending_link) : N := fst (snd p).

(** no target: the selected links start at the prefix sums *)
Lemma select_starts : forall (ls : list pblink) (zs : list N) n base sel, length ls = length zs ->
  select_links X n base (combine ls zs) None = Ok sel ->
  map pl_start sel = starts base zs.
Proof.
  induction ls as [|l ls IH]; intros [|z zs] n base sel L H; try discriminate; cbn in H.
  - injection H as <-. reflexivity.
  - apply bind_ok in H as (nx & Hn & H). apply bind_ok in H as (p & Hp & H).
    apply bind_ok in H as (ps & Hps & H). injection H as <-. cbn [map starts].
    apply add64_mod in Hn as [Hn _].
    assert (P : snd p = (base, nx)).
    { unfold to_pending in Hp. destruct (ext_cid_decode X _); [injection Hp as <-; reflexivity|discriminate]. }
    destruct p as [c0 r0]. cbn in P. subst r0. cbn [fst snd]. f_equal. rewrite <- Hn. eapply IH; [cbn in L; lia|exact Hps].
Qed.

Definition J (v : file_visit) (from : N) : Prop :=
  fv_pending v <> [] /\ fv_range v = None
  /\ (tr_last_ending (fv_state v) = Chunk from
      \/ (exists e, tr_last_ending (fv_state v) = TreeCoverage e) /\ hd_error (map pl_start (fv_pending v)) = Some from).

Definition stack_of (v : file_visit) : list N := map pl_start (fv_pending v).

Definition nowrap (leaves : list (N * N * bytes)) : Prop :=
  dbg = true -> Forall (fun '(off, size, _) => off + size < two64) leaves.

Lemma add64_nowrap a c s : @add64 read_failed dbg a c = Ok s -> dbg = true -> a + c < two64.
Proof. unfold add64. destruct (N.ltb_spec (a + c) two64); [auto|]. intros H1 E. rewrite E in H1. discriminate. Qed.

Lemma continues_layout (gives : cid -> bytes -> Prop) v bs asked out ov : continues X gives v bs asked out ov ->
  forall from, J v from ->
  exists leaves stack, layout X (stack_of v) bs leaves stack /\ contiguous from leaves /\ nowrap leaves
    /\ out = concat (map snd leaves)
    /\ match ov with None => stack = [] | Some v' => stack = stack_of v' /\ exists from', J v' from' end.
Proof.
  intros H. induction H as [v|v c o b k k' out v' bs asked o2 ov Hp Hg Hc H1 IH|v c o b k k' out Hp Hg Hc]; intros from HJ.
  - exists [], (stack_of v). repeat split; [constructor|intros _; constructor|eauto].
  - apply continue_ok in Hc as (c0 & r & pending & f & fs & e & Hpend & Hs & Hf & Hm & Hpl & L & Hfs & He & Hc).
    destruct HJ as (Hne & Hr & Hend).
    assert (Hfrom : fst r = from).
    { destruct Hend as [Hend|[[e0 Hend] Hh]].
      - rewrite Hend in Hs. unfold check_is_suitable_next in Hs.
        destruct (N.eqb_spec (fst r) from); [assumption|discriminate].
      - rewrite Hpend in Hh. unfold pl_start in Hh. cbn in Hh. congruence. }
    pose proof (add64_nowrap _ _ _ He) as Hnw. apply add64_mod in He as [He _].
    assert (Hst : stack_of v = fst r :: map pl_start pending) by (unfold stack_of; rewrite Hpend; reflexivity).
    rewrite Hr in Hc. destruct Hc as [(Hl & Ho & Hov)|(Hl & Ho & sel & Hsel & Hov)].
    + destruct pending as [|p ps]; [discriminate|]. inv Hov. injection Ho as <-.
      destruct (IH ((fst r + fs) mod two64)) as (leaves & stack & I1 & I2 & I5 & I3 & I4).
      { unfold J. cbn. split; [discriminate|]. split; [reflexivity|]. left. congruence. }
      exists ((fst r, fs, own_data f) :: leaves), stack. split; [|split; [|split; [|split]]].
      * rewrite Hst. eapply layout_leaf; eassumption.
      * cbn [contiguous]. split; [reflexivity|exact I2].
      * intros Hd. constructor; [exact (Hnw Hd)|exact (I5 Hd)].
      * cbn [map concat snd]. rewrite I3. reflexivity.
      * exact I4.
    + inv Hov. pose proof (select_starts _ _ _ _ _ L Hsel) as Hss.
      assert (Hz : exists z zs, u_blocksizes (f_data f) = z :: zs).
      { destruct (u_blocksizes (f_data f)); [destruct (f_links f); [congruence|discriminate]|eauto]. }
      destruct Hz as (z & zs & Hz).
      destruct (IH (fst r)) as (leaves & stack & I1 & I2 & I5 & I3 & I4).
      { unfold J. cbn. rewrite Hz in Hss. destruct sel as [|p sel]; [discriminate|]. split; [discriminate|].
        split; [reflexivity|]. right. split; [eauto|]. cbn. cbn in Hss. injection Hss as -> _. reflexivity. }
      exists leaves, stack. split; [|split; [|split; [|split]]]; [|exact I2|exact I5|exact I3|exact I4].
      rewrite Hst. eapply layout_node; [eassumption|assumption|exact L|].
      unfold stack_of in I1. cbn [fv_pending] in I1. rewrite map_app, Hss in I1. exact I1.
  - apply continue_ok in Hc as (c0 & r & pending & f & fs & e & Hpend & Hs & Hf & Hm & Hpl & L & Hfs & He & Hc).
    destruct HJ as (Hne & Hr & Hend).
    assert (Hfrom : fst r = from).
    { destruct Hend as [Hend|[[e0 Hend] Hh]].
      - rewrite Hend in Hs. unfold check_is_suitable_next in Hs.
        destruct (N.eqb_spec (fst r) from); [assumption|discriminate].
      - rewrite Hpend in Hh. unfold pl_start in Hh. cbn in Hh. congruence. }
    rewrite Hr in Hc. destruct Hc as [(Hl & Ho & Hov)|(Hl & Ho & sel & Hsel & Hov)]; [|discriminate].
    destruct pending as [|p ps]; [|discriminate]. injection Ho as <-.
    exists [(fst r, fs, own_data f)], []. split; [|split; [|split; [|split]]].
    + unfold stack_of. rewrite Hpend. cbn [map]. unfold pl_start at 1. cbn [snd]. eapply layout_leaf; try eassumption. constructor.
    + cbn. auto.
    + intros Hd. constructor; [exact (add64_nowrap _ _ _ He Hd)|constructor].
    + cbn. rewrite app_nil_r. reflexivity.
    + reflexivity.
Qed.

Lemma visit_layout (gives : cid -> bytes -> Prop) blocks asked out ov : visit X gives None blocks asked out ov ->
  exists leaves stack, layout X [0] blocks leaves stack /\ contiguous 0 leaves /\ nowrap leaves
    /\ out = concat (map snd leaves)
    /\ match ov with None => stack = [] | Some v' => stack = stack_of v' /\ exists from', J v' from' end.
Proof.
  intros H. inv H.
  - apply start_ok in H0 as (f & e & Hf & Hpl & L & _ & Hfs & He & [(Hl & Ho & _)|(Hl & Ho & sel & Hsel & Hov)]).
    + injection Ho as <-. exists [(0, size, own_data f)], []. split; [|split; [|split; [|split]]].
      * eapply layout_leaf; try eassumption. constructor.
      * cbn. auto.
      * intros Hd. constructor; [exact (add64_nowrap _ _ _ He Hd)|constructor].
      * cbn. rewrite app_nil_r. reflexivity.
      * reflexivity.
    + pose proof (select_starts _ _ _ _ _ L Hsel) as Hss. destruct sel; [|discriminate].
      destruct (u_blocksizes (f_data f)); [destruct (f_links f); [congruence|discriminate]|discriminate].
  - apply start_ok in H0 as (f & e & Hf & Hpl & L & _ & Hfs & He & [(Hl & Ho & Hov)|(Hl & Ho & sel & Hsel & Hov)]); [discriminate|].
    pose proof (select_starts _ _ _ _ _ L Hsel) as Hss. destruct sel as [|p sel]; [discriminate|]. inv Hov.
    destruct (u_blocksizes (f_data f)) as [|z zs] eqn:Hz; [discriminate|].
    destruct (continues_layout _ _ _ _ _ _ H1 0) as (leaves & stack & I1 & I2 & I5 & I3 & I4).
    { unfold J. cbn. split; [discriminate|]. split; [reflexivity|]. right. split; [eauto|].
      cbn in Hss. injection Hss as -> _. reflexivity. }
    exists leaves, stack. split; [|split; [exact I2|split; [exact I5|split; [exact I3|exact I4]]]].
    eapply layout_node; [exact Hf|exact Hl|rewrite Hz; exact L|]. rewrite Hz, <- Hss, app_nil_r. exact I1.
Qed.

(** ** Ranges of the pending links *)
Lemma select_covers t f : forall (ls : list pblink) (zs : list N) pls pzs n base b0 sel,
  f_links f = pls ++ ls -> u_blocksizes (f_data f) = pzs ++ zs -> length pls = length pzs ->
  base = (b0 + sumN pzs) mod two64 -> base < two64 ->
  select_links X n base (combine ls zs) t = Ok sel ->
  Forall (fun p => exists s e, snd p = (s, e) /\ link_covers X f b0 (fst p) s e /\ block_is_in_target_range (s, e) t = true) sel.
Proof.
  induction ls as [|l ls IH]; intros zs pls pzs n base b0 sel E1 E2 L Eb Hb H.
  - cbn in H. injection H as <-. constructor.
  - destruct zs as [|z zs]; [cbn in H; injection H as <-; constructor|]. cbn in H.
    apply bind_ok in H as (nx & Hn & H). apply add64_mod in Hn as [Hn Hlt].
    assert (IH' : forall sel, select_links X (S n) nx (combine ls zs) t = Ok sel ->
       Forall (fun p => exists s e, snd p = (s, e) /\ link_covers X f b0 (fst p) s e /\ block_is_in_target_range (s, e) t = true) sel).
    { intros sel' Hs'. eapply (IH zs (pls ++ [l]) (pzs ++ [z])); [| | | |exact Hlt|exact Hs'].
      - rewrite <- app_assoc. exact E1.
      - rewrite <- app_assoc. exact E2.
      - rewrite !app_length. cbn. lia.
      - rewrite sumN_app. cbn [sumN fold_right]. rewrite Hn, Eb. rewrite N.add_mod_idemp_l by (unfold two64; lia). f_equal. lia. }
    destruct (block_is_in_target_range (base, nx) t) eqn:Ein.
    + apply bind_ok in H as (p & Hp & H). apply bind_ok in H as (ps & Hps & H). injection H as <-.
      constructor; [|apply IH', Hps].
      unfold to_pending in Hp. destruct (ext_cid_decode X _) as [c|] eqn:Ec; [|discriminate]. injection Hp as <-.
      exists base, nx. split; [reflexivity|]. split; [|exact Ein].
      exists (length pls), l, z. cbn [fst]. split; [|split; [|split; [|split]]].
      * rewrite E1, nth_error_app2, Nat.sub_diag by lia. reflexivity.
      * unfold link_cid. destruct (l_hash l); exact Ec.
      * rewrite E2, L, nth_error_app2, Nat.sub_diag by lia. reflexivity.
      * rewrite E2, L, firstn_app, firstn_all, Nat.sub_diag. cbn [firstn]. rewrite app_nil_r. exact Eb.
      * exact Hn.
    + apply IH', H.
Qed.

Definition K get root (t : idle) (v : file_visit) : Prop :=
  fv_range v = t /\
  Forall (fun p => exists s e, snd p = (s, e) /\ covers X get root (fst p) s e /\ block_is_in_target_range (s, e) t = true) (fv_pending v).

Lemma link_covers_lt f b0 c s e : link_covers X f b0 c s e -> s < two64.
Proof. intros (i & l & z & _ & _ & _ & -> & _). apply N.mod_lt. unfold two64. lia. Qed.

Lemma covers_lt get root c s e : covers X get root c s e -> s < two64.
Proof. intros H. destruct H; eapply link_covers_lt; eassumption. Qed.

Lemma visit_covers get root t bs asked out v :
  visit X (store get) t (root :: bs) asked out (Some v) -> K get root t v.
Proof.
  intros H. inv H.
  match goal with H : continues _ _ _ _ _ _ _ |- _ => revert H end.
  match goal with H : visit_start _ _ _ = _ |- _ => apply start_ok in H as (f & e & Hf & _ & L & _ & _ & _ & S) end.
  destruct S as [(_ & _ & S)|(_ & _ & sel & Hsel & S)]; [discriminate|]. destruct sel as [|p sel]; [discriminate|]. inv S.
  intros Hc. apply (continues_inv (store get) (K get root t)) in Hc; [exact Hc| |].
  - clear Hc. intros v0 c others b k out v' k' [K1 K2] Hp Hg Hc.
    apply continue_ok in Hc as (c0 & r & pending & f0 & fs & e0 & Hpend & _ & Hf0 & _ & _ & L0 & _ & _ & Hc).
    apply pending_links_ok in Hp as (r0 & rest0 & Hp & _). rewrite Hpend in Hp. injection Hp as -> -> ->.
    rewrite Hpend in K2. apply Forall_cons_iff in K2 as [(s & e1 & E1 & K2 & _) K3]. cbn [snd fst] in *. subst r0.
    destruct Hc as [(_ & _ & Hov)|(_ & _ & sel0 & Hsel0 & Hov)].
    + destruct rest0; [discriminate|]. inv Hov. split; [reflexivity|]. exact K3.
    + inv Hov. split; [reflexivity|]. cbn [fv_pending]. apply Forall_app. split; [|exact K3].
      eapply (select_covers _ f0 (f_links f0) (u_blocksizes (f_data f0)) [] []) with (b0 := s) in Hsel0; try reflexivity.
      * eapply Forall_impl; [|exact Hsel0]. intros p' (s' & e' & Q1 & Q2 & Q3). exists s', e'.
        split; [exact Q1|]. split; [|exact Q3]. eapply covers_child; eassumption.
      * cbn. rewrite N.add_0_r, N.mod_small; [reflexivity|]. eapply covers_lt, K2.
      * cbn. eapply covers_lt, K2.
  - split; [reflexivity|]. cbn [fv_pending].
    eapply (select_covers _ f (f_links f) (u_blocksizes (f_data f)) [] []) with (b0 := 0) in Hsel; try reflexivity.
    eapply Forall_impl; [|exact Hsel]. intros p' (s' & e' & Q1 & Q2 & Q3). exists s', e'.
    split; [exact Q1|]. split; [|exact Q3]. eapply covers_root; eassumption.
Qed.

(** ** What is asked for later *)
Lemma select_in t : forall (ls : list pblink) (zs : list N) n base sel,
  select_links X n base (combine ls zs) t = Ok sel ->
  Forall (fun p => exists l, In l ls /\ link_cid X l = Some (fst p)) sel.
Proof.
  induction ls as [|l ls IH]; intros zs n base sel H.
  - cbn in H. injection H as <-. constructor.
  - destruct zs as [|z zs]; [cbn in H; injection H as <-; constructor|]. cbn in H.
    apply bind_ok in H as (nx & Hn & H).
    assert (IH' : forall sel, select_links X (S n) nx (combine ls zs) t = Ok sel ->
       Forall (fun p => exists l', In l' (l :: ls) /\ link_cid X l' = Some (fst p)) sel).
    { intros sel' Hs. apply IH in Hs. eapply Forall_impl; [|exact Hs]. intros p (l' & Hi & E). exists l'. split; [right; exact Hi|exact E]. }
    destruct (block_is_in_target_range (base, nx) t).
    + apply bind_ok in H as (p & Hp & H). apply bind_ok in H as (ps & Hps & H). injection H as <-.
      constructor; [|apply IH', Hps]. exists l. split; [left; reflexivity|].
      unfold to_pending in Hp. unfold link_cid. destruct (l_hash l); cbn in Hp |- *;
        destruct (ext_cid_decode X _); try discriminate; injection Hp as <-; reflexivity.
    + apply IH', H.
Qed.

Definition group get (c : cid) (g : list cid) : Prop := exists rest, g = c :: rest /\ Forall (below X get c) rest.

Lemma continues_groups get v bs asked out ov : continues X (store get) v bs asked out ov -> ov = None ->
  exists groups, Forall2 (group get) (map fst (fv_pending v)) groups /\ asked = concat groups.
Proof.
  intros H. induction H as [v|v c o b k k' out v' bs asked o2 ov Hp Hg Hc H1 IH|v c o b k k' out Hp Hg Hc]; intros Eov; [discriminate| |].
  - apply continue_ok in Hc as (c0 & r & pending & f & fs & e & Hpend & _ & Hf & _ & _ & L & _ & _ & Hc).
    apply pending_links_ok in Hp as (r0 & rest0 & Hp & _). rewrite Hpend in Hp. injection Hp as -> -> ->.
    destruct (IH Eov) as (groups & G1 & G2). rewrite Hpend. cbn [map fst].
    destruct Hc as [(_ & _ & Hov)|(_ & _ & sel & Hsel & Hov)].
    + destruct rest0 as [|p rest0]; [discriminate|]. inv Hov. exists ([c] :: groups). split.
      * constructor; [|exact G1]. exists []. split; [reflexivity|constructor].
      * cbn. reflexivity.
    + inv Hov. cbn [fv_pending] in G1. rewrite map_app in G1. apply Forall2_app_inv_l in G1 as (g1 & g2 & G1 & G3 & ->).
      exists ((c :: concat g1) :: g2). split; [|rewrite concat_app; reflexivity].
      constructor; [|exact G3]. exists (concat g1). split; [reflexivity|].
      apply select_in in Hsel. clear - Hsel G1 Hf Hg.
      revert g1 G1. induction Hsel as [|p sel (l & Hi & El) Hsel IHs]; intros g1 G1; inv G1; [constructor|].
      cbn [concat]. apply Forall_app. split; [|apply IHs; assumption].
      assert (B : below X get c (fst p)) by (eapply below_link; eassumption).
      destruct H1 as (rest & -> & Hrest). constructor; [exact B|].
      eapply Forall_impl; [|exact Hrest]. intros d Hd. eapply below_trans; eassumption.
  - apply continue_ok in Hc as (c0 & r & pending & f & fs & e & Hpend & _ & Hf & _ & _ & L & _ & _ & Hc).
    apply pending_links_ok in Hp as (r0 & rest0 & Hp & _). rewrite Hpend in Hp. injection Hp as -> -> ->.
    destruct Hc as [(_ & _ & Hov)|(_ & _ & sel & Hsel & Hov)]; [|discriminate].
    destruct rest0 as [|p rest0]; [|discriminate]. rewrite Hpend. exists [[c]]. split; [|reflexivity].
    constructor; [|constructor]. exists []. split; [reflexivity|constructor].
Qed.

(** ** Sizes *)
Lemma continue_size v b k out v' k' : continue_walk X v b k = (Ok (out, Some v'), k') ->
  exists f, try_parse dbg b = Ok f /\ u_filesize (f_data f) = Some (fv_file_size v').
Proof.
  intros H. apply continue_ok in H as (c & r & pending & f & fs & e & _ & _ & Hf & _ & _ & _ & Hfs & _ & H).
  exists f. split; [exact Hf|]. destruct H as [(_ & _ & H)|(_ & _ & sel & _ & H)].
  - destruct pending; [discriminate|]. injection H as ->. exact Hfs.
  - injection H as ->. exact Hfs.
Qed.

(** ** No panics without target range *)
Lemma from_parts_total f off md : u_filesize (f_data f) <> None ->
  dbg = false \/ (forall fs, u_filesize (f_data f) = Some fs -> off + fs < two64) ->
  from_parts X f off md <> Panic /\ from_parts X f off md <> Diverge.
Proof.
  intros Hf Ho. unfold from_parts. destruct (u_filesize (f_data f)) as [fs|]; [|congruence]. cbn [opt].
  assert (A : exists s, @add64 read_failed dbg off fs = Ok s).
  { unfold add64. destruct (N.ltb_spec (off + fs) two64); [eauto|]. destruct Ho as [->|Ho]; [eauto|].
    specialize (Ho fs eq_refl). lia. }
  destruct A as [s A]. destruct (u_type (f_data f)); try (split; discriminate);
    (destruct (negb _); [split; discriminate|]); (destruct (_ && is_nil (f_links f)); [split; discriminate|]);
    (destruct (u_hashtype (f_data f)); [split; discriminate|]); (destruct (u_fanout (f_data f)); [split; discriminate|]);
    rewrite A; destruct (is_nil (f_links f)); cbn [bind unwrap]; split; discriminate.
Qed.

Lemma select_total : forall (z : list (pblink * N)) n base,
  dbg = false \/ base + sumN (map snd z) < two64 ->
  select_links X n base z None <> Panic /\ select_links X n base z None <> Diverge.
Proof.
  induction z as [|[l z] zs IH]; intros n base Ho; [split; discriminate|].
  cbn [map snd] in Ho. rewrite sumN_cons in Ho. cbn [select_links].
  assert (A : exists s, @add64 read_failed dbg base z = Ok s /\ (dbg = false \/ s = base + z)).
  { unfold add64. destruct (N.ltb_spec (base + z) two64); [eauto|]. destruct Ho as [->|Ho]; [eauto|]. lia. }
  destruct A as (s & A & As). rewrite A. cbn [bind block_is_in_target_range].
  destruct (to_pending X n l (base, s)) as [p|e0| |] eqn:Ep; cbn [bind];
    [| split; discriminate | unfold to_pending in Ep; destruct (ext_cid_decode X _); discriminate
     | unfold to_pending in Ep; destruct (ext_cid_decode X _); discriminate].
  destruct (IH (S n) s) as [I1 I2]; [destruct As as [?|As]; [left; assumption|]; destruct Ho; [left; assumption|right; lia]|].
  destruct (select_links X (S n) s zs None); cbn [bind]; try congruence; split; discriminate.
Qed.

Lemma map_snd_combine {A B} : forall (l : list A) (m : list B), length l = length m -> map snd (combine l m) = m.
Proof. induction l; intros [|b m] H; try discriminate; [reflexivity|]. cbn. f_equal. apply IHl. cbn in H. lia. Qed.

Lemma continue_total v b k off rest :
  fv_range v = None -> stack_of v = off :: rest ->
  try_parse dbg b <> Panic -> try_parse dbg b <> Diverge ->
  (forall f, try_parse dbg b = Ok f -> u_filesize (f_data f) <> None /\
     (dbg = false \/ (forall fs, u_filesize (f_data f) = Some fs -> off + fs < two64)
                     /\ off + sumN (u_blocksizes (f_data f)) < two64)) ->
  fst (continue_walk X v b k) <> Panic /\ fst (continue_walk X v b k) <> Diverge.
Proof.
  intros Hr Hst Hp1 Hp2 Hf. unfold stack_of in Hst. unfold continue_walk.
  destruct (fv_pending v) as [|[c r] pending]; [discriminate|]. cbn in Hst. injection Hst as Hoff _. unfold pl_start in Hoff. cbn [snd] in Hoff.
  unfold tr_continue_walk. destruct (check_is_suitable_next _ _ r); [split; discriminate|].
  unfold from_continued. destruct (try_parse dbg b) as [f| | |]; try congruence; [|split; discriminate].
  cbn [map_err bind]. destruct (Hf f eq_refl) as [Hfs Ho].
  destruct (u_mode (f_data f)); [split; discriminate|]. destruct (u_mtime (f_data f)); [split; discriminate|].
  rewrite Hoff. destruct (from_parts_total f off (tr_metadata (fv_state v)) Hfs) as [T1 T2]; [tauto|].
  destruct (from_parts X f off (tr_metadata (fv_state v))) as [fr| | |] eqn:E; try congruence; [|split; discriminate].
  apply from_parts_ok in E as (_ & _ & _ & L & fs & s & _ & _ & ->).
  unfold fr_content. cbn [fr_links fr_data fr_offset fr_blocksizes]. rewrite Hr. cbn [maybe_target_slice].
  destruct (is_nil (f_links f)).
  - destruct pending; split; discriminate.
  - destruct (select_total (combine (f_links f) (u_blocksizes (f_data f))) 0 off) as [S1 S2].
    { rewrite map_snd_combine by exact L. tauto. }
    destruct (select_links X 0 off _ None); try congruence; split; discriminate.
Qed.

Lemma start_total b :
  try_parse dbg b <> Panic -> try_parse dbg b <> Diverge ->
  (forall f, try_parse dbg b = Ok f -> u_filesize (f_data f) <> None /\
     (dbg = false \/ (forall fs, u_filesize (f_data f) = Some fs -> fs < two64)
                     /\ sumN (u_blocksizes (f_data f)) < two64)) ->
  visit_start X None b <> Panic /\ visit_start X None b <> Diverge.
Proof.
  intros Hp1 Hp2 Hf. unfold visit_start, from_block.
  destruct (try_parse dbg b) as [f| | |]; try congruence; [|split; discriminate].
  cbn [map_err bind]. destruct (Hf f eq_refl) as [Hfs Ho].
  destruct (from_parts_total f 0 (metadata_of (f_data f)) Hfs) as [T1 T2]; [tauto|].
  destruct (from_parts X f 0 (metadata_of (f_data f))) as [fr| | |] eqn:E; try congruence; [|split; discriminate].
  apply from_parts_ok in E as (_ & _ & _ & L & fs & s & _ & _ & ->).
  unfold start_from_reader, fr_content. cbn [fr_links fr_data fr_offset fr_blocksizes bind maybe_target_slice].
  destruct (is_nil (f_links f)); [split; discriminate|].
  destruct (select_total (combine (f_links f) (u_blocksizes (f_data f))) 0 0) as [S1 S2].
  { rewrite map_snd_combine by exact L. rewrite N.add_0_l. tauto. }
  destruct (select_links X 0 0 _ None) as [sel| | |]; try congruence; [|split; discriminate].
  cbn [opt app]. destruct sel; split; discriminate.
Qed.

(** ** Caches *)
Lemma start_cache v f (k1 k2 : option cache) : opt k1 [] (fun i => i) = opt k2 [] (fun i => i) ->
  fst (start_from_parsed X v f k1) = fst (start_from_parsed X v f k2).
Proof.
  intros E. unfold start_from_parsed. destruct (from_parsed X f) as [fr| | |]; try reflexivity.
  unfold start_from_reader. destruct (fr_content fr) as [[c|z base] tr]; [reflexivity|].
  destruct (select_links X 0 base z v); try reflexivity. unfold cache in *. rewrite E.
  destruct (opt k2 [] (fun i => i) ++ a); reflexivity.
Qed.
End v.
