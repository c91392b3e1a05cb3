(** * Adder_thms: consequences for the public API of the file adder *)
From Coq Require Import Permutation.
From Verif Require Import Base Tac Wire Utf8 Cid Pb SpecWire Wire_proofs Codec_proofs Adder SpecAdder Adder_proofs.

(** ** The canonical tree *)
Lemma balanced_fun b ts r1 : balanced b ts r1 -> forall r2, balanced b ts r2 -> r1 = r2.
Proof.
  induction 1 as [t|ts r Hl H IH]; intros r2 H2.
  - inv H2; [reflexivity | cbn in *; lia].
  - inv H2; [cbn in *; lia|]. apply IH. assumption.
Qed.

Lemma balanced_ex b : (2 <= b)%nat -> forall n ts, (length ts <= n)%nat -> ts <> [] -> exists r, balanced b ts r.
Proof.
  intros Hb. induction n as [|n IH]; intros ts Hn Hne; [destruct ts; [congruence | cbn in Hn; lia]|].
  destruct (Nat.eq_dec (length ts) 1) as [H1|H1].
  { destruct ts as [|t [|? ?]]; cbn in H1; try lia. exists t. constructor. }
  assert (H2 : (2 <= length ts)%nat) by (destruct ts as [|? [|? ?]]; cbn in *; [congruence | lia | lia]).
  destruct (pieces_count b ts Hb H2) as [P1 P2].
  destruct (IH (map FNode (pieces b ts))) as [r Hr].
  - rewrite map_length. lia.
  - intros E2. apply (f_equal (@length ftree)) in E2. rewrite map_length in E2. cbn [length] in E2. lia.
  - exists r. constructor; assumption.
Qed.

Lemma canonical_unique chunk bf c r1 r2 : canonical chunk bf c r1 -> canonical chunk bf c r2 -> r1 = r2.
Proof. unfold canonical. intros H1 H2. eapply balanced_fun; eassumption. Qed.

Lemma content_pieces b ts : (1 <= b)%nat -> concat (map content (map FNode (pieces b ts))) = concat (map content ts).
Proof.
  intros Hb. rewrite <- (concat_pieces b ts) at 2 by assumption.
  induction (pieces b ts) as [|g gs IH]; [reflexivity|]. cbn [map concat content].
  rewrite map_app, concat_app, IH. reflexivity.
Qed.

Lemma balanced_content b ts r : (1 <= b)%nat -> balanced b ts r -> content r = concat (map content ts).
Proof.
  intros Hb. induction 1 as [t|ts r Hl H IH]; [cbn; rewrite app_nil_r; reflexivity|].
  rewrite IH. apply content_pieces. exact Hb.
Qed.

Lemma concat_chunks n c : (1 <= n)%nat -> concat (chunks n c) = c.
Proof. intros H. unfold chunks. destruct c as [|x c]; [reflexivity|]. apply concat_pieces. exact H. Qed.

Lemma canonical_content chunk bf c r : 1 <= chunk -> 1 <= bf -> canonical chunk bf c r -> content r = c.
Proof.
  intros Hc Hb H. apply balanced_content in H; [|lia]. rewrite H, map_map. cbn [content].
  rewrite map_id. apply concat_chunks. lia.
Qed.

Lemma balanced_uniform b ts r : (1 <= b)%nat -> balanced b ts r -> forall h, Forall (uniform h) ts -> exists h', uniform h' r.
Proof.
  intros Hb. induction 1 as [t|ts r Hl H IH]; intros h Hu; [inv Hu; eauto|].
  apply (IH (S h)). apply Forall_forall. intros t Ht. apply in_map_iff in Ht as (g & <- & Hg).
  constructor.
  - pose proof (pieces_all b ts Hb) as HA. rewrite Forall_forall in HA. specialize (HA g Hg).
    destruct g; [cbn in HA; lia | discriminate].
  - apply Forall_forall. intros x Hx. rewrite Forall_forall in Hu. apply Hu.
    rewrite <- (concat_pieces b ts Hb). apply in_concat. eauto.
Qed.

Lemma canonical_uniform chunk bf c r : 1 <= bf -> canonical chunk bf c r -> exists h, uniform h r.
Proof.
  intros Hb H. eapply balanced_uniform in H; [exact H | lia |].
  apply Forall_forall. intros t Ht. apply in_map_iff in Ht as (d & <- & _). constructor.
Qed.

(** every node respects the limits *)
Definition node_ok (chunk bf : N) (t : ftree) : Prop :=
  match t with
  | FLeaf d => blen d <= chunk
  | FNode ts => 1 <= N.of_nat (length ts) <= bf
  end.

Lemma balanced_nodes (P : ftree -> Prop) b ts r :
  (1 <= b)%nat -> (forall g, (1 <= length g <= b)%nat -> P (FNode g)) ->
  balanced b ts r -> Forall P (all_nodes ts) -> Forall P (nodes r).
Proof.
  intros Hb HP. induction 1 as [t|ts r Hl H IH]; intros Hf.
  - unfold all_nodes in Hf. cbn in Hf. rewrite app_nil_r in Hf. exact Hf.
  - apply IH. eapply Permutation_Forall; [apply Permutation_sym, all_nodes_groups|].
    apply Forall_app. split; [rewrite concat_pieces by exact Hb; exact Hf|].
    apply Forall_forall. intros t Ht. apply in_map_iff in Ht as (g & <- & Hg). apply HP.
    pose proof (pieces_all b ts Hb) as HA. rewrite Forall_forall in HA. apply HA, Hg.
Qed.

Lemma canonical_limits chunk bf c r : 1 <= chunk -> 1 <= bf -> canonical chunk bf c r ->
  Forall (node_ok chunk bf) (nodes r).
Proof.
  intros Hc Hb H. eapply (balanced_nodes (node_ok chunk bf) (N.to_nat bf)); [lia | | exact H |].
  - intros g Hg. cbn. lia.
  - rewrite all_nodes_leaves. apply Forall_forall. intros t Ht. apply in_map_iff in Ht as (d & <- & Hd).
    cbn [node_ok]. unfold chunks in Hd. destruct c as [|x c].
    + destruct Hd as [<-|[]]. rewrite blen_nil. lia.
    + assert (Hn : (1 <= N.to_nat chunk)%nat) by lia.
      pose proof (pieces_all (N.to_nat chunk) (x :: c) Hn) as HA. rewrite Forall_forall in HA.
      specialize (HA d Hd). unfold blen. lia.
Qed.

Lemma canonical_empty_leaf chunk bf c r : 1 <= chunk -> 1 <= bf -> canonical chunk bf c r ->
  In (FLeaf []) (nodes r) -> c = [].
Proof.
  intros Hc Hb Hr Hin. destruct c as [|x c]; [reflexivity|]. exfalso.
  assert (HF : Forall (fun t => t <> FLeaf []) (nodes r)).
  { eapply (balanced_nodes _ (N.to_nat bf)); [lia | | exact Hr |]; [intros; discriminate|].
    rewrite all_nodes_leaves. apply Forall_forall. intros t Ht. apply in_map_iff in Ht as (d & <- & Hd).
    cbn [chunks] in Hd. assert (Hn : (1 <= N.to_nat chunk)%nat) by lia.
    pose proof (pieces_all (N.to_nat chunk) (x :: c) Hn) as HA. rewrite Forall_forall in HA.
    specialize (HA d Hd). intros E. inv E. cbn in HA. lia. }
  rewrite Forall_forall in HF. apply (HF _ Hin). reflexivity.
Qed.

Section thms.
Context (X : ext).

(** ** Blocks are named by their hash, whatever the state *)
Definition named (b : cblock) : Prop := fst b = block_cid X (snd b).

Lemma while_named fuel bf fin level : forall p sp lo ret w, while_loop X fuel bf fin level p sp lo ret = Ok w ->
  Forall named ret -> Forall named (snd w).
Proof.
  induction fuel as [|fuel IH]; intros p sp lo ret w H Hr; cbn [while_loop] in H.
  - destruct (assert _); cbn [bind] in H; try discriminate.
    destruct (position _ _); [discriminate|]. inv H. exact Hr.
  - destruct (assert _); cbn [bind] in H; try discriminate.
    destruct (position _ _); [|inv H; exact Hr].
    destruct (negb fin && _).
    + destruct lo; [|inv H; exact Hr]. destruct (drain _ _ _); cbn [bind] in H; try discriminate. inv H. exact Hr.
    + destruct (add64 _ _ _); cbn [bind] in H; try discriminate.
      destruct (assert _); cbn [bind] in H; try discriminate.
      destruct (partition_links _ _ _ _) as [[[[pls bss] ns] nts]| | |]; cbn [bind] in H; try discriminate.
      destruct (render_and_hash X _) as [c vec] eqn:E.
      destruct (add64 _ _ _); cbn [bind] in H; try discriminate.
      destruct (set_nth _ _ _); cbn [bind] in H; try discriminate.
      eapply IH; [exact H|]. apply Forall_app. split; [exact Hr|]. constructor; [|constructor].
      unfold render_and_hash in E. inv E. reflexivity.
Qed.

Lemma outer_named fuel bf fin : forall level p ret w, outer_loop X fuel bf fin level p ret = Ok w ->
  Forall named ret -> Forall named (snd w).
Proof.
  induction fuel as [|fuel IH]; intros level p ret w H Hr; cbn [outer_loop] in H;
    (destruct (Nat.eqb (length p) 1 && fin || _); [inv H; exact Hr|]); [discriminate|].
  destruct (while_loop _ _ _ _ _ _ _ _ _) as [[[[br p'] lo] ret']| | |] eqn:E; cbn [bind] in H; try discriminate.
  apply while_named in E; [|exact Hr]. cbn [snd] in E.
  destruct br; [inv H; exact E|].
  destruct (dassert _ _); cbn [bind] in H; try discriminate.
  eapply IH; [exact H | exact E].
Qed.

Lemma leaf_named d links fin l r : flush_buffered_leaf X d links fin = (Some l, r) -> named l.
Proof.
  unfold flush_buffered_leaf. destruct (_ && _); intros H; inv H. reflexivity.
Qed.

Lemma push_named a input a' bs n : push X a input = Ok (a', bs, n) -> Forall named bs.
Proof.
  unfold push. destruct (accept _ _ _ _) as [[acc ready]| | |]; cbn [bind]; try discriminate.
  destruct (_ && ready).
  - destruct (flush_buffered_leaf X acc (a_links a) false) as [[leaf|] links] eqn:E; [|discriminate].
    destruct (flush_links X (a_bf a) links false) as [[l' b']| | |] eqn:E2; cbn [bind]; try discriminate.
    intros H. inv H. constructor; [eapply leaf_named, E|].
    apply outer_named in E2; [exact E2 | constructor].
  - destruct (negb ready); [intros H; inv H; constructor|].
    destruct (flush_buffered_leaf X _ (a_links a) false) as [[leaf|] links] eqn:E; [|discriminate].
    destruct (flush_links X (a_bf a) links false) as [[l' b']| | |] eqn:E2; cbn [bind]; try discriminate.
    intros H. inv H. constructor; [eapply leaf_named, E|].
    apply outer_named in E2; [exact E2 | constructor].
Qed.

Lemma finish_named fuel a bs : finish_fuel X fuel a = Ok bs -> Forall named bs.
Proof.
  unfold finish_fuel. destruct (flush_buffered_leaf X (a_buf a) (a_links a) true) as [leaf links] eqn:E.
  destruct (flush_links_fuel X fuel (a_bf a) links true) as [[l' b']| | |] eqn:E2; cbn [bind]; try discriminate.
  apply outer_named in E2; [|constructor]. intros H. inv H.
  destruct leaf; [constructor; [eapply leaf_named, E | exact E2] | exact E2].
Qed.

(** ** Driving it with slices *)
Lemma push_all_spec (HX : ext_ok X) chunk bf : cfg_ok chunk bf -> forall fuel input c a out,
  (length input <= fuel)%nat -> state_ok X chunk bf c a out -> blen c + blen input <= max_content ->
  exists a' bs, push_all X fuel a input = Ok (a', bs) /\ state_ok X chunk bf (c ++ input) a' (out ++ bs).
Proof.
  intros Hcfg. induction fuel as [|fuel IH]; intros input c a out Hf Hs Hc.
  - destruct input; [|cbn in Hf; lia]. exists a, []. cbn. rewrite !app_nil_r. auto.
  - assert (input = [] \/ exists x i, input = x :: i) as [->|(x & i & Ei)] by (destruct input; eauto);
      [exists a, []; cbn; rewrite !app_nil_r; auto|].
    destruct (push_spec X HX chunk bf c a out input Hcfg Hs Hc) as (a1 & bs1 & P1 & P2 & _ & P4).
    set (n := N.min (blen input) (chunk - blen (a_buf a))) in *.
    assert (Hn1 : 1 <= n).
    { assert (blen (a_buf a) < chunk) by (rewrite P4; apply N.mod_lt; destruct Hcfg; lia).
      unfold n. rewrite Ei, blen_cons. lia. }
    assert (Hn2 : n <= blen input) by (unfold n; lia).
    destruct (IH (skipn (N.to_nat n) input) (c ++ firstn (N.to_nat n) input) a1 (out ++ bs1)) as (a2 & bs2 & Q1 & Q2).
    + rewrite skipn_length. lia.
    + exact P2.
    + rewrite blen_app, <- N.add_assoc, <- blen_app, firstn_skipn. exact Hc.
    + exists a2, (bs1 ++ bs2). split.
      * replace (push_all X (S fuel) a input) with
          (do r <- push X a input; let '(a1, bs1, n) := r in
           do r2 <- push_all X fuel a1 (skipn (N.to_nat n) input); let '(a2, bs2) := r2 in Ok (a2, bs1 ++ bs2))
          by (rewrite Ei; reflexivity).
        rewrite P1. cbn [bind]. rewrite Q1. reflexivity.
      * rewrite <- !app_assoc, firstn_skipn in Q2. exact Q2.
Qed.

Lemma push_slices_spec (HX : ext_ok X) chunk bf : cfg_ok chunk bf -> forall slices c a out,
  state_ok X chunk bf c a out -> blen c + blen (concat slices) <= max_content ->
  exists a' bs, push_slices X a slices = Ok (a', bs) /\ state_ok X chunk bf (c ++ concat slices) a' (out ++ bs).
Proof.
  intros Hcfg. induction slices as [|s slices IH]; intros c a out Hs Hc.
  - exists a, []. cbn. rewrite !app_nil_r. auto.
  - cbn [concat] in Hc. rewrite blen_app in Hc.
    destruct (push_all_spec HX chunk bf Hcfg (S (length s)) s c a out) as (a1 & bs1 & P1 & P2); [lia | exact Hs | lia |].
    destruct (IH (c ++ s) a1 (out ++ bs1) P2) as (a2 & bs2 & Q1 & Q2); [rewrite blen_app; lia|].
    exists a2, (bs1 ++ bs2). cbn [push_slices concat]. rewrite P1. cbn [bind]. rewrite Q1. cbn [bind].
    split; [reflexivity|]. rewrite <- !app_assoc in Q2. exact Q2.
Qed.

Lemma adder_new_ok chunk bf a : adder_new chunk bf = Ok a -> a = Adder chunk bf [] [].
Proof. unfold adder_new, assert. destruct (0 <? bf); cbn [bind]; intros H; inv H. reflexivity. Qed.

Lemma adder_new_cfg chunk bf : cfg_ok chunk bf -> adder_new chunk bf = Ok (Adder chunk bf [] []).
Proof. intros [_ H]. unfold adder_new, assert. destruct (N.ltb_spec 0 bf); [reflexivity | lia]. Qed.

Lemma add_file_slices (HX : ext_ok X) chunk bf s1 s2 : cfg_ok chunk bf ->
  concat s1 = concat s2 -> blen (concat s1) <= max_content ->
  add_file X chunk bf s1 = add_file X chunk bf s2.
Proof.
  intros Hcfg He Hc. unfold add_file. rewrite adder_new_cfg by exact Hcfg. cbn [bind].
  destruct (push_slices_spec HX chunk bf Hcfg s1 [] (Adder chunk bf [] []) []) as (a1 & b1 & P1 & P2).
  { apply state_init. destruct Hcfg; lia. } { rewrite blen_nil. lia. }
  destruct (push_slices_spec HX chunk bf Hcfg s2 [] (Adder chunk bf [] []) []) as (a2 & b2 & Q1 & Q2).
  { apply state_init. destruct Hcfg; lia. } { rewrite blen_nil, <- He. lia. }
  rewrite P1, Q1. cbn [bind]. cbn [app] in *. rewrite He in P2.
  destruct (state_unique _ _ _ _ _ _ _ _ P2 Q2) as [-> ->]. reflexivity.
Qed.

Lemma add_file_ok (HX : ext_ok X) chunk bf slices : cfg_ok chunk bf ->
  2 <= bf \/ blen (concat slices) <= chunk -> blen (concat slices) <= max_content ->
  exists r before, add_file X chunk bf slices = Ok (before ++ [cblock_of X r])
    /\ canonical chunk bf (concat slices) r
    /\ Permutation (before ++ [cblock_of X r]) (tree_blocks X r).
Proof.
  intros Hcfg Hbf Hc. unfold add_file. rewrite adder_new_cfg by exact Hcfg. cbn [bind].
  destruct (push_slices_spec HX chunk bf Hcfg slices [] (Adder chunk bf [] []) []) as (a1 & b1 & P1 & P2).
  { apply state_init. destruct Hcfg; lia. } { rewrite blen_nil. lia. }
  rewrite P1. cbn [bind app] in *.
  destruct (finish_spec X HX chunk bf (concat slices) a1 b1 Hcfg Hbf P2 Hc) as (last & r & all' & F1 & F2 & F3 & F4 & F5).
  rewrite F1. cbn [bind]. rewrite F3. unfold ret_of, tree_blocks. rewrite map_app. cbn [map].
  exists r, (map (cblock_of X) all'). split; [reflexivity|]. split; [exact F2|].
  rewrite <- (Permutation_map (cblock_of X) F5), map_app. reflexivity.
Qed.

(** ** branching factor 1 *)
Definition lvl (d : nat) (ls : list link) : Prop := Forall (fun l => k_depth l = d) ls.

Lemma position_lvl d ls : ls <> [] -> lvl d ls -> position d ls = Some O.
Proof. intros H1 H2. destruct ls; [congruence|]. inv H2. cbn. rewrite Nat.eqb_refl. reflexivity. Qed.

Lemma while_bf1 level fuel : forall pre rest lo ret w,
  lvl (S level) pre -> lvl level rest -> lo = (match pre with [] => None | _ => Some (length pre - 1)%nat end) ->
  while_loop X fuel 1 true level (pre ++ rest) (length pre) lo ret = Ok w ->
  exists p ret', w = (false, p, (match p with [] => None | _ => Some (length p - 1)%nat end), ret') /\ lvl (S level) p /\ length p = length (pre ++ rest).
Proof.
  induction fuel as [|fuel IH]; intros pre rest lo ret w H1 H2 Hlo H; cbn [while_loop] in H.
  - rewrite app_length in H. destruct (Nat.leb_spec (length pre) (length pre + length rest)); [|lia]. cbn [assert bind] in H.
    rewrite skipn_len in H by reflexivity. destruct rest as [|l rest].
    + cbn [position] in H. inv H. rewrite app_nil_r. eauto 6.
    + rewrite position_lvl in H by (try discriminate; assumption). discriminate.
  - rewrite app_length in H. destruct (Nat.leb_spec (length pre) (length pre + length rest)); [|lia]. cbn [assert bind] in H.
    rewrite skipn_len in H by reflexivity. destruct rest as [|l rest].
    + cbn [position] in H. inv H. rewrite app_nil_r. eauto 6.
    + rewrite position_lvl in H by (try discriminate; assumption).
      cbn [negb andb Nat.add] in H.
      destruct (add64 (ext_dbg X) (N.of_nat (length pre)) 1) as [e| | |] eqn:Ee; cbn [bind] in H; try discriminate.
      assert (He : e = N.of_nat (length pre) + 1 \/ (e < N.of_nat (length pre))).
      { unfold add64 in Ee. destruct (_ <? two64) eqn:Et; [inv Ee; left; reflexivity|].
        destruct (ext_dbg X); inv Ee. apply N.ltb_ge in Et. unfold two64 in *. right. lia. }
      destruct He as [->|He].
      2: { destruct (Nat.leb_spec (length pre) (N.to_nat (N.min e (N.of_nat (length pre + length (l :: rest)))))); [lia|].
           discriminate. }
      cbn [length] in H.
      replace (N.to_nat (N.min (N.of_nat (length pre) + 1) (N.of_nat (length pre + S (length rest))))) with (length pre + 1)%nat in H by lia.
      destruct (Nat.leb_spec (length pre) (length pre + 1)); [|lia]. cbn [assert bind] in H.
      replace (length pre + 1 - length pre)%nat with 1%nat in H by lia. rewrite skipn_len in H by reflexivity. cbn [firstn] in H.
      destruct (partition_links X level [l] ([], [], 0, 0)) as [[[[pls bss] ns] nts]| | |]; cbn [bind] in H; try discriminate.
      match type of H with context [render_and_hash X ?f] => destruct (render_and_hash X f) as [c vec] end.
      destruct (add64 (ext_dbg X) nts (blen vec)) as [ts| | |]; cbn [bind] in H; try discriminate.
      replace (match lo with Some i => (i + 1)%nat | None => length pre end) with (length pre) in H
        by (subst lo; destruct pre; cbn [length]; lia).
      rewrite set_nth_mid in H. cbn [bind] in H.
      assert (Hl2 : lvl level rest) by (inv H2; assumption).
      replace (pre ++ Link (level + 1) c ts ns :: rest) with ((pre ++ [Link (level + 1) c ts ns]) ++ rest) in H by (rewrite <- app_assoc; reflexivity).
      replace (length pre + 1)%nat with (length (pre ++ [Link (level + 1) c ts ns])) in H by (rewrite app_length; reflexivity).
      apply IH in H.
      * destruct H as (p & ret' & -> & A & B). exists p, ret'. split; [reflexivity|]. split; [exact A|].
        rewrite B, !app_length. cbn [length]. lia.
      * apply Forall_app. split; [exact H1|]. constructor; [cbn; lia | constructor].
      * exact Hl2.
      * destruct (pre ++ [Link (level + 1) c ts ns]) eqn:E; [destruct pre; discriminate|]. rewrite <- E, app_length. cbn [length].
        f_equal. lia.
Qed.

Lemma outer_bf1 fuel : forall level p ret w, (2 <= length p)%nat -> lvl level p ->
  outer_loop X fuel 1 true level p ret <> Ok w.
Proof.
  induction fuel as [|fuel IH]; intros level p ret w Hl Hv H; cbn [outer_loop] in H;
    (destruct (Nat.eqb_spec (length p) 1); [lia|]); cbn [andb negb orb] in H; rewrite andb_false_r in H; [discriminate|].
  destruct (while_loop X (S (length p)) 1 true level p 0 None ret) as [w'| | |] eqn:E; cbn [bind] in H; try discriminate.
  pose proof (while_bf1 level (S (length p)) [] p None ret w') as L. cbn [app length] in L.
  destruct L as (p' & ret' & -> & A & B); [constructor | exact Hv | reflexivity | exact E|].
  destruct p' as [|l p']; [cbn in B; lia|].
  replace (firstn (length (l :: p') - 1 + 1) (l :: p')) with (l :: p') in H
    by (rewrite firstn_all2; [reflexivity | cbn [length]; lia]).
  destruct (dassert _ _); cbn [bind] in H; try discriminate.
  eapply IH; [| |exact H]; [lia | exact A].
Qed.

Lemma finish_bf1 (HX : ext_ok X) chunk c a out : cfg_ok chunk 1 -> state_ok X chunk 1 c a out ->
  blen c <= max_content -> chunk < blen c -> forall fuel bs, finish_fuel X fuel a <> Ok bs.
Proof.
  intros [Hchunk Hbf] (full & rest & Ec & Hfull & Hrest & -> & Eo) Hc Hbig fuel bs.
  pose proof (run_inv (N.to_nat 1) full ltac:(cbn; lia)) as Hr. change (N.to_nat 1) with 1%nat in *.
  destruct (run 1 full) as [[gs ls] outs] eqn:Erun. cbn [run_ok snd links_state] in *.
  destruct Hr as (R1 & R2 & R3 & R4 & R5 & R6).
  assert (Hfl : full <> []).
  { intros ->. cbn [concat app] in Ec. subst c. lia. }
  specialize (R4 Hfl). destruct ls as [|l0 [|? ?]]; [congruence | | cbn in R3; lia].
  unfold finish_fuel. cbn [a_buf a_links a_bf].
  assert (Hcnt : (2 <= length gs + 1 + match rest with [] => 0 | _ => 1 end)%nat).
  { destruct rest as [|x rest]; [|lia].
    pose proof (full_blen chunk full Hfull) as Hb. rewrite Ec, app_nil_r in Hbig. rewrite Hb in Hbig.
    assert (2 <= length full)%nat by (destruct full as [|? [|? ?]]; cbn [length] in *; [congruence | lia | lia]).
    apply (f_equal (@length ftree)) in R1. rewrite app_length, map_length in R1. cbn [length] in R1.
    destruct gs; cbn [length concat] in *; lia. }
  set (links1 := map (mk X 1) (map FNode gs) ++ map (mk X 0) [l0]).
  set (extra := match rest with [] => [] | _ => [FLeaf rest] end).
  assert (Hfb : exists leaf, flush_buffered_leaf X rest links1 true
      = (leaf, map (mk X 1) (map FNode gs) ++ map (mk X 0) (l0 :: extra))).
  { destruct rest as [|x rest]; unfold extra.
    - exists None.
      unfold flush_buffered_leaf, links1. rewrite blen_nil. cbn [negb orb andb].
      destruct (map (mk X 1) (map FNode gs) ++ map (mk X 0) [l0]) eqn:E; [destruct gs; discriminate | reflexivity].
    - exists (Some (cblock_of X (FLeaf (x :: rest)))).
      rewrite flush_leaf by (left; discriminate). unfold links1. rewrite <- app_assoc. reflexivity. }
  assert (H2 : (2 <= length gs + length (l0 :: extra))%nat)
    by (unfold extra; destruct rest; cbn [length] in *; lia).
  assert (H3 : (length extra <= 1)%nat) by (unfold extra; destruct rest; cbn; lia).
  destruct Hfb as (leaf & ->).
  unfold flush_links_fuel. intros H.
  destruct (outer_loop X fuel 1 true 0 (map (mk X 1) (map FNode gs) ++ map (mk X 0) (l0 :: extra)) []) as [w| | |] eqn:E;
    cbn [bind] in H; try discriminate. clear H.
  (* first level, then only single-child levels *)
  destruct fuel as [|fuel].
  - cbn [outer_loop] in E. rewrite app_length, !map_length in E.
    destruct (Nat.eqb_spec (length gs + length (l0 :: extra)) 1); [lia|]. cbn [andb negb orb] in E. rewrite andb_false_r in E. discriminate.
  - pose proof (outer_level X fuel 1 0 (map FNode gs) (l0 :: extra) []) as OL. cbn [Nat.add] in OL.
    change (N.to_nat 1) with 1%nat in OL.
    rewrite OL in E; clear OL.
    + eapply outer_bf1; [| |exact E].
      * rewrite map_length, app_length, !map_length.
        destruct extra as [|e [|? ?]]; [| |cbn in H3; lia]; cbn [length] in *; cbn; lia.
      * apply Forall_forall. intros l Hin. apply in_map_iff in Hin as (t & <- & _). reflexivity.
    + lia.
    + discriminate.
    + rewrite map_length. exact H2.
    + assert (HL : (length gs <= length full)%nat).
      { apply (f_equal (@length ftree)) in R1. rewrite app_length, map_length in R1.
        assert (length gs <= length (concat gs))%nat; [|lia].
        clear - R2. induction R2 as [|g gs E H IH]; [cbn; lia|]. cbn [concat length]. rewrite app_length. lia. }
      pose proof (full_len chunk full ltac:(lia) Hfull) as HF. rewrite Ec, blen_app in Hc.
      apply pieces_fit_of; [exact HX | lia | |].
      * rewrite app_length, !map_length. cbn [length]. unfold two64, max_content in *. lia.
      * assert (Hin : In l0 (map FLeaf full)) by (rewrite <- R1; apply in_or_app; right; left; reflexivity).
        assert (Hw0 : weight l0 <= 121 * (max_content + 1)).
        { apply in_map_iff in Hin as (d & <- & Hd). unfold weight. cbn [content nodes length].
          assert (blen d <= blen (concat full)); [|lia].
          apply in_split in Hd as (p & q & ->). rewrite concat_app. cbn [concat]. rewrite !blen_app. lia. }
        assert (He : wsum extra <= 121 * (max_content + 1)).
        { unfold extra. destruct rest as [|x rest]; [cbn; lia|].
          rewrite wsum_cons. cbn [wsum map sumN fold_right]. unfold weight. cbn [content nodes length]. lia. }
        rewrite wsum_cons. unfold two64, max_content in *. lia.
Qed.

(** ** What the blocks say when parsed *)
Lemma weight_in r : forall t, In t (nodes r) -> weight t <= weight r.
Proof.
  induction r as [d|ts IH] using ftree_ind'; intros t H; cbn [nodes] in H.
  - destruct H as [<-|[]]. lia.
  - apply in_app_or in H as [H|[<-|[]]]; [|lia].
    apply in_concat in H as (l & Hl & Ht). apply in_map_iff in Hl as (t' & <- & Ht').
    rewrite Forall_forall in IH. specialize (IH t' Ht' t Ht). rewrite weight_node.
    apply in_split in Ht' as (p & q & ->). rewrite wsum_app, wsum_cons. lia.
Qed.

Lemma balanced_weight b ts r : (2 <= b)%nat -> balanced b ts r -> weight r <= phi ts.
Proof.
  intros Hb. induction 1 as [t|ts r Hl H IH].
  - unfold phi. rewrite wsum_cons. cbn. lia.
  - eapply N.le_trans; [exact IH|]. apply phi_level; assumption.
Qed.

Lemma chunks_count chunk c : 1 <= chunk -> N.of_nat (length (chunks (N.to_nat chunk) c)) <= blen c + 1.
Proof.
  intros Hc. unfold chunks. destruct c as [|x c']; [cbn; lia|].
  assert (Hn : (1 <= N.to_nat chunk)%nat) by lia. remember (x :: c') as c.
  pose proof (pieces_all (N.to_nat chunk) c Hn) as HA.
  rewrite <- (concat_pieces (N.to_nat chunk) c Hn) at 2. clear - HA.
  induction HA as [|g gs H1 H2 IH]; [cbn; lia|]. cbn [concat length]. rewrite blen_app. unfold blen at 1. lia.
Qed.

Lemma canonical_weight chunk bf c r : 1 <= chunk -> 2 <= bf \/ blen c <= chunk -> blen c <= max_content ->
  canonical chunk bf c r -> weight r < two63.
Proof.
  intros Hc Hb Hm H.
  assert (Hphi : phi (map FLeaf (chunks (N.to_nat chunk) c)) < two63).
  { unfold phi. rewrite map_length, wsum_leaves, concat_chunks by lia.
    pose proof (chunks_count chunk c Hc). unfold max_content, two63 in *. lia. }
  destruct Hb as [Hb|Hb].
  - apply balanced_weight in H; [|lia]. lia.
  - unfold canonical in H. inv H.
    + rewrite <- H1 in Hphi. unfold phi in Hphi. rewrite wsum_cons in Hphi. lia.
    + exfalso. rewrite map_length in H0.
      assert (length (chunks (N.to_nat chunk) c) = 1%nat); [|lia].
      destruct c as [|x c']; [reflexivity|]. unfold chunks.
      rewrite pieces_short; [reflexivity | unfold blen in Hb; lia | discriminate].
Qed.

Lemma leaf_parse dbg d : blen d <= 2147483648 -> try_parse dbg (block X (FLeaf d)) = Ok (leaf_msg d).
Proof.
  intros H. apply round_trip.
  - constructor.
  - unfold leaf_msg, unixfs_fits. cbn. unfold two64. repeat split; try constructor. lia.
  - pose proof (block_leaf_len X d) as L. rewrite block_leaf in L. unfold two32. lia.
Qed.

Lemma node_parse (HX : ext_ok X) dbg ts : N.of_nat (length ts) <= 33554432 -> weight (FNode ts) < two63 ->
  try_parse dbg (block X (FNode ts)) = Ok (inner_msg X ts).
Proof.
  intros H Hw. rewrite block_node. apply round_trip.
  - unfold inner_msg, links_of. cbn [f_links]. apply Forall_forall. intros l Hl. apply in_map_iff in Hl as (t & <- & Ht).
    split; cbn [ok_opt l_name l_tsize]; [reflexivity|].
    pose proof (tsize_weight X HX t). rewrite weight_node in Hw. apply in_split in Ht as (p & q & ->).
    rewrite wsum_app, wsum_cons in Hw. unfold two63, two64 in *. lia.
  - unfold inner_msg, unixfs_fits. cbn [f_data u_filesize u_blocksizes u_hashtype u_fanout u_mode u_mtime ok_opt].
    rewrite weight_node in Hw. pose proof (fsum_weight ts).
    split; [unfold two63, two64 in *; lia|]. split; [|auto].
    unfold sizes_of. apply Forall_forall. intros v Hv. apply in_map_iff in Hv as (t & <- & Ht).
    apply in_split in Ht as (p & q & ->). rewrite wsum_app, wsum_cons in Hw. unfold weight in Hw.
    unfold two63, two64 in *. lia.
  - pose proof (block_node_len X HX ts) as L. rewrite block_node in L. unfold two32. lia.
Qed.

Definition msg_of (t : ftree) : flat := match t with FLeaf d => leaf_msg d | FNode ts => inner_msg X ts end.

Lemma node_parses (HX : ext_ok X) dbg chunk bf t : moderate chunk bf -> node_ok chunk bf t -> weight t < two63 ->
  try_parse dbg (block X t) = Ok (msg_of t).
Proof.
  intros [Hm1 Hm2] Hn Hw. destruct t as [d|ts]; cbn [node_ok msg_of] in *.
  - apply leaf_parse. lia.
  - apply node_parse; [exact HX | lia | exact Hw].
Qed.

Lemma tsize_total t : tsize X t = sumN (map (fun b => blen (snd b)) (tree_blocks X t)).
Proof.
  unfold tree_blocks. rewrite map_map. cbn [cblock_of snd].
  induction t as [d|ts IH] using ftree_ind'.
  - rewrite tsize_leaf. cbn. lia.
  - rewrite tsize_node. cbn [nodes]. rewrite map_app, sumN_app. cbn [map]. rewrite sumN_cons. cbn [sumN fold_right].
    assert (E : tsum X ts = sumN (map (fun t => blen (snd (cblock_of X t))) (concat (map nodes ts)))).
    { induction IH as [|t ts H1 H2 IH2]; [reflexivity|]. rewrite tsum_cons. cbn [map concat].
      rewrite map_app, sumN_app, <- IH2, H1. reflexivity. }
    rewrite E. cbn [cblock_of snd]. lia.
Qed.

(** the message of a node describes its children *)
Definition describes (t : ftree) (m : flat) : Prop :=
  u_type (f_data m) = File
  /\ u_filesize (f_data m) = Some (blen (content t))
  /\ u_blocksizes (f_data m) = map (fun ch => blen (content ch)) (children t)
  /\ (children t <> [] -> sumN (u_blocksizes (f_data m)) = blen (content t))
  /\ u_data (f_data m) = match t with FLeaf (x :: d) => Some (x :: d) | _ => None end
  /\ map l_hash (f_links m) = map (fun ch => Some (cid_bytes (fst (cblock_of X ch)))) (children t)
  /\ map l_tsize (f_links m) = map (fun ch => Some (sumN (map (fun b => blen (snd b)) (tree_blocks X ch)))) (children t)
  /\ map l_name (f_links m) = map (fun _ => Some []) (children t).

Lemma msg_describes t : describes t (msg_of t).
Proof.
  unfold describes. destruct t as [d|ts]; cbn [msg_of leaf_msg inner_msg f_data f_links u_type u_filesize u_blocksizes u_data children map content].
  - repeat split; try congruence. destruct d; reflexivity.
  - split; [reflexivity|]. split; [f_equal; exact (eq_sym (content_node ts))|]. split; [reflexivity|].
    split; [intros _; exact (eq_sym (content_node ts))|]. split; [reflexivity|].
    unfold links_of. rewrite !map_map. cbn [l_hash l_tsize l_name]. split; [reflexivity|].
    split; [|reflexivity]. apply map_ext. intros t. rewrite tsize_total. reflexivity.
Qed.

Lemma emitted_parse (HX : ext_ok X) dbg chunk bf c r t :
  cfg_ok chunk bf -> moderate chunk bf -> 2 <= bf \/ blen c <= chunk -> blen c <= max_content ->
  canonical chunk bf c r -> In t (nodes r) ->
  exists m, try_parse dbg (block X t) = Ok m /\ describes t m.
Proof.
  intros [Hc1 Hc2] Hm Hb Hmax Hr Ht. exists (msg_of t). split; [|apply msg_describes].
  eapply node_parses; [exact HX | exact Hm | |].
  - pose proof (canonical_limits chunk bf c r ltac:(lia) ltac:(lia) Hr) as HL. rewrite Forall_forall in HL. apply HL, Ht.
  - eapply N.le_lt_trans; [apply weight_in, Ht|]. eapply canonical_weight; [| exact Hb | exact Hmax | exact Hr]. lia.
Qed.

(** ** Sessions *)
Section session.
Context (HX : ext_ok X) (chunk bf : N) (a0 : adder) (c : bytes) (out : list cblock) (a : adder).
Hypotheses (Hcfg : cfg_ok chunk bf) (Hnew : adder_new chunk bf = Ok a0)
  (Hs : session X a0 c out a).

Lemma session_push_ok input : blen c + blen input <= max_content ->
  exists a' bs,
    push X a input = Ok (a', bs, N.min (blen input) (chunk - blen c mod chunk))
    /\ blocks_shape X bs.
Proof.
  intros Hc. apply adder_new_ok in Hnew.
  pose proof (session_state X HX chunk bf a0 c out a Hcfg Hnew Hs ltac:(lia)) as St.
  destruct (push_spec X HX chunk bf c a out input Hcfg St Hc) as (a' & bs & P1 & P2 & P3 & P4).
  rewrite P4 in P1. eauto.
Qed.

Lemma session_named : Forall named out.
Proof.
  clear - Hs. induction Hs as [|a1 c1 out1 a2 input a3 bs n Hs' IH Hp]; [constructor|].
  apply Forall_app. split; [apply IH; exact Hs' | eapply push_named; exact Hp].
Qed.

Lemma session_finish : 2 <= bf \/ blen c <= chunk -> blen c <= max_content ->
  exists last r all',
    finish X a = Ok last
    /\ canonical chunk bf c r
    /\ out ++ last = map (cblock_of X) (all' ++ [r])
    /\ builds [] (all' ++ [r])
    /\ Permutation (all' ++ [r]) (nodes r).
Proof.
  intros Hb Hc. apply adder_new_ok in Hnew. eapply finish_spec; try eassumption.
  eapply session_state; eassumption.
Qed.
End session.

Lemma session_det (HX : ext_ok X) chunk bf a0 c out1 a1 out2 a2 :
  cfg_ok chunk bf -> adder_new chunk bf = Ok a0 -> blen c <= max_content ->
  session X a0 c out1 a1 -> session X a0 c out2 a2 -> out1 = out2 /\ finish X a1 = finish X a2.
Proof.
  intros Hcfg Hnew Hc H1 H2. apply adder_new_ok in Hnew.
  pose proof (session_state X HX chunk bf a0 c out1 a1 Hcfg Hnew H1 Hc) as S1.
  pose proof (session_state X HX chunk bf a0 c out2 a2 Hcfg Hnew H2 Hc) as S2.
  destruct (state_unique _ _ _ _ _ _ _ _ S1 S2) as [-> ->]. auto.
Qed.

Lemma zero_chunk a input : a_chunk a = 0 -> a_buf a = [] -> push X a input = Panic.
Proof.
  intros H1 H2. unfold push, accept. rewrite H1, H2, blen_nil.
  rewrite sub64_ok by lia. cbn [bind]. rewrite N.sub_diag, N.min_0_r.
  rewrite add64_ok by (unfold two64; lia). cbn [bind].
  change (0 <=? 0 + 0) with true. change (0 =? 0) with true. cbn [andb N.to_nat firstn].
  unfold flush_buffered_leaf. rewrite blen_nil. cbn [negb orb andb]. reflexivity.
Qed.

(** children are in the store before their parent *)
Lemma emitted_order (HX : ext_ok X) dbg chunk bf c r all' p cd b s :
  cfg_ok chunk bf -> moderate chunk bf -> 2 <= bf \/ blen c <= chunk -> blen c <= max_content ->
  canonical chunk bf c r -> builds [] (all' ++ [r]) -> Permutation (all' ++ [r]) (nodes r) ->
  map (cblock_of X) (all' ++ [r]) = p ++ (cd, b) :: s ->
  exists m, try_parse dbg b = Ok m
    /\ Forall (fun l => exists cd' b', In (cd', b') p /\ l_hash l = Some (cid_bytes cd')) (f_links m).
Proof.
  intros Hcfg Hm Hb Hmax Hr HB HP E.
  apply map_eq_app in E as (tp & ts & E1 & E2 & E3).
  destruct ts as [|t ts]; [discriminate|]. cbn [map] in E3. inv E3.
  assert (Ht : In t (nodes r)).
  { apply (Permutation_in _ HP). rewrite E1. apply in_or_app. right. left. reflexivity. }
  destruct (emitted_parse HX dbg chunk bf c r t Hcfg Hm Hb Hmax Hr Ht) as (m & M1 & M2).
  exists m. split; [exact M1|].
  destruct M2 as (_ & _ & _ & _ & _ & Hh & _).
  apply Forall_forall. intros l Hl.
  assert (Hin : In (l_hash l) (map l_hash (f_links m))) by (apply in_map, Hl).
  rewrite Hh in Hin. apply in_map_iff in Hin as (ch & Ech & Hch).
  exists (fst (cblock_of X ch)), (snd (cblock_of X ch)). split; [|symmetry; exact Ech].
  rewrite <- surjective_pairing. apply in_map.
  destruct t as [d|cs]; [destruct Hch|]. cbn [children] in Hch.
  pose proof (builds_split [] _ HB tp cs ts E1) as Hi. apply Hi, Hch.
Qed.

(** every content can be pushed *)
Lemma session_extend (HX : ext_ok X) chunk bf a0 : cfg_ok chunk bf -> a0 = Adder chunk bf [] [] ->
  forall n input c out a, (length input <= n)%nat -> session X a0 c out a -> blen c + blen input <= max_content ->
  exists out' a', session X a0 (c ++ input) out' a'.
Proof.
  intros Hcfg E0. induction n as [|n IH]; intros input c out a Hn Hs Hc.
  - destruct input; [|cbn in Hn; lia]. rewrite app_nil_r. eauto.
  - destruct (Nat.eq_dec (length input) 0) as [Hz|Hz].
    { destruct input; [rewrite app_nil_r; eauto | discriminate]. }
    pose proof (session_state X HX chunk bf a0 c out a Hcfg E0 Hs ltac:(lia)) as St.
    destruct (push_spec X HX chunk bf c a out input Hcfg St Hc) as (a1 & bs1 & P1 & _ & _ & P4).
    set (k := N.min (blen input) (chunk - blen (a_buf a))) in *.
    assert (Hk1 : 1 <= k).
    { assert (blen (a_buf a) < chunk) by (rewrite P4; apply N.mod_lt; destruct Hcfg; lia).
      unfold k, blen in *. lia. }
    pose proof (session_push X a0 c out a input a1 bs1 k Hs P1) as Hs1.
    destruct (IH (skipn (N.to_nat k) input) _ _ _ ltac:(rewrite skipn_length; lia) Hs1) as (o & a2 & H2).
    { rewrite blen_app, <- N.add_assoc, <- blen_app, firstn_skipn. exact Hc. }
    rewrite <- app_assoc, firstn_skipn in H2. eauto.
Qed.

Lemma session_exists (HX : ext_ok X) chunk bf a0 c : cfg_ok chunk bf -> adder_new chunk bf = Ok a0 ->
  blen c <= max_content -> exists out a, session X a0 c out a.
Proof.
  intros Hcfg Hnew Hc. apply adder_new_ok in Hnew.
  apply (session_extend HX chunk bf a0 Hcfg Hnew (length c) c [] [] a0); [lia | constructor | rewrite blen_nil; lia].
Qed.

End thms.
