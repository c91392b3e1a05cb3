(** * Order_proofs: proofs behind C66. *)
From Coq Require Import Permutation.
From Verif Require Import Base Tac Wire Cid Pb Adder SpecAdder Adder_proofs Adder_thms SpecOrder.

Lemma step_trees_app b ts more i : (i < length ts)%nat -> (1 <= b)%nat ->
  step_trees b (ts ++ more) i = step_trees b ts i.
Proof.
  intros Hi Hb. unfold step_trees. f_equal.
  - rewrite skipn_app. replace (i - length ts)%nat with 0%nat by lia. cbn [skipn].
    rewrite firstn_app, skipn_length. replace (1 - (length ts - i))%nat with 0%nat by lia. cbn [firstn]. apply app_nil_r.
  - destruct (Nat.eqb_spec i 0); cbn [negb andb]; [reflexivity|].
    destruct (Nat.eqb_spec (i mod b) 0) as [E|]; [|reflexivity]. do 2 f_equal.
    assert (b <= i)%nat.
    { destruct (Nat.le_gt_cases b i); [assumption|]. rewrite Nat.mod_small in E by lia. lia. }
    rewrite skipn_app. replace (i - b - length ts)%nat with 0%nat by lia. cbn [skipn].
    rewrite firstn_app, skipn_length. replace (b - (length ts - (i - b)))%nat with 0%nat by lia. cbn [firstn]. apply app_nil_r.
Qed.

Lemma pushed_trees_app b ts more k : (k <= length ts)%nat -> (1 <= b)%nat ->
  pushed_trees b (ts ++ more) k = pushed_trees b ts k.
Proof.
  intros Hk Hb. unfold pushed_trees. rewrite !flat_map_concat_map. f_equal. apply map_ext_in.
  intros i Hi. apply in_seq in Hi. apply step_trees_app; lia.
Qed.

Lemma pushed_trees_snoc b ts k : pushed_trees b ts (S k) = pushed_trees b ts k ++ step_trees b ts k.
Proof. unfold pushed_trees. rewrite seq_S, flat_map_app. cbn [flat_map]. rewrite app_nil_r. reflexivity. Qed.

Lemma concat_same_len {A} (b : nat) (gs : list (list A)) : Forall (fun g => length g = b) gs -> length (concat gs) = (length gs * b)%nat.
Proof. induction 1 as [|g gs E H IH]; [reflexivity|]. cbn [concat length]. rewrite app_length. lia. Qed.

(** the number of groups and of pending leaves *)
Lemma run_counts b (full : list bytes) : (1 <= b)%nat ->
  let '(gs, ls, out) := run b full in
  length gs = pushed_nodes b (length full)
  /\ length full = (length gs * b + length ls)%nat
  /\ out = pushed_trees b (map FLeaf full) (length full).
Proof.
  intros Hb. induction full as [|d full IH] using rev_ind.
  - cbn. unfold pushed_nodes. cbn. rewrite Nat.div_small by lia. auto.
  - pose proof (run_inv b full Hb) as R. rewrite run_snoc. destruct (run b full) as [[gs ls] out]. cbn [run_ok] in R.
    destruct R as (R1 & R2 & R3 & R4 & _ & _). destruct IH as (I1 & I2 & I3).
    assert (Hout : forall x y : list ftree, x = y -> out ++ x = pushed_trees b (map FLeaf (full ++ [d])) (length full) ++ y).
    { intros x y ->. rewrite map_app, pushed_trees_app by (rewrite ?map_length; lia). rewrite <- I3. reflexivity. }
    assert (Hhd : firstn 1 (skipn (length full) (map FLeaf (full ++ [d]))) = [FLeaf d]).
    { rewrite map_app, skipn_app, map_length, Nat.sub_diag, skipn_all2 by (rewrite map_length; lia). reflexivity. }
    unfold feed. rewrite app_length. cbn [length]. replace (length full + 1)%nat with (S (length full)) by lia.
    rewrite pushed_trees_snoc.
    assert (Hls : full = [] \/ (1 <= length ls)%nat).
    { destruct full; [left; reflexivity|]. right. specialize (R4 ltac:(discriminate)). destruct ls; [congruence | cbn; lia]. }
    destruct (Nat.ltb_spec (length ls) b) as [Hlt|Hge].
    + split.
      { unfold pushed_nodes. replace (S (length full) - 1)%nat with (length full) by lia.
        rewrite I2, Nat.add_comm, Nat.div_add by lia. rewrite Nat.div_small by exact Hlt. lia. }
      split; [rewrite app_length; cbn [length]; lia|].
      apply Hout. unfold step_trees. rewrite Hhd. cbn [app]. f_equal.
      destruct Hls as [->|Hls]; [reflexivity|].
      rewrite I2, Nat.add_comm, Nat.mod_add, Nat.mod_small by lia.
      destruct (Nat.eqb_spec (length ls) 0); [lia|]. rewrite andb_false_r. reflexivity.
    + assert (El : length ls = b) by lia.
      split.
      { unfold pushed_nodes. replace (S (length full) - 1)%nat with (length full) by lia.
        rewrite app_length. cbn [length]. rewrite I2, El.
        replace (length gs * b + b)%nat with ((length gs + 1) * b)%nat by lia. rewrite Nat.div_mul by lia. reflexivity. }
      split; [rewrite app_length; cbn [length]; lia|].
      apply Hout. unfold step_trees. rewrite Hhd. cbn [app]. f_equal.
      assert (Emod : (length full mod b = 0)%nat).
      { rewrite I2, El. replace (length gs * b + b)%nat with ((length gs + 1) * b)%nat by lia. apply Nat.mod_mul. lia. }
      rewrite Emod. destruct (Nat.eqb_spec (length full) 0); [lia|]. cbn [negb andb Nat.eqb]. do 2 f_equal.
      rewrite map_app, <- R1. replace (length full - b)%nat with (length (concat gs)).
      2: { rewrite (concat_same_len b) by exact R2. lia. }
      rewrite <- app_assoc, skipn_app, Nat.sub_diag, skipn_all2 by lia. cbn [skipn app].
      rewrite firstn_app, El, Nat.sub_diag, firstn_all2 by lia. cbn [firstn]. rewrite app_nil_r. reflexivity.
Qed.

Lemma upper_unique b ts ns : upper b ts ns -> forall ns', upper b ts ns' -> ns' = ns.
Proof.
  induction 1 as [t|ts ns H H1 IH]; intros ns' H'; inv H'; try (cbn [length] in *; lia); [reflexivity|].
  f_equal. apply IH. assumption.
Qed.

(** [complete] counts the complete chunks *)
Lemma complete_full chunk (full : list bytes) (rest : bytes) : 1 <= chunk ->
  Forall (fun d => blen d = chunk) full -> blen rest < chunk ->
  complete chunk (concat full ++ rest) = length full.
Proof.
  intros Hc Hf Hr. unfold complete. rewrite blen_app.
  assert (E : blen (concat full) = N.of_nat (length full) * chunk).
  { clear - Hf. induction Hf as [|d full E H IH]; [reflexivity|]. cbn [concat length]. rewrite blen_app, E, IH. lia. }
  rewrite E, N.add_comm, N.div_add by lia. rewrite N.div_small by exact Hr. lia.
Qed.

Lemma order_push X (HX : ext_ok X) chunk bf a0 c out a : cfg_ok chunk bf -> adder_new chunk bf = Ok a0 ->
  session X a0 c out a -> blen c <= max_content ->
  out = map (cblock_of X) (pushed_trees (N.to_nat bf) (leaves_of chunk c) (complete chunk c)).
Proof.
  intros Hcfg Hn Hs Hc. apply adder_new_ok in Hn.
  destruct (session_state X HX chunk bf a0 c out a Hcfg Hn Hs Hc) as (full & rest & Ec & Hf & Hr & _ & Eo).
  destruct Hcfg as [C1 C2]. subst c. rewrite complete_full by (try assumption; lia).
  unfold leaves_of. rewrite chunks_of by (try assumption; lia).
  rewrite map_app, pushed_trees_app by (rewrite ?map_length; lia).
  pose proof (run_counts (N.to_nat bf) full ltac:(lia)) as R. rewrite Eo.
  destruct (run (N.to_nat bf) full) as [[gs ls] o]. destruct R as (_ & _ & ->). reflexivity.
Qed.

Lemma order_finish X (HX : ext_ok X) chunk bf a0 c out a : cfg_ok chunk bf -> 2 <= bf \/ blen c <= chunk ->
  adder_new chunk bf = Ok a0 -> session X a0 c out a -> blen c <= max_content ->
  exists up, upper (N.to_nat bf) (leaves_of chunk c) up
    /\ finish X a = Ok (map (cblock_of X) (skipn (complete chunk c) (leaves_of chunk c)
                                          ++ skipn (pushed_nodes (N.to_nat bf) (complete chunk c)) up)).
Proof.
  intros Hcfg Hb Hn Hs Hc. apply adder_new_ok in Hn.
  pose proof (session_state X HX chunk bf a0 c out a Hcfg Hn Hs Hc) as St.
  destruct (finish_spec_order X HX chunk bf c a out Hcfg Hb St Hc) as (last & r & all' & F1 & _ & _ & _ & _ & full & rest & up & Ec & Hf & Hr & _ & U & El).
  exists up. unfold leaves_of. split; [exact U|]. rewrite F1, El.
  destruct Hcfg as [C1 C2].
  replace (complete chunk c) with (length full) by (rewrite Ec; symmetry; apply complete_full; [lia | assumption | assumption]).
  pose proof (run_counts (N.to_nat bf) full ltac:(lia)) as R.
  destruct (run (N.to_nat bf) full) as [[gs ls] o]. destruct R as (<- & _ & _). reflexivity.
Qed.
