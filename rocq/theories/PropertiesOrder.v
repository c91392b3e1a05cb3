(** * Property C66: when each block of a file is returned
    (/repo/src/file/adder.rs 179-330, 437-590).
    The vocabulary is in SpecAdder.v ([upper], [chunks], ...) and SpecOrder.v. *)
From Coq Require Import Permutation.
From Verif Require Import Base Wire Cid Sha256 Pb Adder SpecAdder Adder_proofs Adder_thms SpecOrder Order_proofs PropertiesAdder.

(** C66: what push calls have returned so far, in order: each completed leaf at
    once, and the node of a full group of leaves right after the first leaf behind
    the group *)
Theorem C66_push_order : forall X chunk bf a0 c out a,
  ext_ok X -> cfg_ok chunk bf -> adder_new chunk bf = Ok a0 -> session X a0 c out a -> blen c <= max_content ->
  out = map (cblock_of X) (pushed_trees (N.to_nat bf) (leaves_of chunk c) (complete chunk c)).
Proof. exact (fun X chunk bf a0 c out a HX => order_push X HX chunk bf a0 c out a). Qed.
Print Assumptions C66_push_order.

(** C66: what finish returns then, in order: the last leaf unless it was
    complete, then all nodes not yet returned, level by level, root last *)
Theorem C66_finish_order : forall X chunk bf a0 c out a,
  ext_ok X -> cfg_ok chunk bf -> 2 <= bf \/ blen c <= chunk -> adder_new chunk bf = Ok a0 ->
  session X a0 c out a -> blen c <= max_content ->
  exists up, upper (N.to_nat bf) (leaves_of chunk c) up
    /\ finish X a = Ok (map (cblock_of X)
         (skipn (complete chunk c) (leaves_of chunk c)
          ++ skipn (pushed_nodes (N.to_nat bf) (complete chunk c)) up)).
Proof. exact (fun X chunk bf a0 c out a HX => order_finish X HX chunk bf a0 c out a). Qed.
Print Assumptions C66_finish_order.

(** [upper] determines its list, which ends with the root of the canonical tree
    unless that is the only leaf *)
Theorem C66_upper : forall chunk bf c up r,
  upper (N.to_nat bf) (leaves_of chunk c) up -> canonical chunk bf c r ->
  (forall up', upper (N.to_nat bf) (leaves_of chunk c) up' -> up' = up)
  /\ ((leaves_of chunk c = [r] /\ up = []) \/ exists lower, up = lower ++ [r]).
Proof.
  intros chunk bf c up r U B. split; [intros up' U'; eapply upper_unique; eassumption|].
  unfold canonical in B. fold (leaves_of chunk c) in B. revert r B. generalize dependent (leaves_of chunk c).
  intros ts U. induction U as [t|ts ns H U IH]; intros r B.
  - inversion B as [t' E1 E2|ts' r' Hl B' E1 E2]; subst; [left; split; reflexivity | cbn [length] in Hl; lia].
  - inversion B as [t' E1 E2|ts' r' Hl B' E1 E2]; subst; [cbn [length] in H; lia|].
    right. destruct (IH r B') as [[E ->]|[lower ->]].
    + exists []. rewrite E. reflexivity.
    + exists (map FNode (pieces (N.to_nat bf) ts) ++ lower). rewrite app_assoc. reflexivity.
Qed.
Print Assumptions C66_upper.

(** C66, against the picture in adder.rs 440-490, where the node A of the second
    level of links exists while content is still being pushed: push never returns
    a node above the lowest level of links, so these all wait for finish. *)
Theorem C66_high_nodes_wait : forall X chunk bf a0 c out a b,
  ext_ok X -> cfg_ok chunk bf -> adder_new chunk bf = Ok a0 -> session X a0 c out a -> blen c <= max_content ->
  In b out ->
  exists ds, (length ds <= N.to_nat bf)%nat
    /\ ((exists d, b = cblock_of X (FLeaf d)) \/ b = cblock_of X (FNode (map FLeaf ds))).
Proof.
  intros X chunk bf a0 c out a b HX Hcfg Hn Hs Hc Hb.
  rewrite (C66_push_order X chunk bf a0 c out a HX Hcfg Hn Hs Hc) in Hb.
  apply in_map_iff in Hb as (t & <- & Ht). unfold pushed_trees in Ht. apply in_flat_map in Ht as (i & _ & Ht).
  unfold step_trees, leaves_of in Ht. apply in_app_or in Ht as [Ht|Ht].
  - exists []. split; [cbn; lia|]. left. rewrite skipn_map, firstn_map in Ht. apply in_map_iff in Ht as (d & <- & _). eauto.
  - destruct (_ && _); [|destruct Ht]. destruct Ht as [<-|[]].
    rewrite skipn_map, firstn_map.
    exists (firstn (N.to_nat bf) (skipn (i - N.to_nat bf) (chunks (N.to_nat chunk) c))).
    split; [rewrite firstn_length; lia|]. right. reflexivity.
Qed.
Print Assumptions C66_high_nodes_wait.

(** C66: how many blocks finish must still return when [k] chunks were complete *)
Theorem C66_finish_count : forall X chunk bf a0 c out a last,
  ext_ok X -> cfg_ok chunk bf -> 2 <= bf \/ blen c <= chunk -> adder_new chunk bf = Ok a0 ->
  session X a0 c out a -> blen c <= max_content -> finish X a = Ok last ->
  exists up, upper (N.to_nat bf) (leaves_of chunk c) up
    /\ length last = (length (leaves_of chunk c) - complete chunk c
                      + (length up - pushed_nodes (N.to_nat bf) (complete chunk c)))%nat.
Proof.
  intros X chunk bf a0 c out a last HX Hcfg Hb Hn Hs Hc F.
  destruct (C66_finish_order X chunk bf a0 c out a HX Hcfg Hb Hn Hs Hc) as (up & U & F'). exists up. split; [exact U|].
  rewrite F in F'. injection F' as ->. rewrite map_length, app_length, !skipn_length. reflexivity.
Qed.
Print Assumptions C66_finish_count.

(** the vocabulary on five chunks of one byte, two links per node *)
Example C66_nonvacuous :
  let c : bytes := map n2b [1;2;3;4;5] in
  let l n := FLeaf [n2b n] in
  let n12 := FNode [l 1; l 2] in let n34 := FNode [l 3; l 4] in let n5 := FNode [l 5] in
  let m := FNode [n12; n34] in let m' := FNode [n5] in
  leaves_of 1 c = [l 1; l 2; l 3; l 4; l 5]
  /\ complete 1 c = 5%nat
  /\ pushed_trees 2 (leaves_of 1 c) 5 = [l 1; l 2; l 3; n12; l 4; l 5; n34]
  /\ pushed_nodes 2 5 = 2%nat
  /\ upper 2 (leaves_of 1 c) [n12; n34; n5; m; m'; FNode [m; m']]
  /\ (forall dbg a0, adder_new 1 2 = Ok a0 -> exists out a, session (real_ext dbg) a0 c out a).
Proof.
  cbv zeta. split; [reflexivity|]. split; [reflexivity|]. split; [reflexivity|]. split; [reflexivity|]. split.
  { assert (L : forall ts ns q, (2 <= length ts)%nat -> map FNode (pieces 2 ts) = q -> upper 2 q ns -> upper 2 ts (q ++ ns)).
    { intros ts ns q H <- U. apply upper_level; assumption. }
    simple refine (L _ _ [_;_;_] _ _ _); [apply Nat.leb_le; reflexivity | reflexivity |].
    simple refine (L _ _ [_;_] _ _ _); [apply Nat.leb_le; reflexivity | reflexivity |].
    simple refine (L _ _ [_] _ _ _); [apply Nat.leb_le; reflexivity | reflexivity |]. constructor. }
  intros dbg a0 E. apply (sessions_exist (real_ext dbg) 1 2); [apply ext_ok_real | | exact E | vm_compute; congruence].
  split; unfold two64, two63; lia.
Qed.
