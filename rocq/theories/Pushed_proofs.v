(** * Pushed_proofs: the blocks push has returned, whatever becomes of the adder *)
From Coq Require Import Permutation.
From Verif Require Import Base Wire Cid Sha256 Pb Adder SpecAdder Adder_proofs Adder_thms.

Section pushed.
Context (X : ext).

Definition whole (chunk bf : N) (t : ftree) : Prop :=
  (exists d, t = FLeaf d /\ blen d = chunk)
  \/ exists ds, t = FNode (map FLeaf ds) /\ N.of_nat (length ds) = bf /\ Forall (fun d => blen d = chunk) ds.

Lemma pushed_whole (HX : ext_ok X) chunk bf a0 c out a :
  cfg_ok chunk bf -> adder_new chunk bf = Ok a0 -> session X a0 c out a -> blen c <= max_content ->
  exists N, out = ret_of X N /\ builds [] N
    /\ Forall (fun t => whole chunk bf t /\ weight t < two63) N.
Proof.
  intros Hcfg Hnew Hs Hc. apply adder_new_ok in Hnew.
  destruct (session_state X HX chunk bf a0 c out a Hcfg Hnew Hs Hc) as (full & rest & Ec & Hf & Hr & -> & Eo).
  destruct Hcfg as [Hchunk Hbf].
  pose proof (run_inv (N.to_nat bf) full ltac:(lia)) as R.
  destruct (run (N.to_nat bf) full) as [[gs ls] N] eqn:E. cbn [run_ok snd] in *.
  destruct R as (R1 & R2 & R3 & R4 & R5 & R6).
  exists N. split; [exact Eo|]. split; [exact R5|].
  apply Forall_forall. intros t Ht. apply (Permutation_in _ R6) in Ht.
  assert (Hcl : blen (concat full) <= max_content) by (rewrite Ec, blen_app in Hc; lia).
  pose proof (full_len chunk full ltac:(lia) Hf) as Hfl.
  assert (Hw : wsum (map FLeaf full) <= 121 * max_content) by (rewrite wsum_leaves; lia).
  assert (Hleaf : forall x, In x (map FLeaf full) -> (exists d, x = FLeaf d /\ blen d = chunk) /\ weight x <= wsum (map FLeaf full)).
  { intros x Hx. split.
    - apply in_map_iff in Hx as (d & <- & Hd). rewrite Forall_forall in Hf. exists d. auto.
    - apply in_split in Hx as (l1 & l2 & ->). rewrite wsum_app, wsum_cons. lia. }
  assert (M : max_content = 18014398509481984) by reflexivity. assert (T : two63 = 9223372036854775808) by reflexivity.
  rewrite all_nodes_app in Ht. apply in_app_or in Ht as [Ht|Ht].
  - unfold all_nodes in Ht. apply in_concat in Ht as (ns & Hns & Ht).
    apply in_map_iff in Hns as (t0 & <- & Ht0). apply in_map_iff in Ht0 as (g & <- & Hg).
    assert (Hsub : exists p s, map FLeaf full = p ++ g ++ s).
    { rewrite <- R1. apply in_split in Hg as (g1 & g2 & ->). exists (concat g1), (concat g2 ++ ls).
      rewrite concat_app. cbn [concat]. rewrite <- !app_assoc. reflexivity. }
    destruct Hsub as (p & s & Hsub).
    assert (Hin : forall x, In x g -> In x (map FLeaf full)).
    { intros x Hx. rewrite Hsub. apply in_or_app. right. apply in_or_app. left. exact Hx. }
    assert (Hgd : exists ds, g = map FLeaf ds /\ Forall (fun d => blen d = chunk) ds).
    { clear - Hin Hleaf. induction g as [|x g IH].
      - exists []. split; [reflexivity | constructor].
      - destruct (IH (fun y Hy => Hin y (or_intror Hy))) as (ds & -> & Hds).
        destruct (Hleaf x (Hin x (or_introl eq_refl))) as [(d & -> & Hd) _].
        exists (d :: ds). split; [reflexivity | constructor; assumption]. }
    cbn [nodes] in Ht. apply in_app_or in Ht as [Ht|[<-|[]]].
    + apply in_concat in Ht as (ns & Hns & Ht). apply in_map_iff in Hns as (x & <- & Hx).
      destruct (Hleaf x (Hin x Hx)) as [(d & -> & Hd) Hwx]. cbn [nodes] in Ht. destruct Ht as [<-|[]].
      split; [left; exists d; auto | lia].
    + destruct Hgd as (ds & Eg & Hds). split.
      * right. exists ds. split; [congruence|]. split; [|exact Hds].
        rewrite Forall_forall in R2. specialize (R2 g Hg). rewrite Eg, map_length in R2. lia.
      * rewrite weight_node. rewrite Hsub, !wsum_app in Hw. lia.
  - assert (Hin : In t (map FLeaf full)).
    { rewrite <- R1. apply in_or_app. right. unfold all_nodes in Ht. apply in_concat in Ht as (ns & Hns & Ht).
      apply in_map_iff in Hns as (x & <- & Hx).
      assert (Hx' : In x (map FLeaf full)) by (rewrite <- R1; apply in_or_app; right; exact Hx).
      apply in_map_iff in Hx' as (d & <- & _). cbn [nodes] in Ht. destruct Ht as [<-|[]]. exact Hx. }
    destruct (Hleaf t Hin) as [(d & -> & Hd) Hwx]. split; [left; exists d; auto | lia].
Qed.

Lemma whole_node_ok chunk bf t : 1 <= bf -> whole chunk bf t -> node_ok chunk bf t.
Proof.
  intros Hb [(d & -> & Hd)|(ds & -> & Hl & _)]; cbn [node_ok]; [lia|]. rewrite map_length. lia.
Qed.

Lemma pushed_parse (HX : ext_ok X) dbg chunk bf t : cfg_ok chunk bf -> moderate chunk bf ->
  whole chunk bf t -> weight t < two63 -> try_parse dbg (block X t) = Ok (msg_of X t) /\ describes X t (msg_of X t).
Proof.
  intros Hcfg Hm Hw Hwt. split; [|apply msg_describes].
  eapply node_parses; [exact HX | exact Hm | | exact Hwt]. apply whole_node_ok; [destruct Hcfg as [_ [? _]]; assumption | exact Hw].
Qed.

Lemma pushed_order (HX : ext_ok X) dbg chunk bf a0 c out a before cd b after :
  cfg_ok chunk bf -> moderate chunk bf -> adder_new chunk bf = Ok a0 -> session X a0 c out a -> blen c <= max_content ->
  out = before ++ (cd, b) :: after ->
  exists m, try_parse dbg b = Ok m
    /\ Forall (fun l => exists cd' b', In (cd', b') before /\ l_hash l = Some (cid_bytes cd')) (f_links m).
Proof.
  intros Hcfg Hm Hnew Hs Hc E.
  destruct (pushed_whole HX chunk bf a0 c out a Hcfg Hnew Hs Hc) as (N & EN & HB & HN). rewrite EN in E.
  unfold ret_of in E. apply map_eq_app in E as (tp & ts & E1 & E2 & E3).
  destruct ts as [|t ts]; [discriminate|]. cbn [map] in E3. unfold cblock_of in E3. injection E3 as E3a E3b E3c. subst cd b.
  rewrite Forall_forall in HN.
  destruct (HN t) as [Hw Hwt]; [rewrite E1; apply in_or_app; right; left; reflexivity|].
  destruct (pushed_parse HX dbg chunk bf t Hcfg Hm Hw Hwt) as [M1 M2].
  exists (msg_of X t). split; [exact M1|].
  destruct M2 as (_ & _ & _ & _ & _ & Hh & _).
  apply Forall_forall. intros l Hl.
  assert (Hin : In (l_hash l) (map l_hash (f_links (msg_of X t)))) by (apply in_map, Hl).
  rewrite Hh in Hin. apply in_map_iff in Hin as (ch & Ech & Hch).
  exists (fst (cblock_of X ch)), (snd (cblock_of X ch)). split; [|symmetry; exact Ech].
  rewrite <- surjective_pairing, <- E2. apply in_map.
  destruct t as [d|cs]; [destruct Hch|]. cbn [children] in Hch.
  pose proof (builds_split [] _ HB tp cs ts E1) as Hi. apply Hi, Hch.
Qed.

Lemma pushed_sizes (HX : ext_ok X) dbg chunk bf a0 c out a cd b :
  cfg_ok chunk bf -> moderate chunk bf -> adder_new chunk bf = Ok a0 -> session X a0 c out a -> blen c <= max_content ->
  In (cd, b) out ->
  exists t, cblock_of X t = (cd, b) /\ whole chunk bf t
    /\ try_parse dbg b = Ok (msg_of X t) /\ describes X t (msg_of X t).
Proof.
  intros Hcfg Hm Hnew Hs Hc Hin.
  destruct (pushed_whole HX chunk bf a0 c out a Hcfg Hnew Hs Hc) as (N & EN & HB & HN). rewrite EN in Hin.
  unfold ret_of in Hin. apply in_map_iff in Hin as (t & Et & Ht). rewrite Forall_forall in HN.
  destruct (HN t Ht) as [Hw Hwt]. exists t. split; [exact Et|]. split; [exact Hw|].
  assert (b = block X t) as -> by (unfold cblock_of in Et; congruence).
  exact (pushed_parse HX dbg chunk bf t Hcfg Hm Hw Hwt).
Qed.
End pushed.
