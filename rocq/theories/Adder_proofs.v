(** * Adder_proofs: the file adder builds the canonical balanced tree *)
From Coq Require Import Permutation.
From Verif Require Import Base Tac Wire Cid Pb SpecWire Wire_proofs Codec_proofs Adder SpecAdder.

Lemma ftree_ind' (P : ftree -> Prop) :
  (forall d, P (FLeaf d)) -> (forall ts, Forall P ts -> P (FNode ts)) -> forall t, P t.
Proof.
  intros Hl Hn. fix IH 1. intros [d|ts]; [apply Hl|]. apply Hn.
  induction ts as [|t ts IHts]; constructor; [apply IH | apply IHts].
Qed.

(** ** pieces *)
Lemma pieces_go_fuel {A} n : (1 <= n)%nat -> forall f1 f2 (l : list A),
  (length l <= f1)%nat -> (length l <= f2)%nat -> pieces_go f1 n l = pieces_go f2 n l.
Proof.
  intros Hn. induction f1 as [|f1 IH]; intros [|f2] l H1 H2.
  - reflexivity.
  - destruct l; [reflexivity | cbn in *; lia].
  - destruct l; [reflexivity | cbn in *; lia].
  - destruct l as [|x l]; [reflexivity|].
    cbn [pieces_go]. f_equal. apply IH; rewrite skipn_length; cbn [length] in *; lia.
Qed.

Lemma pieces_nil {A} n : @pieces A n [] = [].
Proof. reflexivity. Qed.

Lemma pieces_unfold {A} n (l : list A) : (1 <= n)%nat -> l <> [] ->
  pieces n l = firstn n l :: pieces n (skipn n l).
Proof.
  intros Hn Hl. unfold pieces. destruct l as [|x l]; [congruence|].
  cbn [pieces_go length]. f_equal.
  apply pieces_go_fuel; [lia | | lia]. rewrite skipn_length. cbn [length]. lia.
Qed.

Lemma pieces_app {A} n (g l : list A) : (1 <= n)%nat -> length g = n ->
  pieces n (g ++ l) = g :: pieces n l.
Proof.
  intros Hn Hg. rewrite pieces_unfold; [| lia | destruct g; [cbn in Hg; lia | discriminate]].
  rewrite firstn_app, skipn_app, <- Hg, firstn_all, skipn_all, Nat.sub_diag. cbn [firstn skipn app].
  rewrite app_nil_r. reflexivity.
Qed.

Lemma pieces_concat_app {A} n (gs : list (list A)) l : (1 <= n)%nat ->
  Forall (fun g => length g = n) gs -> pieces n (concat gs ++ l) = gs ++ pieces n l.
Proof.
  intros Hn Hg. induction Hg as [|g gs H1 H2 IH]; [reflexivity|].
  cbn [concat app]. rewrite <- app_assoc, pieces_app by assumption. rewrite IH. reflexivity.
Qed.

Lemma pieces_short {A} n (l : list A) : (length l <= n)%nat -> l <> [] -> pieces n l = [l].
Proof.
  intros Hn Hl. assert (1 <= n)%nat by (destruct l; [congruence | cbn in Hn; lia]).
  rewrite pieces_unfold by assumption.
  rewrite firstn_all2, skipn_all2 by lia. reflexivity.
Qed.

Lemma pieces_ind {A} n (Hn : (1 <= n)%nat) (P : list A -> Prop) :
  P [] -> (forall l, l <> [] -> P (skipn n l) -> P l) -> forall l, P l.
Proof.
  intros H0 Hs l. remember (length l) as k. revert l Heqk.
  induction k as [k IH] using lt_wf_ind. intros [|x l] ->; [exact H0|].
  apply Hs; [discriminate|]. eapply IH; [|reflexivity].
  rewrite skipn_length. cbn [length]. lia.
Qed.

Lemma concat_pieces {A} n (l : list A) : (1 <= n)%nat -> concat (pieces n l) = l.
Proof.
  intros Hn. induction l as [|l Hl IH] using (pieces_ind n Hn); [reflexivity |].
  rewrite pieces_unfold by assumption. cbn [concat]. rewrite IH. apply firstn_skipn.
Qed.

Lemma pieces_all {A} n (l : list A) : (1 <= n)%nat ->
  Forall (fun g => (1 <= length g <= n)%nat) (pieces n l).
Proof.
  intros Hn. induction l as [|l Hl IH] using (pieces_ind n Hn); [constructor |].
  rewrite pieces_unfold by assumption. constructor; [|exact IH].
  rewrite firstn_length. destruct l; [congruence | cbn [length]; lia].
Qed.

Lemma pieces_count {A} n (l : list A) : (2 <= n)%nat -> (2 <= length l)%nat ->
  (1 <= length (pieces n l) /\ 3 * length (pieces n l) <= 2 * length l)%nat.
Proof.
  intros Hn. assert (Hn1 : (1 <= n)%nat) by lia.
  assert (G : forall l : list A, (2 * length (pieces n l) <= length l + 1)%nat /\ (l <> [] -> 1 <= length (pieces n l))%nat).
  { clear l. intros l. induction l as [|l Hl IH] using (pieces_ind n Hn1); [cbn; split; [lia | congruence] |].
    rewrite pieces_unfold by assumption. cbn [length].
    destruct IH as [IH _]. split; [|lia]. rewrite skipn_length in IH.
    destruct l as [|x l]; [congruence|]. cbn [length] in *.
    destruct (Nat.le_gt_cases n (S (length l))); [lia|].
    rewrite (skipn_all2 (n := n)) in * by (cbn [length]; lia). cbn [pieces pieces_go length] in *. lia. }
  intros Hl. destruct (G l) as [G1 G2]. destruct l as [|x l]; [cbn in Hl; lia|].
  split; [apply G2; discriminate|]. cbn [length] in *.
  destruct l as [|y [|z l]]; cbn [length] in *; lia.
Qed.

Section proofs.
Context (X : ext).

Definition mk (d : nat) (t : ftree) : link :=
  Link d (block_cid X (block X t)) (tsize X t) (blen (content t)).

Definition fsum (ts : list ftree) : N := sumN (map (fun t => blen (content t)) ts).
Definition tsum (ts : list ftree) : N := sumN (map (tsize X) ts).

Lemma blen_concat (l : list bytes) : blen (concat l) = sumN (map blen l).
Proof. induction l as [|a l IH]; [reflexivity|]. cbn [concat map]. rewrite blen_app, IH. reflexivity. Qed.

Lemma content_node ts : blen (content (FNode ts)) = fsum ts.
Proof. cbn [content]. rewrite blen_concat, map_map. reflexivity. Qed.

Definition links_of (ts : list ftree) : list pblink :=
  map (fun t => PBLink (Some (cid_bytes (block_cid X (block X t)))) (Some []) (Some (tsize X t))) ts.
Definition sizes_of (ts : list ftree) : list N := map (fun t => blen (content t)) ts.
Definition inner_msg (ts : list ftree) : flat :=
  Flat (links_of ts) (UnixFs File None (Some (fsum ts)) (sizes_of ts) None None None None).

Lemma node_msg_inner ts : node_msg X (map (fun t => (encoded X t, content t)) ts) = inner_msg ts.
Proof.
  unfold node_msg, inner_msg, links_of, sizes_of, fsum. rewrite !map_map. f_equal.
  - apply map_ext. intros t. unfold block, tsize. destruct (encoded X t). reflexivity.
  - f_equal; [f_equal; f_equal; apply map_ext | apply map_ext]; intros t; destruct (encoded X t); reflexivity.
Qed.

Lemma block_node ts : block X (FNode ts) = flat_write (inner_msg ts).
Proof. unfold block. cbn [encoded fst]. rewrite node_msg_inner. reflexivity. Qed.
Lemma tsize_node ts : tsize X (FNode ts) = tsum ts + blen (block X (FNode ts)).
Proof. unfold tsize, block. cbn [encoded fst snd]. reflexivity. Qed.
Lemma block_leaf d : block X (FLeaf d) = flat_write (leaf_msg d).
Proof. reflexivity. Qed.
Lemma tsize_leaf d : tsize X (FLeaf d) = blen (block X (FLeaf d)).
Proof. reflexivity. Qed.

Lemma render_node ts : render_and_hash X (inner_msg ts) = cblock_of X (FNode ts).
Proof. unfold render_and_hash, cblock_of. rewrite block_node. reflexivity. Qed.

Lemma fsum_app a b : fsum (a ++ b) = fsum a + fsum b.
Proof. unfold fsum. rewrite map_app. apply sumN_app. Qed.
Lemma tsum_app a b : tsum (a ++ b) = tsum a + tsum b.
Proof. unfold tsum. rewrite map_app. apply sumN_app. Qed.
Lemma fsum_cons t b : fsum (t :: b) = blen (content t) + fsum b.
Proof. reflexivity. Qed.
Lemma tsum_cons t b : tsum (t :: b) = tsize X t + tsum b.
Proof. reflexivity. Qed.

Lemma partition_mk level ts : forall pls bss ns nts,
  ns + fsum ts < two64 -> nts + tsum ts < two64 ->
  partition_links X level (map (mk level) ts) (pls, bss, ns, nts)
  = Ok (pls ++ links_of ts, bss ++ sizes_of ts, ns + fsum ts, nts + tsum ts).
Proof.
  induction ts as [|t ts IH]; intros pls bss ns nts H1 H2.
  - cbn. rewrite !app_nil_r, !N.add_0_r. reflexivity.
  - rewrite fsum_cons in H1. rewrite tsum_cons in H2.
    cbn [map partition_links mk k_depth k_file k_total k_target].
    rewrite Nat.eqb_refl. cbn [assert bind].
    rewrite !add64_ok by lia. cbn [bind]. rewrite IH by lia.
    rewrite fsum_cons, tsum_cons, <- !app_assoc, !N.add_assoc. reflexivity.
Qed.

Lemma position_mk_same l d ts : ts <> [] -> d = l -> position l (map (mk d) ts) = Some O.
Proof. intros H ->. destruct ts; [congruence|]. cbn. rewrite Nat.eqb_refl. reflexivity. Qed.

Lemma position_mk_other l d ts rest : d <> l ->
  position l (map (mk d) ts ++ rest) = option_map (fun i => (length ts + i)%nat) (position l rest).
Proof.
  intros H. induction ts as [|t ts IH].
  - cbn. destruct (position l rest); reflexivity.
  - cbn [map app position mk k_depth]. destruct (Nat.eqb_spec d l); [congruence|].
    rewrite IH. destruct (position l rest); reflexivity.
Qed.

Lemma position_none l d ts : d <> l -> position l (map (mk d) ts) = None.
Proof.
  intros H. rewrite <- (app_nil_r (map (mk d) ts)), position_mk_other by exact H. reflexivity.
Qed.

Lemma set_nth_mid pre x v post : set_nth (length pre) v (pre ++ x :: post) = Ok (pre ++ v :: post).
Proof.
  induction pre as [|p pre IH]; [reflexivity|].
  cbn [length app set_nth]. rewrite IH. reflexivity.
Qed.

Lemma drain_mid a j b : drain (length a) (length a + length j) (a ++ j ++ b) = Ok (a ++ b).
Proof.
  unfold drain. rewrite !app_length.
  destruct (Nat.leb_spec (length a) (length a + length j)); [|lia].
  destruct (Nat.leb_spec (length a + length j) (length a + (length j + length b))); [|lia].
  cbn [andb]. rewrite firstn_app, firstn_all, Nat.sub_diag. cbn [firstn]. rewrite app_nil_r.
  rewrite app_assoc, skipn_app, skipn_all2, app_length by (rewrite app_length; lia).
  rewrite Nat.sub_diag. reflexivity.
Qed.

Lemma skipn_len {A} (a b : list A) n : n = length a -> skipn n (a ++ b) = b.
Proof. intros ->. rewrite skipn_app, skipn_all, Nat.sub_diag. reflexivity. Qed.
Lemma firstn_len {A} (a b : list A) n : n = length a -> firstn n (a ++ b) = a.
Proof. intros ->. rewrite firstn_app, firstn_all, Nat.sub_diag. cbn. apply app_nil_r. Qed.

(** one compression step: [ts] is the group that starts at [first_at] *)
Definition fits (bf : N) (p : list link) (ts : list ftree) : Prop :=
  N.of_nat (length p) + bf < two64 /\ fsum ts < two64 /\ tsize X (FNode ts) < two64.

Lemma fits_tsum bf p ts : fits bf p ts -> tsum ts < two64.
Proof. intros (_ & _ & H). rewrite tsize_node in H. lia. Qed.

Lemma fsum_firstn n ts : fsum (firstn n ts) <= fsum ts.
Proof.
  rewrite <- (firstn_skipn n ts) at 2. rewrite fsum_app. lia.
Qed.

(** an iteration of the while loop that writes a node *)
Lemma while_step fuel bf fin level pre R lo ret sp w0 x post :
  let p := pre ++ map (mk level) R in
  let g := firstn (N.to_nat bf) R in
  let index := match lo with Some i => (i + 1)%nat | None => length pre end in
  R <> [] -> (sp <= length pre)%nat -> position level (skipn sp p) = Some (length pre - sp)%nat ->
  (fin = true \/ bf < N.of_nat (length R)) ->
  fits bf p g ->
  p = w0 ++ x :: post -> length w0 = index ->
  while_loop X (S fuel) bf fin level p sp lo ret
  = while_loop X fuel bf fin level (w0 ++ mk (level + 1) (FNode g) :: post)
      (length pre + length g) (Some index) (ret ++ [cblock_of X (FNode g)]).
Proof.
  intros p g index HR Hsp Hpos Hfin Hfits Hp Hw.
  assert (Hlen : length p = (length pre + length R)%nat) by (unfold p; rewrite app_length, map_length; reflexivity).
  pose proof (fits_tsum _ _ _ Hfits) as Hts. destruct Hfits as (F1 & F2 & F3). rewrite tsize_node in F3.
  cbn [while_loop]. rewrite Hlen.
  destruct (Nat.leb_spec sp (length pre + length R)); [|lia]. cbn [assert bind].
  rewrite Hpos.
  replace (length pre - sp + sp)%nat with (length pre) by lia.
  replace (length pre + length R - length pre)%nat with (length R) by lia.
  assert (Hc : negb fin && (N.of_nat (length R) <=? bf) = false).
  { destruct Hfin as [-> | Hb]; [reflexivity|]. destruct (N.leb_spec (N.of_nat (length R)) bf); [lia|].
    apply andb_false_r. }
  rewrite Hc. rewrite Hlen in F1.
  rewrite add64_ok by lia. cbn [bind].
  assert (Hg : length g = Nat.min (N.to_nat bf) (length R)) by (unfold g; apply firstn_length).
  replace (N.to_nat (N.min (N.of_nat (length pre) + bf) (N.of_nat (length pre + length R))))
    with (length pre + length g)%nat by lia.
  destruct (Nat.leb_spec (length pre) (length pre + length g)); [|lia]. cbn [assert bind].
  replace (length pre + length g - length pre)%nat with (length g) by lia.
  unfold p at 1. rewrite skipn_len by reflexivity.
  assert (Hf : firstn (length g) (map (mk level) R) = map (mk level) g).
  { rewrite firstn_map. f_equal. unfold g. rewrite firstn_length.
    destruct (Nat.min_spec (N.to_nat bf) (length R)) as [[_ ->] | [E ->]]; [reflexivity|].
    rewrite firstn_all, firstn_all2; [reflexivity | lia]. }
  rewrite Hf, partition_mk by (cbn [app]; lia). cbn [bind app].
  rewrite !N.add_0_l.
  fold (inner_msg g). rewrite render_node. unfold cblock_of at 1.
  rewrite add64_ok by lia. cbn [bind].
  assert (Hmk : Link (level + 1) (block_cid X (block X (FNode g))) (tsum g + blen (block X (FNode g))) (fsum g) = mk (level + 1) (FNode g)).
  { unfold mk. rewrite tsize_node, content_node. reflexivity. }
  rewrite Hmk. fold index. rewrite Hp, <- Hw, set_nth_mid. cbn [bind]. reflexivity.
Qed.

(** ** A whole level when finishing *)
Definition ret_of (N : list ftree) : list cblock := map (cblock_of X) N.

Definition pieces_fit (bf : N) (p : list link) (R : list ftree) : Prop :=
  Forall (fun g => fits bf p g) (pieces (N.to_nat bf) R).

Lemma fits_len bf p q ts : length p = length q -> fits bf p ts -> fits bf q ts.
Proof. unfold fits. intros ->. tauto. Qed.

Lemma split_at {A} n (l : list A) : (n < length l)%nat -> exists a x b, l = a ++ x :: b /\ length a = n.
Proof.
  intros H. exists (firstn n l). destruct (skipn n l) as [|x b] eqn:E.
  - apply (f_equal (@length A)) in E. rewrite skipn_length in E. cbn in E. lia.
  - exists x, b. rewrite <- E, firstn_skipn, firstn_length. split; [reflexivity | lia].
Qed.

Lemma firstn_app_le {A} n (a b : list A) : (n <= length a)%nat -> firstn n (a ++ b) = firstn n a.
Proof. intros H. rewrite firstn_app. replace (n - length a)%nat with O by lia. cbn. apply app_nil_r. Qed.

Lemma while_rest bf level : 1 <= bf -> forall R fuel pre J lo ret,
  (length R <= fuel)%nat -> (lo + 1 = length pre)%nat ->
  pieces_fit bf (pre ++ J ++ map (mk level) R) R ->
  exists J', while_loop X fuel bf true level (pre ++ J ++ map (mk level) R) (length pre + length J) (Some lo) ret
  = Ok (false, pre ++ map (mk (level + 1)) (map FNode (pieces (N.to_nat bf) R)) ++ J',
        Some (lo + length (pieces (N.to_nat bf) R))%nat,
        ret ++ ret_of (map FNode (pieces (N.to_nat bf) R))).
Proof.
  intros Hbf R. assert (Hb1 : (1 <= N.to_nat bf)%nat) by lia.
  induction R as [|R HR IH] using (pieces_ind (N.to_nat bf) Hb1); intros fuel pre J lo ret Hfuel Hlo Hfit.
  - exists J. cbn [map]. rewrite app_nil_r.
    destruct fuel; cbn [while_loop]; rewrite app_length;
    (destruct (Nat.leb_spec (length pre + length J) (length pre + length J)); [|lia]);
    cbn [assert bind];
    rewrite skipn_all2 by (rewrite app_length; lia); cbn [position];
    rewrite pieces_nil; cbn [map length ret_of app]; rewrite app_nil_r, Nat.add_0_r; reflexivity.
  - destruct fuel as [|fuel]; [destruct R; [congruence | cbn in Hfuel; lia]|].
    set (g := firstn (N.to_nat bf) R) in *.
    assert (Hg : (1 <= length g)%nat) by (unfold g; rewrite firstn_length; destruct R; [congruence | cbn [length]; lia]).
    unfold pieces_fit in Hfit. rewrite pieces_unfold in Hfit by assumption. fold g in Hfit. inv Hfit.
    destruct (split_at (length pre) ((pre ++ J) ++ map (mk level) R)) as (w0 & x & post & Hw & Hwl).
    { rewrite !app_length, map_length. destruct R; [congruence | cbn [length]; lia]. }
    assert (Hw0 : w0 = pre).
    { rewrite <- (firstn_len pre (J ++ map (mk level) R) (length pre) eq_refl).
      rewrite app_assoc, Hw. rewrite firstn_len by congruence. reflexivity. }
    subst w0.
    rewrite app_assoc in *.
    erewrite (while_step fuel bf true level (pre ++ J) R (Some lo) ret (length pre + length J)); try eassumption;
      try (left; reflexivity).
    2: rewrite app_length; lia.
    2: { rewrite app_length, Nat.sub_diag, skipn_len by (rewrite app_length; reflexivity).
         apply position_mk_same; [assumption | reflexivity]. }
    2: lia.
    fold g.
    assert (Hpost : post = firstn (length J + length g - 1) post ++ map (mk level) (skipn (N.to_nat bf) R)).
    { rewrite <- (firstn_skipn (length J + length g - 1) post) at 1. f_equal.
      assert (E : skipn (S (length pre + (length J + length g - 1))) ((pre ++ J) ++ map (mk level) R)
                  = skipn (length J + length g - 1) post).
      { rewrite Hw. rewrite skipn_app.
        rewrite skipn_all2 by lia.
        replace (S (length pre + (length J + length g - 1)) - length pre)%nat with (S (length J + length g - 1)) by lia.
        reflexivity. }
      rewrite <- E.
      replace (S (length pre + (length J + length g - 1))) with (length (pre ++ J) + length g)%nat by (rewrite app_length; lia).
      rewrite skipn_app, skipn_all2 by lia.
      replace (length (pre ++ J) + length g - length (pre ++ J))%nat with (length g) by lia. cbn [app].
      rewrite skipn_map. f_equal. unfold g. rewrite firstn_length.
      destruct (Nat.min_spec (N.to_nat bf) (length R)) as [[_ ->] | [E2 ->]]; [reflexivity|].
      rewrite skipn_all, skipn_all2; [reflexivity | lia]. }
    set (J2 := firstn (length J + length g - 1) post) in *.
    assert (HJ2 : length J2 = (length J + length g - 1)%nat).
    { unfold J2. rewrite firstn_length. apply (f_equal (@length link)) in Hw.
      rewrite !app_length in Hw. cbn [length] in Hw. rewrite map_length in Hw.
      assert (length g <= length R)%nat by (unfold g; rewrite firstn_length; lia). lia. }
    rewrite Hpost.
    replace (pre ++ mk (level + 1) (FNode g) :: J2 ++ map (mk level) (skipn (N.to_nat bf) R))
      with ((pre ++ [mk (level + 1) (FNode g)]) ++ J2 ++ map (mk level) (skipn (N.to_nat bf) R))
      by (rewrite <- app_assoc; reflexivity).
    replace (length (pre ++ J) + length g)%nat
      with (length (pre ++ [mk (level + 1) (FNode g)]) + length J2)%nat
      by (rewrite !app_length, HJ2; cbn [length]; lia).
    edestruct (IH fuel (pre ++ [mk (level + 1) (FNode g)]) J2 (lo + 1)%nat (ret ++ [cblock_of X (FNode g)])) as [J' HJ'].
    + rewrite skipn_length. destruct R; [congruence | cbn [length] in *; lia].
    + rewrite app_length. cbn [length]. lia.
    + eapply Forall_impl; [|eassumption]. intros g' Hg'. eapply fits_len; [|exact Hg'].
      rewrite Hw, Hpost, !app_length. cbn [length]. rewrite !app_length. lia.
    + exists J'. rewrite HJ'. rewrite (pieces_unfold _ R) by assumption. fold g.
      cbn [map length ret_of]. f_equal. f_equal; [f_equal; [f_equal|]|].
      * rewrite <- app_assoc. reflexivity.
      * f_equal. lia.
      * unfold ret_of. rewrite <- app_assoc. reflexivity.
Qed.

Lemma while_level bf level A R ret fuel : 1 <= bf -> R <> [] -> (length R <= fuel)%nat ->
  pieces_fit bf (map (mk (level + 1)) A ++ map (mk level) R) R ->
  exists J' lo, while_loop X fuel bf true level (map (mk (level + 1)) A ++ map (mk level) R) 0 None ret
  = Ok (false, map (mk (level + 1)) (A ++ map FNode (pieces (N.to_nat bf) R)) ++ J', Some lo,
        ret ++ ret_of (map FNode (pieces (N.to_nat bf) R)))
  /\ (lo + 1 = length A + length (pieces (N.to_nat bf) R))%nat.
Proof.
  intros Hbf HR Hfuel Hfit. assert (Hb1 : (1 <= N.to_nat bf)%nat) by lia.
  destruct fuel as [|fuel]; [destruct R; [congruence | cbn in Hfuel; lia]|].
  unfold pieces_fit in Hfit. rewrite pieces_unfold in Hfit by assumption.
  set (g := firstn (N.to_nat bf) R) in *. inv Hfit.
  assert (Hg : (1 <= length g <= length R)%nat) by (unfold g; rewrite firstn_length; destruct R; [congruence | cbn [length]; lia]).
  assert (exists r0 R0, R = r0 :: R0) as (r0 & R0 & ER) by (destruct R; [congruence | eauto]).
  assert (Hpos : position level (skipn 0 (map (mk (level + 1)) A ++ map (mk level) R)) = Some (length (map (mk (level+1)) A) - 0)%nat).
  { cbn [skipn]. rewrite position_mk_other by lia.
    rewrite position_mk_same by (subst R; congruence). cbn [option_map]. rewrite map_length. f_equal. lia. }
  erewrite (while_step fuel bf true level (map (mk (level + 1)) A) R None ret 0); try eassumption;
    try (left; reflexivity); try lia; try (subst R; cbn [map]; reflexivity); try reflexivity.
  fold g. set (pre := map (mk (level + 1)) A).
  assert (Hpost : map (mk level) R0 = firstn (length g - 1) (map (mk level) R0) ++ map (mk level) (skipn (N.to_nat bf) R)).
  { rewrite <- (firstn_skipn (length g - 1) (map (mk level) R0)) at 1. f_equal.
    rewrite skipn_map. f_equal. subst R.
    unfold g. rewrite firstn_length.
    destruct (N.to_nat bf) as [|b]; [lia|]. cbn [length skipn].
    destruct (Nat.min_spec (S b) (S (length R0))) as [[_ ->] | [E2 ->]]; cbn [Nat.sub]; rewrite Nat.sub_0_r; [reflexivity|].
    rewrite skipn_all, skipn_all2; [reflexivity | lia]. }
  set (J2 := firstn (length g - 1) (map (mk level) R0)) in *.
  assert (HJ2 : length J2 = (length g - 1)%nat).
  { unfold J2. rewrite firstn_length, map_length. subst R. cbn [length] in *. lia. }
  rewrite Hpost.
  replace (pre ++ mk (level + 1) (FNode g) :: J2 ++ map (mk level) (skipn (N.to_nat bf) R))
    with ((pre ++ [mk (level + 1) (FNode g)]) ++ J2 ++ map (mk level) (skipn (N.to_nat bf) R))
    by (rewrite <- app_assoc; reflexivity).
  replace (length pre + length g)%nat
    with (length (pre ++ [mk (level + 1) (FNode g)]) + length J2)%nat
    by (rewrite !app_length, HJ2; cbn [length]; lia).
  assert (Hsk : (length (skipn (N.to_nat bf) R) <= fuel)%nat).
  { rewrite skipn_length. lia. }
  destruct (while_rest bf level Hbf (skipn (N.to_nat bf) R) fuel (pre ++ [mk (level + 1) (FNode g)]) J2 (length pre)%nat
              (ret ++ [cblock_of X (FNode g)])) as [J' HJ'].
  - exact Hsk.
  - rewrite app_length. cbn [length]. lia.
  - eapply Forall_impl; [|eassumption]. intros g' Hg'. eapply fits_len; [|exact Hg'].
    unfold pre. rewrite !app_length, HJ2, !map_length, skipn_length. cbn [length].
    assert (length g = Nat.min (N.to_nat bf) (length R)) by (unfold g; apply firstn_length).
    lia.
  - exists J'. eexists. rewrite HJ'. rewrite (pieces_unfold _ R) by assumption. fold g.
    cbn [map length ret_of]. split.
    + f_equal. f_equal; [f_equal|].
      * f_equal. unfold pre. rewrite map_app. cbn [map]. rewrite <- !app_assoc. reflexivity.
      * unfold ret_of. rewrite <- app_assoc. reflexivity.
    + unfold pre. rewrite map_length. lia.
Qed.

(** ** Size bounds *)
Definition weight (t : ftree) : N := blen (content t) + 120 * N.of_nat (length (nodes t)).
Definition wsum (ts : list ftree) : N := sumN (map weight ts).

Lemma wsum_app a b : wsum (a ++ b) = wsum a + wsum b.
Proof. unfold wsum. rewrite map_app. apply sumN_app. Qed.
Lemma wsum_cons t b : wsum (t :: b) = weight t + wsum b.
Proof. reflexivity. Qed.

Lemma length_concat {A B} (f : A -> list B) l : N.of_nat (length (concat (map f l))) = sumN (map (fun a => N.of_nat (length (f a))) l).
Proof. induction l as [|a l IH]; [reflexivity|]. cbn [map concat]. rewrite app_length, sumN_cons. lia. Qed.

Lemma weight_node ts : weight (FNode ts) = wsum ts + 120.
Proof.
  unfold weight. rewrite content_node. cbn [nodes]. rewrite app_length. cbn [length].
  rewrite Nat2N.inj_add, length_concat. unfold wsum, weight, fsum.
  induction ts as [|t ts IH]; [reflexivity|]. cbn [map]. rewrite !sumN_cons. lia.
Qed.

Lemma cid_len (HX : ext_ok X) b : blen (cid_bytes (block_cid X b)) = 36.
Proof.
  unfold block_cid, cid_bytes. cbn [cid_v1 cid_codec cid_code cid_digest]. unfold mh_bytes.
  cbn [cid_code cid_digest].
  assert (E : blen (ext_sha256 X b) = 32) by (unfold blen; rewrite (sha_len _ HX); reflexivity).
  rewrite E, !blen_app, E. reflexivity.
Qed.

Lemma varint_le v : blen (write_varint v) <= 10.
Proof. rewrite <- sizeof_write. pose proof (sizeof_varint_le v). lia. Qed.

Lemma link_write_len (HX : ext_ok X) t :
  blen (pblink_write (PBLink (Some (cid_bytes (block_cid X (block X t)))) (Some []) (Some (tsize X t)))) <= 51.
Proof.
  unfold pblink_write. cbn [l_hash l_name l_tsize opt].
  rewrite !blen_app, !tag_size by lia. unfold write_bytes. rewrite !blen_app, !cid_len by exact HX.
  pose proof (varint_le (tsize X t)).
  assert (E1 : blen (write_varint 36) = 1) by reflexivity.
  assert (E2 : blen (write_varint (blen [])) = 1) by reflexivity.
  rewrite E1, E2. change (blen []) with 0. lia.
Qed.

Lemma block_leaf_len d : blen (block X (FLeaf d)) <= blen d + 40.
Proof.
  rewrite block_leaf. unfold flat_write, leaf_msg. cbn [f_links f_data map concat app].
  rewrite tag_size by lia. unfold write_message. rewrite blen_app, unixfs_size_ok.
  set (u := UnixFs _ _ _ _ _ _ _ _).
  assert (H : blen (unixfs_write u) <= blen d + 25).
  { unfold u, unixfs_write. cbn [u_type u_data u_filesize u_blocksizes u_hashtype u_fanout u_mode u_mtime opt map concat].
    rewrite !app_nil_r, !blen_app, !tag_size by lia.
    pose proof (varint_le (blen d)).
    assert (E1 : blen (write_varint (ftype_num File)) = 1) by reflexivity. rewrite E1.
    destruct d as [|x d]; cbn [opt].
    - change (blen []) with 0 in *. lia.
    - rewrite tag_size by lia. unfold write_bytes. rewrite blen_app. lia. }
  pose proof (varint_le (blen (unixfs_write u))). lia.
Qed.

Lemma block_node_len (HX : ext_ok X) ts : blen (block X (FNode ts)) <= 80 * N.of_nat (length ts) + 40.
Proof.
  rewrite block_node. unfold flat_write, inner_msg. cbn [f_links f_data].
  rewrite blen_app, tag_size by lia. unfold write_message at 2. rewrite blen_app, unixfs_size_ok.
  set (u := UnixFs _ _ _ _ _ _ _ _).
  assert (H : blen (unixfs_write u) <= 11 * N.of_nat (length ts) + 13).
  { unfold u, unixfs_write. cbn [u_type u_data u_filesize u_blocksizes u_hashtype u_fanout u_mode u_mtime opt app].
    rewrite !app_nil_r, !blen_app, !tag_size by lia.
    pose proof (varint_le (fsum ts)).
    assert (E1 : blen (write_varint (ftype_num File)) = 1) by reflexivity. rewrite E1.
    assert (H2 : blen (concat (map (fun v => write_with_tag 32 (write_varint v)) (sizes_of ts))) <= 11 * N.of_nat (length ts)).
    { unfold sizes_of. rewrite map_map. clear. induction ts as [|t ts IH]; [cbn; lia|].
      cbn [map concat length]. rewrite blen_app, tag_size by lia. pose proof (varint_le (blen (content t))). lia. }
    lia. }
  assert (H3 : blen (concat (map (fun l => write_with_tag 18 (write_message (pblink_size l) (pblink_write l))) (links_of ts)))
          <= 62 * N.of_nat (length ts)).
  { clear u H. unfold links_of. rewrite map_map. induction ts as [|t ts IH]; [cbn; lia|].
    cbn [map concat length]. rewrite blen_app, tag_size by lia. unfold write_message at 1. rewrite blen_app.
    pose proof (link_write_len HX t).
    pose proof (varint_le (pblink_size (PBLink (Some (cid_bytes (block_cid X (block X t)))) (Some []) (Some (tsize X t))))).
    lia. }
  pose proof (varint_le (blen (unixfs_write u))). lia.
Qed.

Lemma tsize_weight (HX : ext_ok X) t : tsize X t + 80 <= weight t.
Proof.
  induction t as [d|ts IH] using ftree_ind'.
  - rewrite tsize_leaf. unfold weight. cbn [content nodes length]. pose proof (block_leaf_len d). lia.
  - rewrite tsize_node, weight_node. pose proof (block_node_len HX ts).
    assert (tsum ts + 80 * N.of_nat (length ts) <= wsum ts).
    { clear H. induction IH as [|t ts H1 H2 IH2]; [cbn; lia|].
      rewrite tsum_cons, wsum_cons. cbn [length]. lia. }
    lia.
Qed.

Lemma fsum_weight ts : fsum ts <= wsum ts.
Proof. induction ts as [|t ts IH]; [cbn; lia|]. rewrite fsum_cons, wsum_cons. unfold weight. lia. Qed.

Lemma fits_of (HX : ext_ok X) bf p ts : N.of_nat (length p) + bf < two64 -> wsum ts + 120 < two64 -> fits bf p ts.
Proof.
  intros H1 H2. pose proof (tsize_weight HX (FNode ts)) as H. rewrite weight_node in H.
  pose proof (fsum_weight ts). unfold fits. lia.
Qed.

Lemma pieces_fit_of (HX : ext_ok X) bf p R : 1 <= bf -> N.of_nat (length p) + bf < two64 -> wsum R + 120 < two64 ->
  pieces_fit bf p R.
Proof.
  intros Hbf H1. assert (Hb1 : (1 <= N.to_nat bf)%nat) by lia.
  unfold pieces_fit. induction R as [|R HR IH] using (pieces_ind (N.to_nat bf) Hb1); intros H2.
  - constructor.
  - rewrite pieces_unfold by assumption.
    rewrite <- (firstn_skipn (N.to_nat bf) R), wsum_app in H2.
    constructor; [apply fits_of; [exact HX | lia | lia] | apply IH; lia].
Qed.

(** ** Order in which blocks are written *)
(** [builds have new]: writing [new] in order, when the blocks of [have] are
    already written, never writes a node before its children *)
Inductive builds : list ftree -> list ftree -> Prop :=
| builds_nil : forall h, builds h []
| builds_cons : forall h t N, (forall cs, t = FNode cs -> incl cs h) ->
    builds (h ++ [t]) N -> builds h (t :: N).

Lemma builds_incl h N : builds h N -> forall h', incl h h' -> builds h' N.
Proof.
  induction 1 as [|h t N H1 H2 IH]; intros h' Hi; constructor.
  - intros cs E. eapply incl_tran; [apply H1, E | exact Hi].
  - apply IH. apply incl_app; [apply incl_appl, Hi | apply incl_appr, incl_refl].
Qed.

Lemma builds_app h N1 N2 : builds h N1 -> builds (h ++ N1) N2 -> builds h (N1 ++ N2).
Proof.
  induction 1 as [|h t N H1 H2 IH]; intros H; cbn [app].
  - rewrite app_nil_r in H. exact H.
  - constructor; [exact H1|]. apply IH. rewrite <- app_assoc. exact H.
Qed.

Lemma builds_groups h gs : (forall g, In g gs -> incl g h) -> builds h (map FNode gs).
Proof.
  revert h. induction gs as [|g gs IH]; intros h H; cbn [map]; constructor.
  - intros cs E. inv E. apply H. left. reflexivity.
  - apply IH. intros g' Hg'. apply incl_appl. apply H. right. exact Hg'.
Qed.

Lemma builds_split h N : builds h N -> forall p cs s, N = p ++ FNode cs :: s -> incl cs (h ++ p).
Proof.
  induction 1 as [|h t N H1 H2 IH]; intros p cs s E.
  - destruct p; discriminate.
  - destruct p as [|t' p]; cbn [app] in E; inv E.
    + rewrite app_nil_r. apply H1. reflexivity.
    + specialize (IH p cs s eq_refl). rewrite <- app_assoc in IH. exact IH.
Qed.

Definition all_nodes (ts : list ftree) : list ftree := concat (map nodes ts).

Lemma all_nodes_app a b : all_nodes (a ++ b) = all_nodes a ++ all_nodes b.
Proof. unfold all_nodes. rewrite map_app, concat_app. reflexivity. Qed.

Lemma all_nodes_groups gs : Permutation (all_nodes (map FNode gs)) (all_nodes (concat gs) ++ map FNode gs).
Proof.
  induction gs as [|g gs IH]; [constructor|].
  cbn [map concat]. rewrite all_nodes_app. unfold all_nodes at 1. cbn [map concat nodes].
  fold (all_nodes g). fold (all_nodes (map FNode gs)).
  rewrite IH. rewrite <- !app_assoc. apply Permutation_app_head.
  cbn [app]. rewrite (Permutation_app_comm (all_nodes (concat gs)) (FNode g :: map FNode gs)). cbn [app].
  constructor. apply Permutation_app_comm.
Qed.

Lemma nodes_self t : In t (nodes t).
Proof. destruct t; cbn [nodes]; [left; reflexivity | apply in_or_app; right; left; reflexivity]. Qed.

Lemma self_all ts : incl ts (all_nodes ts).
Proof.
  intros t H. unfold all_nodes. apply in_concat. exists (nodes t). split; [apply in_map, H | apply nodes_self].
Qed.

(** ** finish: levels until one link is left *)
Definition phi (ts : list ftree) : N := wsum ts + 240 * N.of_nat (length ts).

Lemma wsum_groups gs : wsum (map FNode gs) = wsum (concat gs) + 120 * N.of_nat (length gs).
Proof.
  induction gs as [|g gs IH]; [reflexivity|].
  cbn [map concat length]. rewrite wsum_cons, wsum_app, weight_node, IH. lia.
Qed.

Lemma phi_level b ts : (2 <= b)%nat -> (2 <= length ts)%nat -> phi (map FNode (pieces b ts)) <= phi ts.
Proof.
  intros Hb Hl. destruct (pieces_count b ts Hb Hl) as [_ H].
  unfold phi. rewrite map_length, wsum_groups, concat_pieces by lia. lia.
Qed.

Lemma outer_stop bf level p ret fuel : length p = 1%nat -> outer_loop X fuel bf true level p ret = Ok (p, ret).
Proof. intros H. destruct fuel; cbn [outer_loop]; rewrite H; reflexivity. Qed.

Lemma outer_level fuel bf level A R ret : 1 <= bf -> R <> [] -> (2 <= length A + length R)%nat ->
  pieces_fit bf (map (mk (level + 1)) A ++ map (mk level) R) R ->
  let Q := map FNode (pieces (N.to_nat bf) R) in
  outer_loop X (S fuel) bf true level (map (mk (level + 1)) A ++ map (mk level) R) ret
  = outer_loop X fuel bf true (S level) (map (mk (S level)) (A ++ Q)) (ret ++ ret_of Q).
Proof.
  intros Hbf HR Hl Hfit Q. cbn [outer_loop].
  rewrite app_length, !map_length.
  destruct (Nat.eqb_spec (length A + length R) 1); [lia|]. cbn [andb orb negb].
  rewrite andb_false_r.
  destruct (while_level bf level A R ret (S (length A + length R)) Hbf HR) as (J' & lo & E & Hlo); [lia | exact Hfit |].
  rewrite E. cbn [bind].
  replace (level + 1)%nat with (S level) by lia. fold Q.
  rewrite firstn_len by (rewrite map_length, app_length; unfold Q; rewrite map_length; lia).
  rewrite position_none by lia. unfold dassert. destruct (ext_dbg X); reflexivity.
Qed.

Lemma outer_finish (HX : ext_ok X) bf : 2 <= bf -> forall n ts level ret fuel,
  (length ts <= n)%nat -> ts <> [] -> (length ts <= fuel)%nat ->
  phi ts < two63 -> bf < two63 ->
  exists r level' N,
    outer_loop X fuel bf true level (map (mk level) ts) ret = Ok ([mk level' r], ret ++ ret_of N)
    /\ balanced (N.to_nat bf) ts r
    /\ Permutation (all_nodes ts ++ N) (nodes r)
    /\ builds ts N
    /\ (ts = [r] /\ N = [] \/ exists N', N = N' ++ [r])
    /\ upper (N.to_nat bf) ts N.
Proof.
  intros Hbf. induction n as [|n IH]; intros ts level ret fuel Hn Hne Hf Hphi Hb.
  - destruct ts; [congruence | cbn in Hn; lia].
  - destruct (Nat.eq_dec (length ts) 1) as [H1|H1].
    + destruct ts as [|t [|? ?]]; cbn in H1; try lia.
      exists t, level, []. rewrite outer_stop by reflexivity. cbn [map ret_of]. rewrite app_nil_r.
      split; [reflexivity|]. split; [constructor|]. split.
      { unfold all_nodes. cbn [map concat]. rewrite !app_nil_r. reflexivity. }
      split; [constructor|]. split; [left; split; reflexivity | constructor].
    + assert (H2 : (2 <= length ts)%nat) by (destruct ts as [|? [|? ?]]; cbn in *; [congruence | lia | lia]).
      assert (Hb2 : (2 <= N.to_nat bf)%nat) by lia.
      destruct fuel as [|fuel]; [lia|].
      destruct (pieces_count (N.to_nat bf) ts Hb2 H2) as [Hp1 Hp2].
      set (Q := map FNode (pieces (N.to_nat bf) ts)).
      pose proof (outer_level fuel bf level [] ts ret) as HL. cbn [map app length] in HL. fold Q in HL.
      rewrite HL; [| lia | assumption | lia |].
      2: { apply pieces_fit_of; [exact HX | lia | |]; rewrite ?map_length; unfold phi in Hphi;
           change two64 with (2 * two63); lia. }
      destruct (IH Q (S level) (ret ++ ret_of Q) fuel) as (r & lv & N & E & B & P & O & LN & UP).
      * unfold Q. rewrite map_length. lia.
      * unfold Q. intros E. apply (f_equal (@length ftree)) in E. rewrite map_length in E. cbn [length] in E. lia.
      * unfold Q. rewrite map_length. lia.
      * eapply N.le_lt_trans; [apply phi_level; assumption | exact Hphi].
      * exact Hb.
      * assert (HQ : builds ts Q).
        { apply builds_groups. intros g Hg. intros x Hx.
          rewrite <- (concat_pieces (N.to_nat bf) ts) by lia. apply in_concat. eauto. }
        exists r, lv, (Q ++ N). split.
        { rewrite E. unfold ret_of. rewrite map_app, <- app_assoc. reflexivity. }
        split; [apply bal_level; assumption|].
        split.
        { rewrite app_assoc. rewrite <- P. apply Permutation_app_tail.
          unfold Q. rewrite all_nodes_groups, concat_pieces by lia. reflexivity. }
        split.
        { apply builds_app; [exact HQ|]. eapply builds_incl; [exact O|]. apply incl_appr, incl_refl. }
        split; [|apply upper_level; [exact H2 | exact UP]].
        right. destruct LN as [[E1 E2]|[N' E1]].
        { subst N. rewrite E1. exists []. reflexivity. }
        { subst N. exists (Q ++ N'). rewrite app_assoc. reflexivity. }
Qed.

(** ** Pushing: the state as a function of the complete chunks *)
Definition astate : Type := list (list ftree) * list ftree * list ftree.
Definition feed (b : nat) (s : astate) (d : bytes) : astate :=
  let '(gs, ls, out) := s in
  if Nat.ltb (length ls) b then (gs, ls ++ [FLeaf d], out ++ [FLeaf d])
  else (gs ++ [ls], [FLeaf d], out ++ [FLeaf d; FNode ls]).
Definition run (b : nat) (full : list bytes) : astate := fold_left (feed b) full ([], [], []).

Definition run_ok (b : nat) (full : list bytes) (s : astate) : Prop :=
  let '(gs, ls, out) := s in
  concat gs ++ ls = map FLeaf full
  /\ Forall (fun g => length g = b) gs
  /\ (length ls <= b)%nat
  /\ (full <> [] -> ls <> [])
  /\ builds [] out
  /\ Permutation out (all_nodes (map FNode gs ++ ls)).

Lemma run_snoc b full d : run b (full ++ [d]) = feed b (run b full) d.
Proof. unfold run. rewrite fold_left_app. reflexivity. Qed.

Lemma run_inv b full : (1 <= b)%nat -> run_ok b full (run b full).
Proof.
  intros Hb. induction full as [|d full IH] using rev_ind.
  - cbn. repeat split; try constructor; try lia. congruence.
  - rewrite run_snoc. destruct (run b full) as [[gs ls] out]. cbn [run_ok] in *. unfold feed.
    destruct IH as (H1 & H2 & H3 & H4 & H5 & H6).
    destruct (Nat.ltb_spec (length ls) b) as [Hlt|Hge]; cbn [run_ok]; rewrite (map_app FLeaf full [d]); cbn [map].
    + split; [rewrite app_assoc, H1; reflexivity|]. split; [exact H2|].
      split; [rewrite app_length; cbn [length]; lia|].
      split; [intros _; destruct ls; discriminate|].
      split.
      { apply builds_app; [exact H5|]. constructor; [discriminate | constructor]. }
      { rewrite app_assoc, all_nodes_app. apply Permutation_app; [exact H6 | reflexivity]. }
    + assert (length ls = b) by lia.
      split.
      { rewrite concat_app. cbn [concat]. rewrite app_nil_r, H1. reflexivity. }
      split; [apply Forall_app; split; [exact H2 | constructor; [assumption | constructor]]|].
      split; [cbn; lia|]. split; [discriminate|].
      split.
      { apply builds_app; [exact H5|]. constructor; [discriminate|]. constructor; [|constructor].
        intros cs E. inv E. cbn [app]. intros x Hx. apply in_or_app. left.
        apply (Permutation_in _ (Permutation_sym H6)). rewrite all_nodes_app. apply in_or_app. right.
        apply self_all, Hx. }
      { rewrite map_app, <- app_assoc. cbn [map app].
        rewrite H6, !all_nodes_app, <- app_assoc. apply Permutation_app_head.
        unfold all_nodes at 2. cbn [map concat nodes]. fold (all_nodes ls). cbn [app].
        rewrite <- app_assoc. cbn [app]. apply Permutation_app_head.
        apply perm_swap. }
Qed.

Definition links_state (s : astate) : list link :=
  let '(gs, ls, _) := s in map (mk 1) (map FNode gs) ++ map (mk 0) ls.

(** flush_links when not finishing *)
Lemma flush_no bf gs ls : 1 <= bf -> ls <> [] -> N.of_nat (length ls) <= bf ->
  flush_links X bf (map (mk 1) gs ++ map (mk 0) ls) false = Ok (map (mk 1) gs ++ map (mk 0) ls, []).
Proof.
  intros Hbf Hls Hle. unfold flush_links, flush_links_fuel. cbn [outer_loop].
  set (p := map (mk 1) gs ++ map (mk 0) ls).
  assert (Hlen : length p = (length gs + length ls)%nat) by (unfold p; rewrite app_length, !map_length; reflexivity).
  rewrite andb_false_r. cbn [orb].
  destruct (N.leb_spec (N.of_nat (length p)) bf) as [H|H]; [reflexivity|]. cbn [andb negb].
  cbn [while_loop skipn]. cbn [Nat.leb assert bind].
  unfold p at 1. rewrite position_mk_other by lia. rewrite position_mk_same by (auto). cbn [option_map].
  rewrite !Nat.add_0_r, Hlen.
  replace (length gs + length ls - length gs)%nat with (length ls) by lia.
  destruct (N.leb_spec (N.of_nat (length ls)) bf); [|lia]. cbn [negb andb bind].
  reflexivity.
Qed.

Lemma flush_one (HX : ext_ok X) bf gs ls d : 1 <= bf -> length ls = N.to_nat bf ->
  N.of_nat (length gs + length ls + 1) + bf < two64 -> wsum ls + 120 < two64 ->
  flush_links X bf (map (mk 1) gs ++ map (mk 0) (ls ++ [FLeaf d])) false
  = Ok (map (mk 1) (gs ++ [FNode ls]) ++ map (mk 0) [FLeaf d], [cblock_of X (FNode ls)]).
Proof.
  intros Hbf Hls Hb Hw. unfold flush_links, flush_links_fuel. cbn [outer_loop].
  set (p := map (mk 1) gs ++ map (mk 0) (ls ++ [FLeaf d])).
  assert (Hlen : length p = (length gs + length ls + 1)%nat)
    by (unfold p; rewrite app_length, !map_length, app_length; cbn; lia).
  rewrite andb_false_r. cbn [orb].
  destruct (N.leb_spec (N.of_nat (length p)) bf) as [H|H]; [lia|]. cbn [andb negb].
  assert (exists l0 ls0, ls = l0 :: ls0) as (l0 & ls0 & Els) by (destruct ls; [cbn in Hls; lia | eauto]).
  assert (Hg : firstn (N.to_nat bf) (ls ++ [FLeaf d]) = ls) by (rewrite firstn_len by congruence; reflexivity).
  rewrite Hlen. unfold p.
  rewrite (while_step (length gs + length ls + 1) bf false 0 (map (mk 1) gs) (ls ++ [FLeaf d]) None [] 0
             (map (mk 1) gs) (mk 0 l0) (map (mk 0) (ls0 ++ [FLeaf d]))).
  - rewrite Hg.
    replace (length gs + length ls + 1)%nat with (S (length gs + length ls)) by lia.
    cbn [while_loop].
    replace (map (mk 1) gs ++ mk (0 + 1) (FNode ls) :: map (mk 0) (ls0 ++ [FLeaf d]))
      with ((map (mk 1) (gs ++ [FNode ls]) ++ map (mk 0) ls0) ++ [mk 0 (FLeaf d)])
      by (rewrite !map_app, <- !app_assoc; reflexivity).
    set (q := map (mk 1) (gs ++ [FNode ls])).
    assert (Hq : length q = S (length gs)) by (unfold q; rewrite map_length, app_length; cbn; lia).
    assert (Hq2 : length ((q ++ map (mk 0) ls0) ++ [mk 0 (FLeaf d)]) = (length gs + length ls + 1)%nat).
    { rewrite !app_length, map_length, Hq, Els. cbn [length]. lia. }
    rewrite Hq2, map_length.
    destruct (Nat.leb_spec (length gs + length ls) (length gs + length ls + 1)); [|lia]. cbn [assert bind].
    rewrite skipn_len by (rewrite app_length, map_length, Hq, Els; cbn [length]; lia).
    cbn [position mk k_depth Nat.eqb]. cbn [Nat.add].
    replace (length gs + length ls + 1 - (length gs + length ls))%nat with 1%nat by lia.
    destruct (N.leb_spec (N.of_nat 1) bf); [|lia]. cbn [negb andb].
    replace (length gs + 1)%nat with (length q) by lia.
    replace (length gs + length ls)%nat with (length q + length (map (mk 0) ls0))%nat
      by (rewrite map_length, Hq, Els; cbn [length]; lia).
    rewrite <- app_assoc, drain_mid. cbn [bind]. reflexivity.
  - destruct ls; discriminate.
  - lia.
  - cbn [skipn]. rewrite position_mk_other by lia. rewrite position_mk_same by (try (destruct ls; discriminate); reflexivity).
    cbn [option_map]. rewrite map_length. f_equal. lia.
  - right. rewrite app_length. cbn [length]. lia.
  - rewrite Hg. apply fits_of; [exact HX | fold p; rewrite Hlen; exact Hb | exact Hw].
  - rewrite Els. reflexivity.
  - reflexivity.
Qed.

(** ** The state after any session *)
Definition state_ok (chunk bf : N) (c : bytes) (a : adder) (out : list cblock) : Prop :=
  exists (full : list bytes) (rest : bytes),
    c = concat full ++ rest
    /\ Forall (fun d => blen d = chunk) full
    /\ blen rest < chunk
    /\ a = Adder chunk bf rest (links_state (run (N.to_nat bf) full))
    /\ out = ret_of (snd (run (N.to_nat bf) full)).

Lemma app_inj_len {A} (a b c d : list A) : length a = length c -> a ++ b = c ++ d -> a = c /\ b = d.
Proof.
  revert c. induction a as [|x a IH]; intros [|y c] H E; cbn in *; try lia; [auto|].
  inv E. destruct (IH c) as [-> ->]; [lia | assumption | auto].
Qed.

Lemma full_unique chunk (full1 : list bytes) : forall rest1 full2 rest2,
  Forall (fun d => blen d = chunk) full1 -> Forall (fun d => blen d = chunk) full2 ->
  blen rest1 < chunk -> blen rest2 < chunk ->
  concat full1 ++ rest1 = concat full2 ++ rest2 -> full1 = full2 /\ rest1 = rest2.
Proof.
  induction full1 as [|d1 full1 IH]; intros rest1 [|d2 full2] rest2 H1 H2 H3 H4 E; cbn [concat app] in *.
  - auto.
  - apply Forall_inv in H2. exfalso. subst rest1. rewrite !blen_app in H3. lia.
  - apply Forall_inv in H1. exfalso. subst rest2. rewrite !blen_app in H4. lia.
  - inversion H1; inversion H2. rewrite <- !app_assoc in E. apply app_inj_len in E as [-> E]; [|unfold blen in *; lia].
    apply IH in E as [-> ->]; auto.
Qed.

Lemma state_unique chunk bf c a1 out1 a2 out2 :
  state_ok chunk bf c a1 out1 -> state_ok chunk bf c a2 out2 -> a1 = a2 /\ out1 = out2.
Proof.
  intros (f1 & r1 & E1 & A1 & B1 & -> & ->) (f2 & r2 & E2 & A2 & B2 & -> & ->). subst c.
  destruct (full_unique chunk f1 r1 f2 r2 A1 A2 B1 B2 E2) as [-> ->]. auto.
Qed.

Lemma state_init chunk bf : 1 <= chunk -> state_ok chunk bf [] (Adder chunk bf [] []) [].
Proof.
  intros H. exists [], []. cbn. repeat split; [constructor | lia].
Qed.

Lemma full_len chunk (full : list bytes) : 1 <= chunk -> Forall (fun d => blen d = chunk) full ->
  N.of_nat (length full) <= blen (concat full).
Proof.
  intros Hc. induction 1 as [|d full H1 H2 IH]; [cbn; lia|]. cbn [concat length]. rewrite blen_app. lia.
Qed.

Lemma full_blen chunk (full : list bytes) : Forall (fun d => blen d = chunk) full ->
  blen (concat full) = N.of_nat (length full) * chunk.
Proof.
  induction 1 as [|d full H1 H2 IH]; [reflexivity|]. cbn [concat length]. rewrite blen_app, IH. lia.
Qed.

Lemma all_nodes_leaves full : all_nodes (map FLeaf full) = map FLeaf full.
Proof.
  unfold all_nodes. induction full as [|d full IH]; [reflexivity|]. cbn [map concat nodes app]. f_equal. exact IH.
Qed.

Lemma wsum_leaves full : wsum (map FLeaf full) = blen (concat full) + 120 * N.of_nat (length full).
Proof.
  induction full as [|d full IH]; [reflexivity|]. cbn [map concat length].
  rewrite wsum_cons, blen_app, IH. unfold weight. cbn [content nodes length]. lia.
Qed.

Lemma mk_leaf d : Link 0 (block_cid X (flat_write (leaf_msg d))) (blen (flat_write (leaf_msg d))) (blen d) = mk 0 (FLeaf d).
Proof. reflexivity. Qed.

Lemma flush_leaf (d : bytes) links fin : d <> [] \/ (fin = true /\ links = []) ->
  flush_buffered_leaf X d links fin = (Some (cblock_of X (FLeaf d)), links ++ [mk 0 (FLeaf d)]).
Proof.
  intros H. unfold flush_buffered_leaf.
  assert (E : (blen d =? 0) && (negb fin || negb (Nat.eqb (length links) 0)) = false).
  { destruct d as [|x d].
    - destruct H as [H|[-> ->]]; [congruence|]. reflexivity.
    - rewrite blen_cons. destruct (N.eqb_spec (1 + blen d) 0); [lia | reflexivity]. }
  rewrite E. unfold render_and_hash.
  assert (E2 : (blen d =? 0) = match d with [] => true | _ => false end).
  { destruct d as [|x d]; [reflexivity|]. rewrite blen_cons. destruct (N.eqb_spec (1 + blen d) 0); [lia | reflexivity]. }
  rewrite E2. destruct d as [|x d]; reflexivity.
Qed.

(** emitting one complete chunk *)
Lemma flush_feed (HX : ext_ok X) bf (full : list bytes) (d : bytes) : 1 <= bf < two63 -> blen (concat full ++ d) <= max_content ->
  N.of_nat (length full) <= max_content ->
  d <> [] ->
  exists links' blocks,
    flush_links X bf (links_state (run (N.to_nat bf) full) ++ [mk 0 (FLeaf d)]) false = Ok (links', blocks)
    /\ links' = links_state (run (N.to_nat bf) (full ++ [d]))
    /\ ret_of (snd (run (N.to_nat bf) (full ++ [d]))) = ret_of (snd (run (N.to_nat bf) full)) ++ cblock_of X (FLeaf d) :: blocks
    /\ (blocks = [] \/ exists ts, blocks = [cblock_of X (FNode ts)]).
Proof.
  intros Hbf Hc Hfl Hd. rewrite run_snoc.
  assert (Hb1 : (1 <= N.to_nat bf)%nat) by (destruct Hbf as [Hbf _]; clear - Hbf; lia).
  pose proof (run_inv (N.to_nat bf) full Hb1) as Hr.
  destruct (run (N.to_nat bf) full) as [[gs ls] out]. cbn [run_ok snd links_state feed] in *.
  destruct Hr as (H1 & H2 & H3 & H4 & H5 & H6).
  assert (Hw : wsum (concat gs) + wsum ls <= 121 * max_content).
  { rewrite <- wsum_app, H1, wsum_leaves. rewrite blen_app in Hc. lia. }
  assert (Hlen : (length gs + length ls <= length full)%nat).
  { apply (f_equal (@length ftree)) in H1. rewrite app_length, map_length in H1.
    assert (length gs <= length (concat gs))%nat.
    { clear - H2 Hbf. induction H2 as [|g gs E H IH]; [cbn; lia|]. cbn [concat length]. rewrite app_length. lia. }
    lia. }
  unfold max_content, two63 in *.
  destruct (Nat.ltb_spec (length ls) (N.to_nat bf)).
  - exists (map (mk 1) (map FNode gs) ++ map (mk 0) (ls ++ [FLeaf d])), [].
    split; [|cbn [snd links_state]; split; [reflexivity|]; split; [unfold ret_of; rewrite map_app; reflexivity | left; reflexivity]].
    rewrite <- app_assoc. change [mk 0 (FLeaf d)] with (map (mk 0) [FLeaf d]). rewrite <- map_app.
    apply flush_no; [lia | destruct ls; discriminate | rewrite app_length; cbn [length]; lia].
  - exists (map (mk 1) (map FNode gs ++ [FNode ls]) ++ map (mk 0) [FLeaf d]), [cblock_of X (FNode ls)].
    cbn [snd links_state]. split.
    + rewrite <- app_assoc. change [mk 0 (FLeaf d)] with (map (mk 0) [FLeaf d]). rewrite <- map_app.
      apply flush_one; [exact HX | lia | lia | rewrite map_length; unfold two64; lia | unfold two64; lia].
    + split; [rewrite (map_app FNode); reflexivity|]. split; [unfold ret_of; rewrite map_app; reflexivity | right; eauto].
Qed.

(** nothing, a leaf, or a leaf and a link block *)
Definition blocks_shape (bs : list cblock) : Prop :=
  bs = [] \/ (exists d, bs = [cblock_of X (FLeaf d)])
  \/ exists d ts, bs = [cblock_of X (FLeaf d); cblock_of X (FNode ts)].

Lemma firstn_min {A} (l : list A) n k : n = Nat.min (length l) k -> firstn n l = firstn k l.
Proof.
  intros ->. destruct (Nat.min_spec (length l) k) as [[H ->]|[H ->]]; [|reflexivity].
  rewrite firstn_all, firstn_all2 by lia. reflexivity.
Qed.

Lemma push_spec (HX : ext_ok X) chunk bf c a out input :
  cfg_ok chunk bf -> state_ok chunk bf c a out -> blen c + blen input <= max_content ->
  let n := N.min (blen input) (chunk - blen (a_buf a)) in
  exists a' bs, push X a input = Ok (a', bs, n)
    /\ state_ok chunk bf (c ++ firstn (N.to_nat n) input) a' (out ++ bs)
    /\ blocks_shape bs
    /\ blen (a_buf a) = blen c mod chunk.
Proof.
  intros [Hchunk Hbf] (full & rest & Ec & Hfull & Hrest & Ea & Eo) Hc n. subst n.
  rewrite Ea in *. cbn [a_buf] in *. set (n := N.min (blen input) (chunk - blen rest)). unfold push. cbn [a_chunk a_buf a_links a_bf]. unfold accept.
  rewrite sub64_ok by lia. cbn [bind]. fold n.
  assert (Hn : n <= chunk - blen rest) by (unfold n; lia).
  assert (Hn2 : n <= blen input) by (unfold n; lia).
  rewrite add64_ok by lia. cbn [bind].
  set (acc := firstn (N.to_nat n) input).
  assert (Hacc : blen acc = n) by (unfold acc, blen; rewrite firstn_length; unfold n, blen; lia).
  assert (Hblen : blen (concat full ++ rest) + blen input <= max_content) by (rewrite <- Ec; exact Hc).
  rewrite blen_app in Hblen.
  assert (Hmod : blen rest = blen c mod chunk).
  { rewrite Ec, blen_app, (full_blen chunk full Hfull).
    rewrite N.add_comm, N.mod_add by lia. symmetry. apply N.mod_small. exact Hrest. }
  assert (Hfl : N.of_nat (length full) <= max_content).
  { pose proof (full_len chunk full ltac:(lia) Hfull). lia. }
  assert (HS : forall (nd : bytes), nd = rest ++ acc -> blen nd = chunk ->
    exists links' blocks,
    flush_links X bf (links_state (run (N.to_nat bf) full) ++ [mk 0 (FLeaf nd)]) false = Ok (links', blocks)
    /\ state_ok chunk bf (c ++ acc) (Adder chunk bf [] links') (out ++ cblock_of X (FLeaf nd) :: blocks)
    /\ (blocks = [] \/ exists ts, blocks = [cblock_of X (FNode ts)])).
  { intros nd End Hnd.
    destruct (flush_feed HX bf full nd) as (links' & blocks & F1 & F2 & F3 & F4).
    - lia.
    - rewrite blen_app, End, blen_app, Hacc. lia.
    - exact Hfl.
    - intros ->. rewrite blen_nil in Hnd. lia.
    - exists links', blocks. split; [exact F1|]. split; [|exact F4].
      exists (full ++ [nd]), []. split.
      { rewrite Ec, concat_app, End. cbn [concat]. rewrite !app_nil_r, <- app_assoc. reflexivity. }
      split; [apply Forall_app; split; [exact Hfull | constructor; [exact Hnd | constructor]]|].
      split; [rewrite blen_nil; lia|]. split; [congruence|]. rewrite F3, Eo. reflexivity. }
  destruct (N.leb_spec chunk (blen rest + n)) as [Hr|Hr].
  - (* ready *)
    assert (Hex : exists links' blocks,
      flush_links X bf (links_state (run (N.to_nat bf) full) ++ [mk 0 (FLeaf (rest ++ acc))]) false = Ok (links', blocks)
      /\ state_ok chunk bf (c ++ acc) (Adder chunk bf [] links') (out ++ cblock_of X (FLeaf (rest ++ acc)) :: blocks)
      /\ (blocks = [] \/ exists ts, blocks = [cblock_of X (FNode ts)])).
    { apply HS; [reflexivity|]. rewrite blen_app, Hacc. lia. }
    destruct Hex as (links' & blocks & F1 & F2 & F3).
    exists (Adder chunk bf [] links'), (cblock_of X (FLeaf (rest ++ acc)) :: blocks).
    assert (Hne : rest ++ acc <> []).
    { intros E. apply (f_equal blen) in E. rewrite blen_app, Hacc, blen_nil in E. lia. }
    split.
    + destruct (N.eqb_spec (blen rest) 0) as [Hz|Hz]; cbn [andb negb].
      * apply blen_0 in Hz. subst rest. cbn [app] in *.
        rewrite flush_leaf by (left; exact Hne). rewrite F1. cbn [bind]. rewrite Hacc. reflexivity.
      * rewrite flush_leaf by (left; exact Hne). rewrite F1. cbn [bind]. rewrite Hacc. reflexivity.
    + split; [exact F2|]. split; [|exact Hmod].
      destruct F3 as [->|[ts ->]]; [right; left; eauto | right; right; eauto].
  - exists (Adder chunk bf (rest ++ acc) (links_state (run (N.to_nat bf) full))), [].
    rewrite andb_false_r. cbn [negb]. rewrite Hacc. split; [reflexivity|]. split.
    + exists full, (rest ++ acc). split; [rewrite Ec, <- app_assoc; reflexivity|]. split; [exact Hfull|].
      split; [rewrite blen_app, Hacc; lia|]. split; [reflexivity|]. rewrite app_nil_r. exact Eo.
    + split; [left; reflexivity | exact Hmod].
Qed.

(** consumed bytes only: what push does not take is not looked at *)
Lemma push_consumed a input a' bs n : push X a input = Ok (a', bs, n) -> n <= blen input.
Proof.
  unfold push. destruct (accept X (a_chunk a) input (a_buf a)) as [[acc ready]| | |] eqn:E; cbn [bind]; try discriminate.
  assert (Hacc : blen acc <= blen input).
  { unfold accept in E. destruct (sub64 (ext_dbg X) (a_chunk a) (blen (a_buf a))) as [room| | |]; cbn [bind] in E; try discriminate.
    destruct (add64 (ext_dbg X) (blen (a_buf a)) (N.min (blen input) room)); cbn [bind] in E; try discriminate.
    injection E as <- _. unfold blen. rewrite firstn_length. lia. }
  intros H. destruct ((blen (a_buf a) =? 0) && ready).
  - destruct (flush_buffered_leaf X acc (a_links a) false) as [[leaf|] links]; [|discriminate].
    destruct (flush_links X (a_bf a) links false) as [[l' b']| | |]; cbn [bind] in H; try discriminate. injection H as _ _ <-. exact Hacc.
  - destruct (negb ready); [injection H as _ _ <-; exact Hacc|].
    destruct (flush_buffered_leaf X (a_buf a ++ acc) (a_links a) false) as [[leaf|] links]; [|discriminate].
    destruct (flush_links X (a_bf a) links false) as [[l' b']| | |]; cbn [bind] in H; try discriminate. injection H as _ _ <-. exact Hacc.
Qed.

(** push only depends on the prefix of its input that fits the chunk *)
Lemma push_prefix a input k : a_chunk a - blen (a_buf a) <= k -> k <= blen input ->
  blen (a_buf a) <= a_chunk a ->
  push X a (firstn (N.to_nat k) input) = push X a input.
Proof.
  intros H1 H2 H3. unfold push.
  assert (E : accept X (a_chunk a) (firstn (N.to_nat k) input) (a_buf a) = accept X (a_chunk a) input (a_buf a)).
  { unfold accept. rewrite !sub64_ok by exact H3. cbn [bind].
    assert (L : blen (firstn (N.to_nat k) input) = k) by (unfold blen in *; rewrite firstn_length; lia).
    rewrite L. rewrite !N.min_r by lia.
    destruct (add64 (ext_dbg X) (blen (a_buf a)) (a_chunk a - blen (a_buf a))); cbn [bind]; try reflexivity.
    rewrite firstn_firstn. do 2 f_equal. f_equal. lia. }
  rewrite E. reflexivity.
Qed.

Lemma session_state (HX : ext_ok X) chunk bf a0 c out a :
  cfg_ok chunk bf -> a0 = Adder chunk bf [] [] -> session X a0 c out a -> blen c <= max_content ->
  state_ok chunk bf c a out.
Proof.
  intros Hcfg E0 Hs. induction Hs as [a0|a0 c out a1 input a2 bs n Hs IH Hp]; intros Hc.
  - subst. apply state_init. destruct Hcfg as [? _]. lia.
  - specialize (IH E0). rewrite blen_app in Hc. specialize (IH ltac:(lia)).
    pose proof (push_consumed _ _ _ _ _ Hp) as Hn.
    assert (Hch : a_chunk a1 = chunk /\ blen (a_buf a1) < chunk).
    { destruct IH as (full & rest & _ & _ & Hr & -> & _). cbn. auto. }
    destruct Hch as [Hch Hbuf].
    assert (Hfn : blen (firstn (N.to_nat n) input) = n) by (unfold blen in *; rewrite firstn_length; lia).
    (* reduce to the prefix of the input that can be looked at *)
    set (k := N.min (blen input) (chunk - blen (a_buf a1))).
    assert (Hk : push X a1 (firstn (N.to_nat k) input) = push X a1 input).
    { destruct (N.le_ge_cases (blen input) (chunk - blen (a_buf a1))).
      - unfold k. rewrite N.min_l by assumption. rewrite firstn_all2; [reflexivity | unfold blen; lia].
      - apply push_prefix; unfold k; try lia. }
    assert (Hkl : blen (firstn (N.to_nat k) input) = k) by (unfold blen in *; rewrite firstn_length; unfold k, blen; lia).
    assert (Hnk : n = k).
    { unfold push, accept in Hp. rewrite Hch in Hp. rewrite sub64_ok in Hp by lia. cbn [bind] in Hp.
      fold k in Hp. destruct Hcfg as [Hc1 Hc2].
      rewrite add64_ok in Hp by (unfold k; lia). cbn [bind] in Hp. rewrite Hkl in Hp.
      destruct ((blen (a_buf a1) =? 0) && (chunk <=? blen (a_buf a1) + k)).
      - destruct (flush_buffered_leaf X (firstn (N.to_nat k) input) (a_links a1) false) as [[leaf|] links]; [|discriminate].
        destruct (flush_links X (a_bf a1) links false) as [[l' b']| | |]; cbn [bind] in Hp; try discriminate. injection Hp as _ _ <-. reflexivity.
      - destruct (negb (chunk <=? blen (a_buf a1) + k)); [injection Hp as _ _ <-; reflexivity|].
        destruct (flush_buffered_leaf X (a_buf a1 ++ firstn (N.to_nat k) input) (a_links a1) false) as [[leaf|] links]; [|discriminate].
        destruct (flush_links X (a_bf a1) links false) as [[l' b']| | |]; cbn [bind] in Hp; try discriminate. injection Hp as _ _ <-. reflexivity. }
    rewrite Hfn in Hc.
    destruct (push_spec HX chunk bf c a1 out (firstn (N.to_nat k) input) Hcfg IH) as (a' & bs' & P1 & P2 & _).
    { rewrite Hkl. lia. }
    rewrite Hkl in P1, P2. rewrite Hk, Hp in P1.
    replace (N.min k (chunk - blen (a_buf a1))) with k in P1, P2 by (unfold k; lia).
    injection P1 as <- <- <-.
    rewrite firstn_firstn, Nat.min_id in P2. exact P2.
Qed.

(** ** finish *)
Lemma chunks_of chunk (full : list bytes) (rest : bytes) : 1 <= chunk -> Forall (fun d => blen d = chunk) full -> blen rest < chunk ->
  chunks (N.to_nat chunk) (concat full ++ rest)
  = full ++ (match rest, full with [], [] => [[]] | [], _ => [] | _, _ => [rest] end).
Proof.
  intros Hc Hf Hr. unfold chunks.
  assert (Hf' : Forall (fun g => length g = N.to_nat chunk) full).
  { eapply Forall_impl; [|exact Hf]. intros d E. unfold blen in E. lia. }
  destruct (concat full ++ rest) as [|x l] eqn:E.
  - apply app_eq_nil in E as [E1 E2]. subst rest. destruct full as [|d full]; [reflexivity|].
    inv Hf. cbn [concat] in E1. apply app_eq_nil in E1 as [-> _]. rewrite blen_nil in *. lia.
  - rewrite <- E. rewrite pieces_concat_app by (try exact Hf'; lia). f_equal.
    destruct rest as [|y rest].
    + destruct full; [discriminate | reflexivity].
    + rewrite pieces_short; [reflexivity | unfold blen in Hr; lia | discriminate].
Qed.

Lemma chunks_nonempty n c : (1 <= n)%nat -> chunks n c <> [].
Proof. intros H. destruct c; cbn [chunks]; [discriminate|]. rewrite pieces_unfold by (try lia; discriminate). discriminate. Qed.


(** everything that can be said about the emitted blocks: [all] are the trees
    whose blocks were written, in order *)
Lemma finish_spec_order (HX : ext_ok X) chunk bf c a out :
  cfg_ok chunk bf -> 2 <= bf \/ blen c <= chunk -> state_ok chunk bf c a out -> blen c <= max_content ->
  exists last r all',
    finish X a = Ok last
    /\ canonical chunk bf c r
    /\ out ++ last = ret_of (all' ++ [r])
    /\ builds [] (all' ++ [r])
    /\ Permutation (all' ++ [r]) (nodes r)
    /\ (exists (full : list bytes) (rest : bytes) up, c = concat full ++ rest /\ Forall (fun d => blen d = chunk) full /\ blen rest < chunk
        /\ out = ret_of (snd (run (N.to_nat bf) full))
        /\ upper (N.to_nat bf) (map FLeaf (chunks (N.to_nat chunk) c)) up
        /\ last = ret_of (skipn (length full) (map FLeaf (chunks (N.to_nat chunk) c))
                          ++ skipn (length (fst (fst (run (N.to_nat bf) full)))) up)).
Proof.
  intros [Hchunk Hbf] Hb2 (full & rest & Ec & Hfull & Hrest & -> & Eo) Hc.
  assert (Hb1 : (1 <= N.to_nat bf)%nat) by lia.
  pose proof (run_inv (N.to_nat bf) full Hb1) as Hr.
  assert (Hfl : N.of_nat (length full) <= max_content).
  { pose proof (full_len chunk full ltac:(lia) Hfull). rewrite Ec, blen_app in Hc. lia. }
  destruct (run (N.to_nat bf) full) as [[gs ls] outs] eqn:Erun. cbn [run_ok snd links_state] in *.
  destruct Hr as (R1 & R2 & R3 & R4 & R5 & R6).
  assert (Efull := Erun).
  set (extra := match rest, full with [], [] => [[]] | [], _ => [] | _, _ => [rest] end : list bytes).
  assert (Hch : chunks (N.to_nat chunk) c = full ++ extra)
    by (rewrite Ec; apply chunks_of; [lia | exact Hfull | exact Hrest]).
  assert (Hskip : skipn (length full) (map FLeaf (chunks (N.to_nat chunk) c)) = map FLeaf extra).
  { rewrite Hch, map_app, skipn_app, map_length, Nat.sub_diag, skipn_all2 by (rewrite map_length; lia). reflexivity. }
  assert (Hlinks : map (mk 1) (map FNode gs) ++ map (mk 0) ls = [] <-> full = []).
  { split.
    - intros E. apply app_eq_nil in E as [_ E2]. destruct full; [reflexivity|].
      destruct ls; [exfalso; apply R4; [discriminate | reflexivity] | discriminate].
    - intros ->. cbn [map] in R1. apply app_eq_nil in R1 as [E1 E2]. subst ls.
      destruct gs as [|g gs]; [reflexivity|]. inv R2. destruct g; [cbn in *; lia | discriminate]. }
  assert (Hflush : exists leaf, flush_buffered_leaf X rest (map (mk 1) (map FNode gs) ++ map (mk 0) ls) true
    = (leaf, map (mk 1) (map FNode gs) ++ map (mk 0) (ls ++ map FLeaf extra))
    /\ match leaf with None => [] | Some l => [l] end = ret_of (map FLeaf extra)).
  { destruct rest as [|x rest]; [destruct full as [|d0 full0]|]; subst extra; cbn [map].
    - exists (Some (cblock_of X (FLeaf []))). rewrite flush_leaf by (right; split; [reflexivity | apply Hlinks; reflexivity]).
      split; [|reflexivity]. rewrite map_app, app_assoc. reflexivity.
    - exists None. split; [|reflexivity]. rewrite app_nil_r. unfold flush_buffered_leaf.
      rewrite blen_nil. cbn [negb orb andb]. 
      destruct (map (mk 1) (map FNode gs) ++ map (mk 0) ls) as [|l0 l1]; [|reflexivity].
      destruct Hlinks as [Hlinks _]. specialize (Hlinks eq_refl). discriminate.
    - exists (Some (cblock_of X (FLeaf (x :: rest)))). rewrite flush_leaf by (left; discriminate).
      split; [|reflexivity]. rewrite map_app, app_assoc. reflexivity. }
  destruct Hflush as (leaf & Hflush & Hleaf).
  set (L := ls ++ map FLeaf extra) in *.
  assert (HL : concat gs ++ L = map FLeaf (chunks (N.to_nat chunk) c))
    by (unfold L; rewrite Hch, map_app, app_assoc, R1; reflexivity).
  assert (HLne : L <> []).
  { unfold L. destruct full as [|d0 full0].
    - unfold extra. destruct rest; destruct ls; discriminate.
    - specialize (R4 ltac:(discriminate)). destruct ls; [congruence | discriminate]. }
  assert (Hext : (length extra <= 1)%nat) by (unfold extra; destruct rest; destruct full; cbn; lia).
  assert (Hlen : (length gs + length ls <= length full)%nat).
  { pose proof R1 as E. apply (f_equal (@length ftree)) in E. rewrite app_length, map_length in E.
    assert (length gs <= length (concat gs))%nat.
    { clear - R2 Hb1. induction R2 as [|g gs E H IH]; [cbn; lia|]. cbn [concat length]. rewrite app_length. lia. }
    lia. }
  assert (HLl : (length L <= length ls + 1)%nat) by (unfold L; rewrite app_length, map_length; lia).
  assert (Hcc : concat (chunks (N.to_nat chunk) c) = c).
  { unfold chunks. destruct c as [|x c']; [reflexivity|]. apply concat_pieces. lia. }
  assert (Hw : wsum (concat gs) + wsum L <= 122 * (max_content + 1)).
  { rewrite <- wsum_app, HL, wsum_leaves, Hcc, Hch, app_length. lia. }
  (* the blocks written so far *)
  assert (HB : builds [] (outs ++ map FLeaf extra)).
  { apply builds_app; [exact R5|]. cbn [app]. destruct extra as [|d [|? ?]]; cbn [length] in Hext; try lia; cbn [map]; [constructor|].
    constructor; [discriminate | constructor]. }
  assert (HP : Permutation (outs ++ map FLeaf extra) (all_nodes (map FNode gs ++ L))).
  { unfold L. rewrite app_assoc, all_nodes_app, all_nodes_leaves. apply Permutation_app_tail. exact R6. }
  unfold finish, finish_fuel. cbn [a_buf a_links a_bf]. rewrite Hflush.
  unfold flush_links_fuel.
  set (len0 := length (map (mk 1) (map FNode gs) ++ map (mk 0) ls)).
  assert (Hlen0 : len0 = (length gs + length ls)%nat) by (unfold len0; rewrite app_length, !map_length; reflexivity).
  destruct (Nat.eq_dec (length gs + length L) 1) as [H1|H1].
  - (* a single leaf *)
    destruct gs as [|g gs]; [|destruct L; [congruence | cbn [length] in H1; lia]].
    destruct L as [|t [|? ?]]; cbn [length] in H1; try lia.
    cbn [map app]. rewrite outer_stop by reflexivity. cbn [bind].
    cbn [map app] in HP. unfold all_nodes in HP. cbn [map concat] in HP. rewrite app_nil_r in HP.
    cbn [concat app] in HL.
    assert (exists d, t = FLeaf d) as [d ->].
    { destruct (chunks (N.to_nat chunk) c) as [|d [|? ?]]; cbn [map] in HL; inv HL. eauto. }
    cbn [nodes] in HP.
    assert (E : outs ++ map FLeaf extra = [FLeaf d]) by (apply Permutation_length_1_inv, Permutation_sym; exact HP).
    exists (match leaf with None => [] | Some l => [l] end), (FLeaf d), [].
    split; [destruct leaf; reflexivity|]. cbn [app].
    split; [unfold canonical; rewrite <- HL; apply bal_one|].
    split; [rewrite Hleaf, Eo; unfold ret_of; rewrite <- map_app, E; reflexivity|].
    split; [rewrite E in *; exact HB|]. split; [rewrite E in *; exact HP|].
    exists full, rest, []. rewrite Hskip, Erun. cbn [fst snd length skipn]. rewrite app_nil_r.
    repeat split; try assumption. rewrite <- HL. constructor.
  - assert (H2 : (2 <= length gs + length L)%nat).
    { destruct L; [congruence | cbn [length] in *; lia]. }
    destruct Hb2 as [Hb2|Hsmall].
    2: { exfalso. assert (Hone : length (chunks (N.to_nat chunk) c) = 1%nat).
         { destruct c as [|x c']; [reflexivity|]. unfold chunks.
           rewrite pieces_short; [reflexivity | unfold blen in Hsmall; lia | discriminate]. }
         pose proof HL as E. apply (f_equal (@length ftree)) in E. rewrite app_length, map_length, Hone in E.
         assert (length gs <= length (concat gs))%nat.
         { clear - R2 Hb1. induction R2 as [|g gs E H IH]; [cbn; lia|]. cbn [concat length]. rewrite app_length. lia. }
         destruct L; [congruence | cbn [length] in *; lia]. }
    assert (HbN : (2 <= N.to_nat bf)%nat) by lia.
    set (Q := map FNode (pieces (N.to_nat bf) L)).
    replace (len0 + 3)%nat with (S (len0 + 2)) by lia.
    pose proof (outer_level (len0 + 2) bf 0 (map FNode gs) L []) as OL. cbn [Nat.add] in OL. fold Q in OL.
    replace (len0 + 2)%nat with (S (S len0)) in * by lia.
    rewrite OL; clear OL.
    2: lia. 2: exact HLne. 2: rewrite map_length; lia.
    2: { apply pieces_fit_of; [exact HX | lia | | unfold two64, max_content in *; lia].
         rewrite app_length, !map_length. unfold two64, two63, max_content in *. lia. }
    assert (HQ : map FNode gs ++ Q = map FNode (pieces (N.to_nat bf) (concat gs ++ L))).
    { rewrite pieces_concat_app by assumption. rewrite map_app. reflexivity. }
    assert (Hlc : (2 <= length (concat gs ++ L))%nat).
    { rewrite app_length. assert (length gs <= length (concat gs))%nat.
      { clear - R2 Hb1. induction R2 as [|g gs E H IH]; [cbn; lia|]. cbn [concat length]. rewrite app_length. lia. }
      lia. }
    destruct (pieces_count (N.to_nat bf) (concat gs ++ L) HbN Hlc) as [Hp1 Hp2].
    assert (HQl : (length (map FNode gs ++ Q) <= length gs + length L)%nat).
    { rewrite app_length. unfold Q. rewrite !map_length.
      assert (length (pieces (N.to_nat bf) L) <= length L)%nat; [|lia].
      rewrite <- (concat_pieces (N.to_nat bf) L) at 2 by lia.
      pose proof (pieces_all (N.to_nat bf) L Hb1) as HA. clear - HA.
      induction HA as [|g gs E H IH]; [cbn; lia|]. cbn [concat length]. rewrite app_length. lia. }
    destruct (outer_finish HX bf Hb2 (length (map FNode gs ++ Q)) (map FNode gs ++ Q) 1 ([] ++ ret_of Q) (S (S len0)))
      as (r & lv & N & E & B & P & O & LN & UP).
    + lia.
    + rewrite HQ. intros E. apply (f_equal (@length ftree)) in E. rewrite map_length in E. cbn [length] in E. lia.
    + lia.
    + rewrite HQ. eapply N.le_lt_trans; [apply phi_level; assumption|]. unfold phi. rewrite wsum_app.
      assert (Hlc2 : N.of_nat (length (concat gs ++ L)) <= max_content + 1).
      { rewrite HL, map_length, Hch, app_length. lia. }
      unfold two63, max_content in *. lia.
    + lia.
    + rewrite E. cbn [bind app].
      assert (HQB : builds (outs ++ map FLeaf extra) Q).
      { apply builds_groups. intros g Hg x Hx. apply (Permutation_in _ (Permutation_sym HP)).
        rewrite all_nodes_app. apply in_or_app. right. apply self_all.
        rewrite <- (concat_pieces (N.to_nat bf) L) by lia. apply in_concat. eauto. }
      assert (HQP : Permutation ((outs ++ map FLeaf extra) ++ Q) (all_nodes (map FNode gs ++ Q))).
      { rewrite HP, !all_nodes_app, <- app_assoc. apply Permutation_app_head.
        unfold Q. rewrite all_nodes_groups, concat_pieces by lia. reflexivity. }
      assert (HNB : builds [] (((outs ++ map FLeaf extra) ++ Q) ++ N)).
      { apply builds_app; [apply builds_app; [exact HB | exact HQB]|]. cbn [app].
        eapply builds_incl; [exact O|]. intros x Hx.
        apply (Permutation_in _ (Permutation_sym HQP)). apply self_all, Hx. }
      assert (Hlast : exists all', ((outs ++ map FLeaf extra) ++ Q) ++ N = all' ++ [r]).
      { destruct LN as [[E1 ->]|[N' ->]].
        - rewrite app_nil_r. destruct (pieces (N.to_nat bf) L) as [|p0 [|p1 ps]] eqn:EP.
          + exfalso. rewrite pieces_unfold in EP by assumption. discriminate.
          + unfold Q in *. cbn [map] in *. destruct gs as [|g gs]; [|destruct gs; discriminate].
            cbn [map app] in E1. inv E1. eexists. reflexivity.
          + exfalso. unfold Q in E1. cbn [map] in E1. apply (f_equal (@length ftree)) in E1.
            rewrite app_length in E1. cbn [length] in E1. lia.
        - exists (((outs ++ map FLeaf extra) ++ Q) ++ N'). rewrite app_assoc. reflexivity. }
      destruct Hlast as [all' Hall].
      exists (ret_of (map FLeaf extra) ++ ret_of Q ++ ret_of N), r, all'.
      split; [rewrite <- Hleaf; destruct leaf; reflexivity|].
      split; [unfold canonical; rewrite <- HL; apply bal_level; [exact Hlc | rewrite <- HQ; exact B]|].
      split; [rewrite <- Hall, Eo; unfold ret_of; rewrite !map_app, <- !app_assoc; reflexivity|].
      rewrite <- Hall. split; [exact HNB|].
      split; [rewrite HQP; exact P|].
      exists full, rest, (map FNode (pieces (N.to_nat bf) (concat gs ++ L)) ++ N). rewrite Hskip, Erun. cbn [fst snd].
      split; [assumption|]. split; [assumption|]. split; [assumption|]. split; [assumption|].
      split; [rewrite <- HL; apply upper_level; [exact Hlc | rewrite <- HQ; exact UP]|].
      rewrite <- HQ, <- app_assoc, skipn_app, map_length, Nat.sub_diag, skipn_all2 by (rewrite map_length; lia).
      cbn [skipn app]. unfold ret_of. rewrite !map_app. reflexivity.
Qed.

Lemma finish_spec (HX : ext_ok X) chunk bf c a out :
  cfg_ok chunk bf -> 2 <= bf \/ blen c <= chunk -> state_ok chunk bf c a out -> blen c <= max_content ->
  exists last r all',
    finish X a = Ok last
    /\ canonical chunk bf c r
    /\ out ++ last = ret_of (all' ++ [r])
    /\ builds [] (all' ++ [r])
    /\ Permutation (all' ++ [r]) (nodes r).
Proof.
  intros H1 H2 H3 H4. destruct (finish_spec_order HX chunk bf c a out H1 H2 H3 H4) as (last & r & all' & F1 & F2 & F3 & F4 & F5 & _).
  exists last, r, all'. auto.
Qed.

End proofs.
