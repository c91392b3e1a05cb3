(** * Ingest_proofs: the adder's last blocks, and what ingest_tar does *)
From Coq Require Import Arith Permutation.
From Verif Require Import Base Tac Wire Wire_proofs Utf8 Cid Pb Dagpb Codec_proofs Parse_safety Reader Visit_thms Builder Adder SpecAdder Adder_proofs Adder_thms
  SpecBuilder Paths_proofs Builder_proofs Builder_thms Builder_use SpecWalk Programs SpecPrograms Programs_proofs Ingest SpecIngest.

(** ** What finish returns *)
Section last.
Context (X : ext).
Notation bytes := (list byte).

Lemma balanced_nodes b : (1 <= b)%nat -> forall ts r, balanced b ts r ->
  (length (all_nodes ts) <= length (nodes r))%nat.
Proof.
  intros Hb. induction 1 as [t|ts r L B IH].
  - unfold all_nodes. cbn [map concat]. rewrite app_nil_r. lia.
  - rewrite (Permutation_length (all_nodes_groups (pieces b ts))), app_length, map_length, concat_pieces in IH by exact Hb. lia.
Qed.
Lemma balanced_more b ts r : (1 <= b)%nat -> balanced b ts r -> (2 <= length ts)%nat ->
  (length (all_nodes ts) + length (pieces b ts) <= length (nodes r))%nat.
Proof.
  intros Hb B L. inversion B as [t E|ts' r' L' B' E1 E2]; subst; [cbn in L; lia|].
  apply balanced_nodes in B'; [|exact Hb].
  rewrite (Permutation_length (all_nodes_groups (pieces b ts))), app_length, map_length, concat_pieces in B' by exact Hb. lia.
Qed.

(** [finish] returns nothing exactly for contents of one whole chunk *)
Lemma finish_nothing (HX : ext_ok X) chunk bf c a out last :
  cfg_ok chunk bf -> 2 <= bf \/ blen c <= chunk -> state_ok X chunk bf c a out -> blen c <= max_content ->
  finish X a = Ok last -> (last = [] <-> blen c = chunk).
Proof.
  intros Hcfg Hb S Hc F. pose proof Hcfg as [Hch Hbf].
  destruct (finish_spec X HX chunk bf c a out Hcfg Hb S Hc) as (last' & r & all' & F1 & F2 & F3 & _ & F5).
  rewrite F in F1. injection F1 as <-.
  assert (Len : (length out + length last = length (nodes r))%nat).
  { rewrite <- app_length, F3. unfold ret_of. rewrite map_length. apply Permutation_length, F5. }
  destruct S as (full & rest & Ec & Hfull & Hrest & Ea & Eo).
  pose proof (Adder_proofs.run_inv (N.to_nat bf) full ltac:(lia)) as R.
  destruct (Adder_proofs.run (N.to_nat bf) full) as [[gs ls] outs] eqn:Er. cbn [Adder_proofs.run_ok snd links_state] in *.
  destruct R as (R1 & R2 & R3 & R4 & R5 & R6).
  assert (Lo : length out = length (all_nodes (map FNode gs ++ ls))).
  { rewrite Eo. unfold ret_of. rewrite map_length. apply Permutation_length, R6. }
  rewrite all_nodes_app, app_length, (Permutation_length (all_nodes_groups gs)), app_length, map_length in Lo.
  assert (AL : (length (all_nodes (concat gs)) + length (all_nodes ls) = length full)%nat).
  { rewrite <- app_length, <- all_nodes_app, R1, all_nodes_leaves, map_length. reflexivity. }
  assert (Hcanon : balanced (N.to_nat bf) (map FLeaf (chunks (N.to_nat chunk) c)) r) by exact F2.
  rewrite Ec, (chunks_of chunk full rest ltac:(lia) Hfull Hrest) in Hcanon.
  pose proof (full_blen chunk full Hfull) as FB.
  assert (Z : forall l : list cblock, l = [] <-> length l = 0%nat) by (intros l; split; [intros ->; reflexivity|destruct l; [reflexivity|discriminate]]).
  assert (P1 : (1 <= N.to_nat bf)%nat) by lia.
  rewrite Z.
  destruct rest as [|x rest].
  - destruct full as [|d full].
    + (* empty *)
      cbn [app map concat] in Hcanon. apply (balanced_nodes _ P1) in Hcanon. cbn in Hcanon, AL. rewrite Ec. cbn [concat app]. rewrite blen_nil.
      apply app_eq_nil in R1 as [E1 E2]. subst ls. destruct gs as [|g gs]; [cbn in Lo; lia|].
      apply Forall_cons_iff in R2 as [G _]. cbn [concat] in E1. apply app_eq_nil in E1 as [-> _]. cbn in G. lia.
    + rewrite app_nil_r in Hcanon. rewrite Ec, app_nil_r. rewrite FB.
      destruct full as [|d2 full].
      * (* one chunk *)
        cbn [length map] in *. split; [intros _; lia|intros _].
        inversion Hcanon as [t E|ts r' L' B' E1 E2]; subst; [|cbn in L'; lia].
        cbn [nodes length] in Len. assert ((1 <= length (all_nodes ls))%nat); [|lia].
        specialize (R4 ltac:(discriminate)). destruct ls as [|l ls]; [congruence|].
        pose proof (self_all (l :: ls) l (or_introl eq_refl)) as I. destruct (all_nodes (l :: ls)); [destruct I|cbn; lia].
      * split; [|cbn [length]; nia]. intros L0. exfalso.
        apply (balanced_more _ _ _ P1) in Hcanon; [|cbn; lia].
        rewrite all_nodes_leaves, map_length, <- R1, pieces_concat_app in Hcanon by (try lia; exact R2).
        rewrite app_length in Hcanon.
        assert ((1 <= length (pieces (N.to_nat bf) ls))%nat).
        { specialize (R4 ltac:(discriminate)). rewrite pieces_unfold by (try lia; exact R4). cbn [length]. lia. }
        lia.
  - (* something buffered *)
    assert (NZ : blen c <> chunk).
    { rewrite Ec, blen_app, FB. rewrite blen_cons in *. destruct full as [|d full]; [cbn [length] in *; lia|]. cbn [length]. nia. }
    split; [|intros E; destruct (NZ E)]. intros L0. exfalso.
    assert (Q : (length (full ++ [x :: rest]) + length gs <= length (nodes r))%nat).
    { destruct full as [|d full].
      - cbn in R1. apply app_eq_nil in R1 as [E1 E2]. destruct gs as [|g gs].
        + apply (balanced_nodes _ P1) in Hcanon. rewrite all_nodes_leaves, map_length in Hcanon. cbn [length app] in *. lia.
        + apply Forall_cons_iff in R2 as [G _]. cbn [concat] in E1. apply app_eq_nil in E1 as [-> _]. cbn in G. lia.
      - apply (balanced_more _ _ _ P1) in Hcanon; [|rewrite map_length, app_length; cbn [length]; lia].
        rewrite all_nodes_leaves, map_length, map_app, <- R1, <- app_assoc, pieces_concat_app in Hcanon by (try lia; exact R2).
        rewrite !app_length in *. unfold Base.bytes in *. lia. }
    rewrite app_length in Q. cbn [length] in Q. lia.
Qed.

(** a file *)
Lemma adder_run (HX : ext_ok X) (slices : list bytes) : blen (concat slices) <= max_content ->
  exists a' bs last r all', push_slices X adder_default slices = Ok (a', bs) /\ finish X a' = Ok last
  /\ canonical 262144 174 (concat slices) r /\ bs ++ last = map (cblock_of X) (all' ++ [r])
  /\ Permutation (all' ++ [r]) (nodes r)
  /\ (last = [] <-> blen (concat slices) = 262144)
  /\ sumN (map (fun b => blen (snd b)) (bs ++ last)) = all_bytes (map snd (tree_blocks X r))
  /\ all_bytes (map snd (tree_blocks X r)) < two63.
Proof.
  intros Hc. assert (Hb : 2 <= 174 \/ blen (concat slices) <= 262144) by (left; lia).
  destruct (push_slices_spec X HX 262144 174 default_cfg slices [] adder_default []) as (a' & bs & P1 & P2).
  { apply (state_init X 262144 174). lia. } { rewrite blen_nil. lia. }
  destruct (finish_spec X HX 262144 174 _ a' _ default_cfg Hb P2 Hc) as (last & r & all' & F1 & F2 & F3 & _ & F5).
  cbn [app] in *.
  exists a', bs, last, r, all'. split; [exact P1|]. split; [exact F1|]. split; [exact F2|]. split; [exact F3|]. split; [exact F5|].
  split; [eapply (finish_nothing HX 262144 174); [exact default_cfg|exact Hb|exact P2|exact Hc|exact F1]|].
  assert (E : sumN (map (fun b : cblock => blen (snd b)) (bs ++ last)) = all_bytes (map snd (tree_blocks X r))).
  { rewrite all_bytes_sum, map_map. apply sum_perm, Permutation_map. rewrite F3. unfold ret_of, tree_blocks. apply Permutation_map, F5. }
  split; [exact E|]. rewrite all_bytes_sum, map_map.
  pose proof (canonical_weight 262144 174 _ r ltac:(lia) Hb Hc F2) as W.
  pose proof (tsize_weight X HX r) as W2. rewrite tsize_total in W2. unfold cblock in *. lia.
Qed.
End last.

(** ** One entry *)
Section entries.
Context (X : ext).
Notation dbg := (ext_dbg X).

Lemma sum64_ok {E} d l acc : acc + sumN l < two64 -> @sum64 E d acc l = Ok (acc + sumN l).
Proof.
  revert acc. induction l as [|x l IH]; intros acc L; cbn [sum64].
  - unfold sumN. cbn. rewrite N.add_0_r. reflexivity.
  - change (sumN (x :: l)) with (x + sumN l) in *. rewrite Base.add64_ok by lia. cbn [bind]. rewrite IH by lia. f_equal. lia.
Qed.

Lemma utf8_app n : forall a b, (length a <= n)%nat -> utf8_valid a = true -> utf8_valid b = true -> utf8_valid (a ++ b) = true.
Proof.
  induction n as [|n IH]; intros a b L H Hb.
  - destruct a; [exact Hb|cbn in L; lia].
  - destruct a as [|a0 a]; [exact Hb|]. cbn [length] in L. cbn [utf8_valid app] in H |- *.
    destruct (b2n a0 <=? 0x7f); [apply IH; [lia|exact H|exact Hb]|].
    destruct a as [|a1 a]; cbn [app length] in *.
    { repeat match type of H with context [if ?x then _ else _] => destruct x end; discriminate. }
    destruct (inr 0xc2 0xdf (b2n a0)); [apply andb_prop in H as [-> H]; apply IH; [lia|exact H|exact Hb]|].
    destruct a as [|a2 a]; cbn [app length] in *.
    { repeat match type of H with context [if ?x then _ else _] => destruct x end; discriminate. }
    destruct (b2n a0 =? 0xe0); [apply andb_prop in H as [-> H]; apply IH; [lia|exact H|exact Hb]|].
    destruct (inr 0xe1 0xec (b2n a0) || inr 0xee 0xef (b2n a0)); [apply andb_prop in H as [-> H]; apply IH; [lia|exact H|exact Hb]|].
    destruct (b2n a0 =? 0xed); [apply andb_prop in H as [-> H]; apply IH; [lia|exact H|exact Hb]|].
    destruct a as [|a3 a]; cbn [app length] in *.
    { repeat match type of H with context [if ?x then _ else _] => destruct x end; discriminate. }
    destruct (b2n a0 =? 0xf0); [apply andb_prop in H as [-> H]; apply IH; [lia|exact H|exact Hb]|].
    destruct (inr 0xf1 0xf3 (b2n a0)); [apply andb_prop in H as [-> H]; apply IH; [lia|exact H|exact Hb]|].
    destruct (b2n a0 =? 0xf4); [apply andb_prop in H as [-> H]; apply IH; [lia|exact H|exact Hb]|discriminate].
Qed.

Definition total (bs : list cblock) : N := sumN (map (fun b => blen (snd b)) bs).
Lemma total_nil : total [] = 0. Proof. reflexivity. Qed.
Lemma total_cons c b bs : total ((c, b) :: bs) = blen b + total bs. Proof. reflexivity. Qed.
Lemma total_app a b : total (a ++ b) = total a + total b.
Proof. unfold total. rewrite map_app. apply sumN_app. Qed.

Lemma fold_some (blocks : list cblock) : forall c0 z, z + total blocks < two64 ->
  exists c, fold_blocks X (Some (c0, z)) blocks = Ok (Some (c, z + total blocks))
  /\ (blocks = [] /\ c = c0 \/ exists before root, blocks = before ++ [root] /\ c = fst root).
Proof.
  induction blocks as [|[c1 b1] blocks IH]; intros c0 z L; cbn [fold_blocks].
  - exists c0. split; [rewrite total_nil, N.add_0_r; reflexivity|auto].
  - change (total ((c1, b1) :: blocks)) with (blen b1 + total blocks) in *.
    rewrite Base.add64_ok by lia. cbn [bind]. destruct (IH c1 (z + blen b1) ltac:(lia)) as (c & E & C).
    exists c. rewrite E. split; [f_equal; f_equal; f_equal; lia|]. right. destruct C as [[-> ->]|(before & root & -> & ->)].
    + exists [], (c1, b1). auto.
    + exists ((c1, b1) :: before), root. auto.
Qed.
Lemma fold_none before (root : cblock) : total (before ++ [root]) < two64 ->
  fold_blocks X None (before ++ [root]) = Ok (Some (fst root, total (before ++ [root]))).
Proof.
  intros L. destruct before as [|[c0 b0] before].
  - destruct root as [c b]. cbn [app fold_blocks fst]. rewrite total_cons, total_nil, N.add_0_r. reflexivity.
  - cbn [app fold_blocks]. change (((c0, b0) :: before) ++ [root]) with ((c0, b0) :: (before ++ [root])) in *. rewrite total_cons in *.
    destruct (fold_some (before ++ [root]) c0 (blen b0) L) as (c & E & C).
    rewrite E. destruct C as [[Z _]|(before' & root' & Z & ->)]; [destruct before; discriminate|].
    apply app_inj_tail in Z as [_ ->]. reflexivity.
Qed.

Lemma part_push_all fuel : forall a input a' bs, push_all X fuel a input = Ok (a', bs) ->
  forall x read written, input = skipn (N.to_nat read) x -> read <= blen x -> blen x < two64 ->
  written + total bs < two64 ->
  push_part X fuel a x read written = Ok (a', written + total bs).
Proof.
  induction fuel as [|fuel IH]; intros a input a' bs P x read written Ei T B W.
  - destruct input; [|discriminate]. injection P as <- <-. cbn [push_part].
    assert (read = blen x).
    { pose proof (skipn_length (N.to_nat read) x) as L. rewrite <- Ei in L. cbn [length] in L. unfold blen in *. lia. }
    subst read. rewrite N.ltb_irrefl. rewrite total_nil, N.add_0_r. reflexivity.
  - pose proof (skipn_length (N.to_nat read) x) as L. rewrite <- Ei in L. cbn [push_part].
    destruct input as [|y input].
    + injection P as <- <-. cbn [length] in L. assert (read = blen x) by (unfold blen in *; lia).
      subst read. rewrite N.ltb_irrefl. rewrite total_nil, N.add_0_r. reflexivity.
    + cbn [length] in L. replace (read <? blen x) with true by (symmetry; apply N.ltb_lt; unfold blen; lia).
      rewrite <- Ei. cbn [push_all] in P. destruct (push X a (y :: input)) as [[[a1 bs1] n]| | |] eqn:Pu; try discriminate. cbn [bind] in P |- *.
      pose proof (Programs_proofs.push_consumed _ _ _ _ _ _ Pu) as Ln. assert (Lx : n + read <= blen x) by (unfold blen in *; cbn [length] in Ln; lia).
      destruct (push_all X fuel a1 (skipn (N.to_nat n) (y :: input))) as [[a2 bs2]| | |] eqn:P2; try discriminate. cbn [bind] in P. injection P as <- <-.
      rewrite total_app in W |- *. rewrite !Base.add64_ok by lia. cbn [bind]. rewrite (sum64_ok _ _ 0) by (fold (total bs1); lia). fold (total bs1). rewrite N.add_0_l. cbn [bind].
      rewrite Base.add64_ok by lia. cbn [bind]. rewrite (IH a1 _ a2 bs2 P2 x (read + n)); [| |lia|lia|lia].
      * f_equal. f_equal. lia.
      * rewrite Ei, skip_skip. f_equal. lia.
Qed.

(** the reads, up to the end *)
Lemma content_steps (pieces : list bytes) : forall a a' bs, push_slices X a pieces = Ok (a', bs) ->
  forall rest buffer written, Forall (fun p => 1 <= blen p <= 262144) pieces -> 262144 <= blen buffer ->
  blen (concat pieces) < two64 -> written + total bs < two64 ->
  exists buffer', 262144 <= blen buffer' /\ read_content X (map Some pieces ++ rest) a buffer written
    = read_content X rest a' buffer' (written + total bs).
Proof.
  induction pieces as [|s pieces IH]; intros a a' bs P rest buffer written NE B Lc W; cbn [push_slices] in P.
  - injection P as <- <-. exists buffer. split; [exact B|]. rewrite total_nil, N.add_0_r. reflexivity.
  - destruct (push_all X (S (length s)) a s) as [[a1 bs1]| | |] eqn:P1; try discriminate. cbn [bind] in P.
    destruct (push_slices X a1 pieces) as [[a2 bs2]| | |] eqn:P2; try discriminate. cbn [bind] in P. injection P as <- <-.
    apply Forall_cons_iff in NE as [N1 N2]. rewrite total_app in W |- *. cbn [concat] in Lc. rewrite blen_app in Lc.
    assert (Ls : (length s <= length buffer)%nat) by (unfold blen in *; lia).
    destruct s as [|y s]; [rewrite blen_nil in N1; lia|]. set (s0 := y :: s) in *.
    cbn [map app read_content]. change (y :: s) with s0. unfold s0 at 1. fold s0.
    replace (blen s0 <=? blen buffer) with true by (symmetry; apply N.leb_le; lia). cbn [assert bind].
    rewrite firstn_app_le, firstn_all by lia.
    rewrite (part_push_all _ a s0 a1 bs1 P1 s0 0 written eq_refl ltac:(lia) ltac:(lia) ltac:(lia)). cbn [bind].
    destruct (IH a1 a2 bs2 P2 rest (s0 ++ skipn (length s0) buffer) (written + total bs1) N2) as (buffer' & B' & E).
    + unfold blen in *. rewrite app_length, skipn_length. lia.
    + lia.
    + lia.
    + exists buffer'. split; [exact B'|]. rewrite E. f_equal. lia.
Qed.

Lemma fill_len (buffer : bytes) : 262144 <= blen (buffer ++ repeat x00 (N.to_nat (size_hint adder_default - blen buffer))).
Proof. rewrite blen_app. unfold blen at 2. rewrite repeat_length. change (size_hint adder_default) with 262144. lia. Qed.

Lemma symlink_len target : blen (symlink_block target) <= blen target + 60.
Proof.
  unfold symlink_block. rewrite <- flat_size_ok. unfold flat_size, unixfs_size, sizeof_len. cbn [f_links f_data map sumN fold_right
      u_type u_data u_filesize u_blocksizes u_hashtype u_fanout u_mode u_mtime opt ftype_num].
  pose proof (sizeof_varint_le (blen target)). pose proof (sizeof_varint_le 4).
  pose proof (sizeof_varint_le (1 + sizeof_varint 4 + (1 + (sizeof_varint (blen target) + blen target)) + 0 + 0 + 0 + 0 + 0 + 0)). lia.
Qed.

Lemma canonical_last r : exists before, tree_blocks X r = before ++ [cblock_of X r].
Proof.
  unfold tree_blocks. destruct r as [d|ts]; cbn [nodes]; [exists []; reflexivity|]. rewrite map_app. eexists. reflexivity.
Qed.

Context (HX : ext_ok X).

Lemma file_read (pieces : list bytes) rest buffer : blen (concat pieces) <= max_content ->
  Forall (fun p => 1 <= blen p <= 262144) pieces -> (rest = [] \/ exists more, rest = Some [] :: more) -> 262144 <= blen buffer ->
  (blen (concat pieces) = 262144 -> read_content X (map Some pieces ++ rest) adder_default buffer 0 = Panic)
  /\ (blen (concat pieces) <> 262144 -> exists r buffer', canonical 262144 174 (concat pieces) r
      /\ read_content X (map Some pieces ++ rest) adder_default buffer 0
         = Ok (block_cid X (block X r), all_bytes (map snd (tree_blocks X r)), buffer')).
Proof.
  intros Hc NE R B. destruct (adder_run X HX pieces Hc) as (a' & bs & last & r & all' & P & F & C & Eb & Pm & Nil & Sum & Bnd).
  fold (total (bs ++ last)) in Sum. rewrite total_app in Sum.
  destruct (content_steps pieces adder_default a' bs P rest buffer 0 NE B) as (buffer' & B' & E).
  { unfold max_content, two64 in *. lia. } { unfold two63, two64 in *. lia. }
  rewrite E. assert (Er : forall w, read_content X rest a' buffer' w
     = (do blocks <- finish X a'; do r <- fold_blocks X None blocks; do r <- unwrap r; do w <- add64 dbg w (snd r); Ok (fst r, w, buffer'))).
  { intros w. destruct R as [->|[more ->]]; reflexivity. }
  rewrite Er, F. cbn [bind]. split.
  - intros L. apply Nil in L as ->. reflexivity.
  - intros L. exists r, buffer'. split; [exact C|].
    destruct (exists_last (l := last)) as (init & x & El); [intros Z; apply L, Nil, Z|].
    assert (x = cblock_of X r).
    { rewrite El, map_app, app_assoc in Eb. apply app_inj_tail in Eb as [_ Eb]. exact Eb. }
    subst x. rewrite El in *. rewrite fold_none by (unfold two63, two64 in *; lia). cbn [bind unwrap snd fst].
    rewrite Base.add64_ok by (unfold two63, two64 in *; lia). cbn [bind]. unfold cblock_of at 1. cbn [fst]. f_equal. f_equal. f_equal. lia.
Qed.

(** whatever an entry is, it is the call made for it *)
Lemma entry_call e a : entry_of e a -> sensible a ->
  match a with Regular _ content => blen content <> 262144 | _ => True end ->
  exists k, call_for X a k /\ api_call k /\ call_path k = archived_at a
  /\ forall b buffer, exists buffer', ingest_entry X b buffer e = (do _ <- unwrap_result (fst (do_call b k)); Ok (snd (do_call b k), buffer')).
Proof.
  intros E [U S] N. destruct E as [path pieces rest NS NE R|path target reads|path reads]; cbn [archived_at] in *.
  - destruct (adder_run X HX pieces S) as (_ & _ & _ & r & _ & _ & _ & C & _ & _ & _ & _ & Bnd).
    exists (Put path (block_cid X (block X r)) (all_bytes (map snd (tree_blocks X r)))). split; [|split; [|split; [reflexivity|]]].
    + exists (tree_blocks X r). split; [exists r; auto|]. destruct (canonical_last r) as (before & E). exists before, (cblock_of X r). auto.
    + split; [exact U|]. split; [apply (block_cid_wf X HX)|]. unfold two63, two64 in *. lia.
    + intros b buffer. unfold ingest_entry. cbn [te_path te_link te_reads]. rewrite U. cbn [assert bind].
      assert (ES : ends_with_slash path = false) by (destruct (ends_with_slash path) eqn:Q; [apply ends_with_slash_iff in Q; destruct (NS Q)|reflexivity]).
      rewrite ES. cbn [negb]. unfold entry_file.
      set (buffer0 := buffer ++ _).
      destruct (file_read pieces rest buffer0 S NE R (fill_len buffer)) as [_ F].
      destruct (F N) as (r' & buffer' & C' & E). rewrite E. cbn [bind do_call].
      assert (r' = r) as -> by (eapply canonical_unique; eassumption).
      exists buffer'. destruct (put_link b path _ _) as [o b']. reflexivity.
  - destruct S as [Ut Lt]. exists (Put path (block_cid X (symlink_block target)) (blen (symlink_block target))). split; [|split; [|split; [reflexivity|]]].
    + exists [(block_cid X (symlink_block target), symlink_block target)]. split; [reflexivity|].
      exists [], (block_cid X (symlink_block target), symlink_block target). split; [reflexivity|]. cbn [archived_at fst map snd].
      unfold all_bytes. cbn [concat]. rewrite app_nil_r. reflexivity.
    + split; [exact U|]. split; [apply (block_cid_wf X HX)|]. pose proof (symlink_len target). change (2 ^ 31) with 2147483648 in Lt. unfold two64. lia.
    + intros b buffer. unfold ingest_entry. cbn [te_path te_link te_reads]. rewrite U, Ut. cbn [assert bind do_call].
      exists (symlink_block target). change (serialize_symlink_block target []) with (symlink_block target).
      change (Cid true 0x70 0x12 (ext_sha256 X (symlink_block target))) with (block_cid X (symlink_block target)).
      destruct (put_link b path _ _) as [o b']. reflexivity.
  - exists (SetMetadata path (MData None None)). split; [|split; [|split; [reflexivity|]]].
    + exists []. split; reflexivity.
    + split; [exact U|exact Logic.I].
    + intros b buffer. unfold ingest_entry. cbn [te_path te_link te_reads].
      assert (Us : utf8_valid (path ++ [x2f]) = true) by (apply (utf8_app (length path)); [lia|exact U|reflexivity]).
      rewrite Us. cbn [assert bind].
      assert (ES : ends_with_slash (path ++ [x2f]) = true) by (apply ends_with_slash_iff; exists path; reflexivity).
      rewrite ES. cbn [negb]. rewrite app_length. cbn [length]. rewrite Nat.add_sub, firstn_app_le, firstn_all by lia.
      exists buffer. cbn [do_call]. destruct (set_metadata b path _) as [o b']. reflexivity.
Qed.
End entries.

(** ** All entries *)
Section whole.
Context (X : ext) (HX : ext_ok X).

Lemma unwrap_call opts ks0 k : unwrap_result (fst (do_call (after (builder_new opts) ks0) k)) = Ok tt
    /\ fst (do_call (after (builder_new opts) ks0) k) = Ok tt
  \/ unwrap_result (fst (do_call (after (builder_new opts) ks0) k)) = Panic
     /\ fst (do_call (after (builder_new opts) ks0) k) <> Ok tt.
Proof.
  destruct (run_new opts ks0) as [I _]. destruct (call_step _ _ k I) as [(_ & E & _)|(e & _ & E & _)]; rewrite E; [left|right]; split; try reflexivity. discriminate.
Qed.

Lemma entries_calls es arch : Forall2 entry_of es arch -> Forall sensible arch ->
  (forall path content, In (Regular path content) arch -> blen content <> 262144) ->
  exists ks, Forall2 (call_for X) arch ks /\ Forall api_call ks /\ map call_path ks = map archived_at arch
  /\ forall opts ks0 more buffer,
     (Forall (eq (Ok tt)) (returns (after (builder_new opts) ks0) ks) ->
      exists buffer', ingest_entries X (map Some es ++ more) (after (builder_new opts) ks0) buffer
                      = ingest_entries X more (after (builder_new opts) (ks0 ++ ks)) buffer')
     /\ (~ Forall (eq (Ok tt)) (returns (after (builder_new opts) ks0) ks) ->
         ingest_entries X (map Some es ++ more) (after (builder_new opts) ks0) buffer = Panic).
Proof.
  induction 1 as [|e a es arch E F IH]; intros S N.
  - exists []. split; [constructor|]. split; [constructor|]. split; [reflexivity|]. intros opts ks0 more buffer. split.
    + intros _. exists buffer. rewrite app_nil_r. reflexivity.
    + intros Q. destruct Q. constructor.
  - apply Forall_cons_iff in S as [Sa S].
    destruct (entry_call X HX e a E Sa) as (k & C & A & P & I).
    { destruct a; try exact Logic.I. apply (N path). left. reflexivity. }
    destruct (IH S ltac:(intros path content J; apply (N path); right; exact J)) as (ks & Cs & As & Ps & Is).
    exists (k :: ks). split; [constructor; assumption|]. split; [constructor; assumption|]. split; [cbn [map]; congruence|].
    intros opts ks0 more buffer. destruct (I (after (builder_new opts) ks0) buffer) as (buffer1 & E1).
    cbn [map app ingest_entries returns]. rewrite E1.
    assert (Af : snd (do_call (after (builder_new opts) ks0) k) = after (builder_new opts) (ks0 ++ [k])) by (rewrite after_app; reflexivity).
    destruct (unwrap_call opts ks0 k) as [[U O]|[U O]]; rewrite U; cbn [bind].
    + rewrite Af. destruct (Is opts (ks0 ++ [k]) more buffer1) as [I1 I2]. split.
      * intros R. apply Forall_cons_iff in R as [_ R]. destruct (I1 R) as (buffer' & E2). exists buffer'. rewrite E2, <- app_assoc. reflexivity.
      * intros R. apply I2. intros Q. apply R. constructor; [congruence|exact Q].
    + split; [|reflexivity]. intros R. apply Forall_cons_iff in R as [R _]. congruence.
Qed.

(** whatever the calls return, an entry that is no good ends the program *)
Lemma entries_bad es arch bad more opts ks0 buffer : Forall2 entry_of es arch -> Forall sensible arch ->
  (forall path content, In (Regular path content) arch -> blen content <> 262144) ->
  (forall b buffer, ingest_entries X (bad :: more) b buffer = Panic) ->
  ingest_entries X (map Some es ++ bad :: more) (after (builder_new opts) ks0) buffer = Panic.
Proof.
  intros F S N B. destruct (entries_calls es arch F S N) as (ks & _ & _ & _ & I).
  destruct (I opts ks0 (bad :: more) buffer) as [I1 I2].
  assert (D : Forall (eq (Ok tt)) (returns (after (builder_new opts) ks0) ks) \/ ~ Forall (eq (Ok tt)) (returns (after (builder_new opts) ks0) ks)).
  { generalize (returns (after (builder_new opts) ks0) ks). intros l. induction l as [|o l IHl]; [left; constructor|].
    destruct o as [[]|e| |]; try (right; intros Q; apply Forall_cons_iff in Q as [Q _]; discriminate).
    destruct IHl as [Q|Q]; [left; constructor; auto|right; intros Q'; apply Q; apply Forall_cons_iff in Q' as [_ Q']; exact Q']. }
  destruct D as [D|D]; [|exact (I2 D)]. destruct (I1 D) as (buffer' & E). rewrite E. apply B.
Qed.

(** *** The nodes *)
Definition seen_node (n : tree_node) : cid * N * N := (n_cid n, n_total_size n, blen (n_block n)).

Fixpoint scan_results (l : list (outcome construct_error (option tree_node))) (last : option (cid * N * N)) : aout (option (cid * N * N)) :=
  match l with
  | [] => Diverge
  | Ok None :: _ => Ok last
  | Ok (Some n) :: l => scan_results l (Some (seen_node n))
  | Diverge :: _ => Diverge
  | _ :: _ => Panic
  end.
Lemma last_node_scan fuel : forall it last, last_node X fuel it last = scan_results (results X fuel it) last.
Proof.
  induction fuel as [|fuel IH]; intros it last; [reflexivity|]. cbn [last_node results]. destruct (next X it) as [r it'].
  destruct r as [[n|]| | |]; cbn [scan_results]; try reflexivity. apply IH.
Qed.
Lemma scan_nodes nodes rest : forall last, scan_results (map (fun n => Ok (Some n)) nodes ++ rest) last
  = scan_results rest (match rev nodes with [] => last | n :: _ => Some (seen_node n) end).
Proof.
  induction nodes as [|n nodes IH]; intros last; [reflexivity|]. cbn [map app scan_results rev]. rewrite IH. f_equal.
  destruct (rev nodes); reflexivity.
Qed.

Section answers.
Context (opts : tree_options) (ks : list call) (t : tree) (Ht : holds t (accepted (builder_new opts) ks)).
Notation b := (after (builder_new opts) ks).
Notation at_ := (rendered_at X (block_size_limit opts) t).

Lemma answers_split order : (exists nodes, map at_ order = map (fun n => Ok (Some n)) nodes)
  \/ exists pre p post nodes, order = pre ++ p :: post /\ map at_ pre = map (fun n => Ok (Some n)) nodes
     /\ (at_ p = Panic \/ exists e, at_ p = Err e).
Proof.
  induction order as [|p order IH]; [left; exists []; reflexivity|].
  assert (C : (exists n, at_ p = Ok (Some n)) \/ at_ p = Panic \/ exists e, at_ p = Err e).
  { unfold rendered_at, rendered. destruct (subtree t p) as [[|es]|]; [auto| |auto].
    repeat match goal with |- context [if ?x then _ else _] => destruct x end; eauto. }
  destruct C as [(n & E)|C].
  - destruct IH as [(nodes & Q)|(pre & p' & post & nodes & -> & Q & Z)].
    + left. exists (n :: nodes). cbn [map]. rewrite E, Q. reflexivity.
    + right. exists (p :: pre), p', post, (n :: nodes). split; [reflexivity|]. split; [cbn [map]; rewrite E, Q; reflexivity|exact Z].
  - right. exists [], p, order, []. auto.
Qed.
Lemma until_oks {A} (l : list A) rest : until_panic (map (fun n => Ok n) l ++ rest) = map (fun n => Ok n) l ++ until_panic rest.
Proof. induction l as [|n l IH]; [reflexivity|]. cbn [map app until_panic]. rewrite IH. reflexivity. Qed.
Lemma oks_somes (nodes : list tree_node) : map (fun n => @Ok construct_error _ (Some n)) nodes = map (fun n => Ok n) (map Some nodes).
Proof. rewrite map_map. reflexivity. Qed.
Lemma until_nones n : until_panic (repeat (@Ok construct_error (option tree_node) None) n) = repeat (Ok None) n.
Proof. induction n as [|n IH]; [reflexivity|]. cbn [repeat until_panic]. rewrite IH. reflexivity. Qed.
Lemma firstn_more {A} (l l' : list A) n : (length l < n)%nat -> firstn n (l ++ l') = l ++ firstn (n - length l) l'.
Proof. intros L. rewrite firstn_app. f_equal. apply firstn_all2. lia. Qed.

Lemma firstn_repeat {A} (x : A) : forall m n, (m <= n)%nat -> firstn m (repeat x n) = repeat x m.
Proof. induction m as [|m IH]; intros n L; [reflexivity|]. destruct n; [lia|]. cbn [repeat firstn]. rewrite IH by lia. reflexivity. Qed.

(** the last node is the root, or there is a failure *)
Lemma last_of_wrapped (W : wrap_with_directory opts = true) :
  (exists node N es, finally X b node /\ t = Dir es /\ node = node_of X [] es
     /\ forall fuel last, (N <= fuel)%nat -> last_node X fuel (build b) last = Ok (Some (seen_node node)))
  \/ (~ succeeds X b /\ exists N, forall fuel last, (N <= fuel)%nat -> last_node X fuel (build b) last = Panic).
Proof.
  destruct (iterate X opts ks t Ht) as (order & PO & I). destruct (answers_split order) as [(nodes & E)|(pre & p & post & nodes & Eo & E & Z)].
  - left. assert (Ld : is_dir t []) by (apply (proj2 (proj2 Ht)); auto). destruct Ld as (es & Es). cbn in Es. injection Es as Et.
    assert (I0 : In [] order) by (apply (proj1 (proj2 PO)); split; [exists es; cbn; congruence|auto]).
    assert (Eo : exists order0, order = order0 ++ [[]]).
    { destruct (exists_last (l := order)) as (order0 & x & Eo); [intros ->; destruct I0|]. exists order0. rewrite Eo in *. f_equal. f_equal.
      destruct x as [|s x]; [reflexivity|]. exfalso. apply in_app_iff in I0 as [I0|[I0|[]]]; [|discriminate].
      apply In_nth_error in I0 as (j & Hj).
      assert (Hj' : nth_error (order0 ++ [s :: x]) j = Some []) by (rewrite nth_error_app1; [exact Hj|apply nth_error_Some; congruence]).
      assert (Hi : nth_error (order0 ++ [s :: x]) (length order0) = Some ([] ++ (s :: x))) by (rewrite nth_error_app2, Nat.sub_diag; [reflexivity|lia]).
      pose proof (proj2 (proj2 PO) _ _ _ _ Hi Hj' ltac:(discriminate)) as L.
      assert ((j < length order0)%nat) by (apply nth_error_Some; congruence). lia. }
    destruct Eo as (order0 & Eo). rewrite Eo, map_app in E. cbn [map] in E.
    destruct (exists_last (l := nodes)) as (nodes0 & node & En); [intros ->; destruct (map at_ order0); discriminate|].
    rewrite En, map_app in E. cbn [map] in E. apply app_inj_tail in E as [E0 E1].
    assert (R : forall n, (S (length nodes0) <= n)%nat ->
      results X n (build b) = map (fun n => Ok (Some n)) nodes0 ++ Ok (Some node) :: repeat (Ok None) (n - S (length nodes0))).
    { intros n L. rewrite I, Eo, map_app. cbn [map]. rewrite E0, E1, oks_somes, <- app_assoc, until_oks. cbn [app until_panic]. rewrite until_nones.
      rewrite firstn_more by (rewrite !map_length; lia). rewrite !map_length.
      replace (n - length nodes0)%nat with (S (n - S (length nodes0))) by lia. cbn [firstn]. rewrite firstn_repeat by lia. reflexivity. }
    exists node, (S (S (length nodes0))), es. split; [split|split; [congruence|split]].
    + intros n r In_. assert (In_2 : In r (results X (S (length nodes0) + n) (build b))).
      { apply In_nth_error in In_ as (i & In_). eapply nth_error_In. eapply (results_mono X opts ks t Ht); [|exact In_]. lia. }
      rewrite R in In_2 by lia. apply in_app_iff in In_2 as [In_2|[<-|In_2]]; [|eauto|].
      * apply in_map_iff in In_2 as (x & <- & _). eauto.
      * apply repeat_spec in In_2 as ->. eauto.
    + exists (S (S (length nodes0))), (map (fun n => Ok (Some n)) nodes0). rewrite R by lia.
      replace (S (S (length nodes0)) - S (length nodes0))%nat with 1%nat by lia. reflexivity.
    + unfold rendered_at in E1. rewrite Et in E1. cbn [subtree] in E1. apply rendered_ok in E1 as (-> & _). reflexivity.
    + intros fuel last L. rewrite last_node_scan, R by lia.
      replace (fuel - S (length nodes0))%nat with (S (fuel - S (S (length nodes0)))) by lia. cbn [repeat].
      rewrite scan_nodes. reflexivity.
  - right. assert (R : forall n, (S (length nodes) <= n)%nat -> exists rest, results X n (build b) = map (fun n => Ok (Some n)) nodes ++ at_ p :: rest).
    { intros n L. rewrite I, Eo, map_app. cbn [map]. rewrite E, oks_somes, <- app_assoc, until_oks. cbn [app].
      rewrite firstn_more by (rewrite !map_length; lia). rewrite !map_length.
      replace (n - length nodes)%nat with (S (n - S (length nodes))) by lia.
      destruct Z as [Z|(e & Z)]; rewrite Z; cbn [until_panic firstn]; eauto. }
    split.
    + intros Su. destruct (R _ (le_n _)) as (rest & Er). destruct (Su (S (length nodes)) (at_ p)) as (o & Q).
      { rewrite Er. apply in_app_iff. right. left. reflexivity. }
      destruct Z as [Z|(e & Z)]; congruence.
    + exists (S (length nodes)). intros fuel last L. rewrite last_node_scan. destruct (R fuel L) as (rest & Er). rewrite Er, scan_nodes.
      destruct Z as [Z|(e & Z)]; rewrite Z; reflexivity.
Qed.
End answers.
End whole.

(** ** When all calls are accepted *)
Lemma call_kind X a k : call_for X a k -> call_path k = archived_at a /\ (is_put k <-> ~ is_folder a).
Proof.
  intros (kbs & _ & H). destruct a as [p x|p x|p]; cbn [archived_at is_folder] in *.
  - destruct H as (before & root & _ & ->). cbn. tauto.
  - destruct H as (before & root & _ & ->). cbn. tauto.
  - subst k. cbn. tauto.
Qed.
Lemma compatible_room X a k a' k' : call_for X a k -> call_for X a' k' ->
  (compatible k k' <-> leaves_room a a' /\ leaves_room a' a).
Proof.
  intros C C'. apply call_kind in C as [P Q], C' as [P' Q']. unfold compatible. rewrite P, P'.
  assert (D : forall a, is_folder a \/ ~ is_folder a) by (intros []; cbn; auto).
  assert (R : forall a a' k, (is_put k <-> ~ is_folder a) ->
     (leaves_room a a' <-> (is_put k -> ~ below (split_slash (archived_at a)) (split_slash (archived_at a'))))).
  { clear - D. intros a a' k Q. unfold leaves_room, below. split.
    - intros L K (rest & E). apply Q in K. apply K. apply (L (split_slash (archived_at a)) rest); [apply split_segments|].
      rewrite <- E. apply split_segments.
    - intros L names rest S S'. destruct (D a) as [F|F]; [exact F|]. exfalso. apply Q in F. apply (L F). exists rest.
      apply segments_split in S, S'. congruence. }
  rewrite (R a a' k Q), (R a' a k' Q'). tauto.
Qed.
Lemma pairs_room X arch ks : Forall2 (call_for X) arch ks ->
  (ForallOrdPairs compatible ks <-> ForallOrdPairs (fun a a' => leaves_room a a' /\ leaves_room a' a) arch).
Proof.
  induction 1 as [|a k arch ks C F IH]; [split; constructor|].
  assert (E : Forall (compatible k) ks <-> Forall (fun a' => leaves_room a a' /\ leaves_room a' a) arch).
  { clear IH. induction F as [|a' k' arch ks C' F IH]; [split; constructor|].
    rewrite !Forall_cons_iff, IH, (compatible_room X a k a' k' C C'). reflexivity. }
  split; intros H; inversion H as [|? ? H1 H2]; subst; constructor; try (apply IH; assumption); apply E; assumption.
Qed.
Lemma consistent_calls X opts arch ks : wrap_with_directory opts = true -> Forall2 (call_for X) arch ks ->
  (Forall (eq (Ok tt)) (returns (builder_new opts) ks) <-> consistent arch).
Proof.
  intros W F. rewrite (wrapped_history opts W ks), (pairs_room X arch ks F). unfold consistent.
  assert (E : Forall (fun k => well_formed (call_path k)) ks <-> Forall (fun a => well_formed (archived_at a)) arch); [|tauto].
  induction F as [|a k arch ks C F IH]; [split; constructor|]. apply call_kind in C as [P _]. rewrite !Forall_cons_iff, IH, P. reflexivity.
Qed.
