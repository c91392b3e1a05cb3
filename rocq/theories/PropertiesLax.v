(** * Property C49: parsing accepts exactly the encodings; C04 and C05, again: when
    parsing and the dag-pb accessors panic.
    The vocabulary is in SpecWire.v (sloppy encodings: proper ones, but for
    varints whose value exceeds 32 or 64 bits), the proofs in Lax_proofs.v. *)
From Verif Require Import Base Tac Wire Utf8 Cid Pb Dagpb SpecWire Wire_proofs Pb_proofs Codec_proofs Parse_safety Lax_proofs SpecOverflow Overflow_proofs Examples_codec.

(** [block] encodes the node with these [links] and this [data] *)
Definition encodes_node (block : bytes) (links : list pblink) (data : option bytes) : Prop :=
  exists fs, laxly node_known fs block /\ node_sem (laxly link_known) [] None fs links data.
(** [data] encodes [u] *)
Definition encodes_unixfs (data : bytes) (u : unixfs) : Prop :=
  exists fs, laxly unixfs_known fs data
    /\ unixfs_sem (laxly time_known) (UnixFs Raw None None [] None None None None) fs u.

(** C49: with overflow checks, a block parses to a message if and only if it
    encodes it, and is found to have no UnixFS data if and only if it encodes a
    node without. *)
Theorem C49_exact : forall block, blen block < 2 ^ 32 ->
  (forall links u, try_parse true block = Ok (Flat links u)
     <-> exists data, encodes_node block links (Some data) /\ data <> [] /\ encodes_unixfs data u)
  /\ (forall links, (exists n, try_parse true block = Err (NoData n) /\ n_links n = links)
     <-> encodes_node block links None \/ encodes_node block links (Some [])).
Proof.
  intros block L. assert (L64 : blen block < two64) by (unfold two64; lia). split.
  - intros links u. split.
    + intros H. apply bind_ok in H as [n [H1 H]]. apply map_err_ok in H1.
      apply (node_parse_inv block L64) in H1 as (fs & X1 & X2).
      destruct (n_data n) as [[off [|x xs]]|]; try discriminate. apply bind_ok in H as [d [H2 H]]. apply map_err_ok in H2. injection H as <- <-.
      exists (x :: xs). split; [exists fs; auto|]. split; [discriminate|].
      cbn [option_map snd] in X2. pose proof (node_sem_data _ _ _ _ _ _ X2 _ _ X1) as [?|D]; [discriminate|].
      apply unixfs_parse_inv in H2; [exact H2|lia].
    + intros (data & (fs & X1 & X2) & Hd & (ufs & Y1 & Y2)).
      exact (try_parse_lax true fs block links data ufs u X1 L X2 Hd Y1 Y2).
  - intros links. split.
    + intros (n & H & <-). unfold try_parse in H.
      destruct (pbnode_parse true block) as [n'| | |] eqn:E; cbn [map_err bind] in H; try discriminate.
      apply (node_parse_inv block L64) in E as (fs & X1 & X2).
      destruct (n_data n') as [[off [|x xs]]|] eqn:Ed.
      * injection H as <-. right. exists fs. split; [exact X1|exact X2].
      * destruct (unixfs_parse true (x :: xs)); discriminate.
      * injection H as <-. left. exists fs. split; [exact X1|exact X2].
    + assert (K : forall d, d = None \/ d = Some [] -> encodes_node block links d -> exists n, try_parse true block = Err (NoData n) /\ n_links n = links).
      { intros d Hd (fs & X1 & X2). destruct (node_parse_lax true fs block links d X1 L X2) as (s & P & D).
        exists (PBNode links s). split; [|reflexivity]. unfold try_parse. rewrite P. cbn [map_err bind n_data].
        destruct Hd as [-> | ->], s as [[off y]|]; cbn [data_at] in D; try contradiction; [reflexivity|].
        destruct D as [<- _]. reflexivity. }
      intros [H|H]; [exact (K None (or_introl eq_refl) H)|exact (K (Some []) (or_intror eq_refl) H)].
Qed.
Print Assumptions C49_exact.

(** In builds without overflow checks everything encoded is accepted, too, and
    the rest is treated the same way unless the checked build panics... *)
Theorem C49_release : forall block, blen block < 2 ^ 32 ->
  (forall links data u, encodes_node block links (Some data) -> data <> [] -> encodes_unixfs data u ->
     try_parse false block = Ok (Flat links u))
  /\ (try_parse true block <> Panic -> try_parse false block = try_parse true block).
Proof.
  intros block L. split.
  - intros links data u (fs & X1 & X2) Hd (ufs & Y1 & Y2). exact (try_parse_lax false fs block links data ufs u X1 L X2 Hd Y1 Y2).
  - intros H. apply try_parse_total. exact H.
Qed.
Print Assumptions C49_release.

(** ...in which case a block that encodes nothing at all can be accepted: an
    unknown field of length 2^64-1 sends the reader back to the last byte of that
    length, which it takes for a tag *)
Definition jump_block : bytes :=
  [x1a; xff; xff; xff; xff; xff; xff; xff; xff; xff; x01] ++ repeat x00 8 ++ [x0a; x02; x08; x02].

Theorem C49_release_refuted : exists block,
  blen block = 23 /\ try_parse true block = Panic
  /\ try_parse false block = Ok (Flat [] (UnixFs File None None [] None None None None))
  /\ ~ exists links data, encodes_node block links data.
Proof.
  exists jump_block. split; [reflexivity|]. split; [vm_compute; reflexivity|]. split; [vm_compute; reflexivity|].
  intros (links & data & fs & X & _). inversion X as [|f fs' a b Hf Hb E1 E2]. subst fs.
  destruct Hf as (tb & t & pb & [V _] & Ht & P & ->). rewrite <- app_assoc in E2.
  change jump_block with ([x1a] ++ [xff; xff; xff; xff; xff; xff; xff; xff; xff; x01] ++ (repeat x00 8 ++ [x0a; x02; x08; x02])) in E2.
  assert (V1 : is_varint [x1a] 26) by (apply (vi_last x1a); reflexivity).
  destruct (varint_prefix _ _ V _ _ _ _ V1 E2) as (-> & -> & E3). change (26 mod two32) with 26 in Ht.
  destruct f as [num v]. cbn [w_num w_val] in *.
  destruct v as [n|x|x|x]; cbn [wire_type] in Ht; try lia. assert (num = 3) as -> by lia.
  change (node_known 3) with false in P. destruct P as (lb & w & [V2 _] & L & ->). rewrite <- app_assoc in E3.
  assert (V3 : is_varint [xff; xff; xff; xff; xff; xff; xff; xff; xff; x01] 18446744073709551615).
  { pose proof (vi_last x01 ltac:(reflexivity)) as V0. do 9 (apply (vi_more xff) in V0; [|vm_compute; discriminate]). exact V0. }
  destruct (varint_prefix _ _ V2 _ _ _ _ V3 E3) as (-> & -> & E4).
  assert (LL : blen (x ++ b) = 12) by (rewrite E4; reflexivity). rewrite blen_app in LL.
  change (18446744073709551615 mod two64) with 18446744073709551615 in L. lia.
Qed.
Print Assumptions C49_release_refuted.

Example C49_nonvacuous : exists block links data u, blen block < 2 ^ 32
  /\ encodes_node block links (Some data) /\ data <> [] /\ encodes_unixfs data u /\ u_type u = File /\ length links = 1%nat.
Proof.
  destruct ex_fields as (fs & block & links & data & ufs & u & H1 & H2 & H3 & H4 & H5 & H6 & _ & _ & H7 & H8).
  pose proof (encodes_lax node_known _ _ H1 H2) as H1'.
  pose proof (node_sem_data _ _ _ _ _ _ H3 _ _ H1') as [?|D]; [discriminate|].
  exists block, links, data, u. split; [exact H2|]. split; [exists fs; split; [exact H1'|eapply node_sem_lax; eassumption]|].
  split; [exact H4|]. split; [|auto]. exists ufs. split; [apply encodes_lax; [exact H5|lia]|].
  eapply unixfs_sem_lax; [eassumption|eassumption|lia].
Qed.

(** C04: with overflow checks, parsing panics if and only if, reading the block
    as a node, or the data of the node it encodes as a UnixFS message, one comes
    to an ignored field ending beyond 2^64 (SpecOverflow.v). *)
Theorem C04_exact : forall block, blen block < 2 ^ 32 ->
  try_parse true block = Panic <->
  node_overflows block \/ exists links data, encodes_node block links (Some data) /\ unixfs_overflows data.
Proof.
  intros block L. assert (L32 : blen block < two32) by (unfold two32; lia).
  assert (L64 : blen block < two64) by (unfold two64; lia).
  rewrite <- (node_panic block L32). unfold try_parse. split.
  - intros H. destruct (pbnode_parse true block) as [n| | |] eqn:E; cbn [map_err bind] in H; try discriminate; [|left; reflexivity]. right.
    apply (node_parse_inv block L64) in E as (fs & X1 & X2).
    destruct (n_data n) as [[off [|x xs]]|] eqn:Ed; try discriminate. cbn [option_map snd] in X2.
    pose proof (node_sem_data _ _ _ _ _ _ X2 _ _ X1) as [?|D]; [discriminate|].
    exists (n_links n), (x :: xs). split; [exists fs; split; assumption|].
    apply unixfs_panic; [lia|]. destruct (unixfs_parse true (x :: xs)); cbn [map_err bind] in H; try discriminate. reflexivity.
  - intros [H|(links & data & (fs & X1 & X2) & U)]; [rewrite H; reflexivity|].
    destruct (node_parse_lax true fs block links (Some data) X1 L X2) as (s & P & D). rewrite P. cbn [map_err bind n_data].
    destruct s as [[off y]|]; cbn [data_at] in D; [|contradiction]. destruct D as [<- _].
    pose proof (node_sem_data _ _ _ _ _ _ X2 _ _ X1) as [?|D]; [discriminate|].
    apply unixfs_panic in U; [|lia]. destruct data as [|x xs]; [vm_compute in U; discriminate|]. rewrite U. reflexivity.
Qed.
Print Assumptions C04_exact.

(** an endless field of a node, of the UnixFS data, of a link, of an mtime, and
    one found behind the end of a link *)
Example C04_exact_nonvacuous :
  let endless := [x7a; xff; xff; xff; xff; xff; xff; xff; xff; xff; x01] in
  node_overflows ([x10; x05] ++ endless)
  /\ (exists links data, encodes_node ([x0a; n2b 11] ++ endless) links (Some data) /\ unixfs_overflows data)
  /\ node_overflows ([x12; n2b 11] ++ endless)
  /\ (exists links data, encodes_node ([x0a; n2b 13; x42; n2b 11] ++ endless) links (Some data) /\ unixfs_overflows data)
  /\ node_overflows ([x12; x02; x28; xff; x01] ++ endless)
  /\ ~ node_overflows [x12; x02; x28; x7f; x0a; x02; x08; x02].
Proof.
  intros endless.
  assert (K : forall block, blen block < 2 ^ 32 -> pbnode_parse true block = Panic -> node_overflows block)
    by (intros block L H; apply node_panic; assumption).
  assert (K2 : forall block, blen block < 2 ^ 32 -> try_parse true block = Panic -> pbnode_parse true block <> Panic ->
            exists links data, encodes_node block links (Some data) /\ unixfs_overflows data).
  { intros block L H N. apply C04_exact in H as [H|H]; [|exact H|exact L]. destruct N. apply node_panic; assumption. }
  split; [apply K; vm_compute; reflexivity|]. split; [apply K2; [vm_compute; reflexivity|vm_compute; reflexivity|vm_compute; discriminate]|].
  split; [apply K; vm_compute; reflexivity|]. split; [apply K2; [vm_compute; reflexivity|vm_compute; reflexivity|vm_compute; discriminate]|].
  split; [apply K; vm_compute; reflexivity|].
  intros H. apply node_panic in H; [|vm_compute; reflexivity]. vm_compute in H. discriminate.
Qed.

(** C05: the accessors of dag-pb nodes, exactly: node_data gives the data of the
    encoded node, and panics when the node overflows; wrap_node_data panics in
    addition when the node ends in an empty Data field *)
Theorem C05_exact : forall block, blen block < 2 ^ 32 ->
  (forall d, node_data true block = Ok d <-> exists links, encodes_node block links d)
  /\ (node_data true block = Panic <-> node_overflows block)
  /\ (wrap_node_data true block = Panic <->
      node_overflows block
      \/ exists fs links, laxly node_known (fs ++ [WField 1 (WLen [])]) block
           /\ node_sem (laxly link_known) [] None (fs ++ [WField 1 (WLen [])]) links (Some [])).
Proof.
  intros block L. assert (L64 : blen block < two64) by (unfold two64; lia).
  assert (ND : node_data true block = Panic <-> node_overflows block).
  { rewrite <- (node_panic block L). unfold node_data, node_data_slice. destruct (pbnode_parse true block); cbn; split; congruence. }
  split; [|split; [exact ND|]].
  - intros d. unfold node_data, node_data_slice. split.
    + intros H. destruct (pbnode_parse true block) as [n| | |] eqn:E; try discriminate. injection H as <-.
      apply (node_parse_inv block L64) in E as (fs & X1 & X2). exists (n_links n), fs. auto.
    + intros (links & fs & X1 & X2). destruct (node_parse_lax true fs block links d X1 L X2) as (s & P & D). rewrite P. cbn [bind n_data].
      destruct d as [x|], s as [[off y]|]; cbn [data_at] in D; try contradiction; [|reflexivity]. destruct D as [-> _]. reflexivity.
  - split.
    + intros H. pose proof (wrap_spec true block) as W. destruct (node_data true block) as [[x|]| | |] eqn:E.
      * destruct W as [(nd & W & _)|(-> & _ & W)]; [congruence|]. right.
        unfold node_data_slice in W. destruct (pbnode_parse true block) as [n| | |] eqn:En; try discriminate. injection W as W.
        pose proof En as En0. apply (node_parse_inv block L64) in En0 as (fs & X1 & X2). rewrite W in X2. cbn [option_map snd] in X2.
        destruct (proj1 (data_at_end true fs block _ _ X1 L X2)) as (fs' & ->); [exists n; auto|]. exists fs', (n_links n). auto.
      * destruct W as (nd & W & _). congruence.
      * congruence.
      * left. apply ND. reflexivity.
      * congruence.
    + intros [H|(fs & links & X1 & X2)].
      * apply ND in H. pose proof (wrap_spec true block) as W. rewrite H in W. exact W.
      * destruct (proj2 (data_at_end true _ block _ _ X1 L X2)) as (n & En & Ed); [exists fs; reflexivity|].
        unfold wrap_node_data, node_data_slice. rewrite En. cbn [bind]. rewrite Ed. unfold subslice_to_range.
        rewrite blen_nil. destruct (N.ltb_spec (blen block) 0); [lia|]. rewrite N.leb_refl. reflexivity.
Qed.
Print Assumptions C05_exact.

Example C05_exact_nonvacuous : exists fs links, fs <> [] /\ links <> [] /\
  laxly node_known (fs ++ [WField 1 (WLen [])]) [x12; x02; x18; x07; x0a; x00]
  /\ node_sem (laxly link_known) [] None (fs ++ [WField 1 (WLen [])]) links (Some []).
Proof.
  exists [WField 2 (WLen [x18; x07])], [PBLink None None (Some 7)]. split; [discriminate|]. split; [discriminate|].
  assert (V : forall x, b2n x < 128 -> varint [x] (b2n x)) by (intros x H; split; [constructor; exact H|cbn; lia]).
  split; cbn [app].
  - apply (lax_cons node_known (WField 2 (WLen [x18; x07])) _ [x12; x02; x18; x07]).
    + exists [x12], 18, [x02; x18; x07]. split; [apply (V x12); reflexivity|]. split; [reflexivity|]. split; [|reflexivity].
      exists [x02], 2. split; [apply (V x02); reflexivity|]. split; reflexivity.
    + apply (lax_cons node_known (WField 1 (WLen [])) [] [x0a; x00] []); [|constructor].
      exists [x0a], 10, [x00]. split; [apply (V x0a); reflexivity|]. split; [reflexivity|]. split; [|reflexivity].
      exists [x00], 0. split; [apply (V x00); reflexivity|]. split; reflexivity.
  - eapply (ns_link _ _ _ _ [WField 3 (WVarint 7)]).
    + apply (lax_cons link_known (WField 3 (WVarint 7)) [] [x18; x07] []); [|constructor].
      exists [x18], 24, [x07]. split; [apply (V x18); reflexivity|]. split; [reflexivity|]. split; [|reflexivity].
      exists 7. split; [apply (V x07); reflexivity|reflexivity].
    + apply ls_tsize. apply ls_nil.
    + apply ns_data. apply ns_nil.
Qed.

(** ** C45, again: the types of arbitrary blocks *)

(** the values of the type fields of a UnixFS message *)
Fixpoint type_fields (fs : list wfield) : list N :=
  match fs with
  | WField 1 (WVarint v) :: rest => v :: type_fields rest
  | _ :: rest => type_fields rest
  | [] => []
  end.

(** C45: the type of any block accepted (with overflow checks; without, see
    C49_release) is the one the last type field of its data tells, modulo 2^32:
    one of the six known ones, and Raw for any other value and if there is no
    type field at all. *)
Theorem C45_exact : forall block links u, blen block < 2 ^ 32 -> try_parse true block = Ok (Flat links u) ->
  exists data fs, encodes_node block links (Some data) /\ laxly unixfs_known fs data
  /\ unixfs_sem (laxly time_known) (UnixFs Raw None None [] None None None None) fs u
  /\ let v := last (type_fields fs) 0 mod 2 ^ 32 in
     u_type u = (if v =? 1 then Directory else if v =? 2 then File else if v =? 3 then Metadata
                 else if v =? 4 then Symlink else if v =? 5 then HAMTShard else Raw).
Proof.
  intros block links u L H. apply (proj1 (C49_exact block L)) in H as (data & N & _ & fs & E & S).
  exists data, fs. split; [exact N|]. split; [exact E|]. split; [exact S|]. cbv zeta. clear - S.
  assert (G : forall m fs u, unixfs_sem (laxly time_known) m fs u -> forall d, u_type m = type_value (d mod 2 ^ 32) ->
    u_type u = type_value (last (type_fields fs) d mod 2 ^ 32)).
  { clear. induction 1 as [m|ty d s bs h fa mo t v fs m' H IH|ty d s bs h fa mo t x fs m' H IH|ty d s bs h fa mo t v fs m' H IH
      |ty d s bs h fa mo t v fs m' H IH|ty d s bs h fa mo t v fs m' H IH|ty d s bs h fa mo t v fs m' H IH
      |ty d s bs h fa mo t v fs m' H IH|ty d s bs h fa mo t x tfs tm fs m' H1 H2 H IH|m f fs m' N1 N2 N3 N4 N5 N6 N7 N8 H IH];
      intros d0 E; try exact E; try exact (IH d0 E).
    - cbn [type_fields]. rewrite (IH v eq_refl). f_equal. f_equal. clear. revert d0 v.
      induction (type_fields fs) as [|y l IH]; intros d0 v; [reflexivity|].
      change (last (v :: y :: l) d0) with (last (y :: l) d0). destruct l as [|z l]; [reflexivity|].
      change (last (y :: z :: l) v) with (last (z :: l) v). change (last (y :: z :: l) d0) with (last (z :: l) d0).
      clear. revert z. induction l as [|w l IH]; intros z; [reflexivity|]. exact (IH w).
    - replace (type_fields (f :: fs)) with (type_fields fs); [exact (IH d0 E)|].
      destruct f as [[|[p|p|]] [v| | |]]; cbn [type_fields]; try reflexivity. exfalso. exact (N1 v eq_refl). }
  exact (G _ _ _ S 0 eq_refl).
Qed.
Print Assumptions C45_exact.
(** a block of the undefined type 77 *)
Example C45_exact_nonvacuous : exists block links u, blen block < 2 ^ 32 /\ try_parse true block = Ok (Flat links u)
  /\ exists fs, laxly unixfs_known fs [x08; n2b 77; x12; x01; x61; x18; x01] /\ type_fields fs = [77] /\ u_type u = Raw.
Proof.
  eexists [x0a; x07; x08; n2b 77; x12; x01; x61; x18; x01], _, _. split; [reflexivity|]. split; [vm_compute; reflexivity|].
  exists [WField 1 (WVarint 77); WField 2 (WLen [x61]); WField 3 (WVarint 1)]. split; [|split; reflexivity].
  assert (V : forall x, b2n x < 128 -> varint [x] (b2n x)) by (intros x Hx; split; [apply vi_last; exact Hx|cbn; lia]).
  apply (lax_cons unixfs_known _ _ [x08; n2b 77]).
  { exists [x08], 8, [n2b 77]. split; [apply (V x08); reflexivity|]. split; [reflexivity|]. split; [|reflexivity].
    exists 77. split; [apply (V (n2b 77)); reflexivity|reflexivity]. }
  apply (lax_cons unixfs_known _ _ [x12; x01; x61]).
  { exists [x12], 18, [x01; x61]. split; [apply (V x12); reflexivity|]. split; [reflexivity|]. split; [|reflexivity].
    exists [x01], 1. split; [apply (V x01); reflexivity|]. split; reflexivity. }
  apply (lax_cons unixfs_known _ _ [x18; x01] []); [|constructor].
  exists [x18], 24, [x01]. split; [apply (V x18); reflexivity|]. split; [reflexivity|]. split; [|reflexivity].
  exists 1. split; [apply (V x01); reflexivity|reflexivity].
Qed.
