(** * Property C71: the messages PBNode and UnixFs on their own *)
From Verif Require Import Base Tac Wire Utf8 Cid Pb SpecWire Wire_proofs Pb_proofs Codec_proofs Examples_codec.

(** C71: parsing what a node was written as gives its links and data back; the
    parsed data is a part of the block *)
Theorem C71_node_round_trip : forall dbg n,
  Forall link_fits (n_links n) -> blen (pbnode_write n) < 2 ^ 32 ->
  exists d, pbnode_parse dbg (pbnode_write n) = Ok (PBNode (n_links n) d)
  /\ option_map snd d = option_map snd (n_data n)
  /\ forall at_ x, d = Some (at_, x) -> exists pre post, pbnode_write n = pre ++ x ++ post /\ at_ = blen pre.
Proof.
  intros dbg [ls d] F L. cbn [n_links n_data] in *. change (2 ^ 32) with two32 in L. pose proof (two32_lt_two64 _ L) as L64.
  set (data := match d with None => [] | Some s => [WField 1 (WLen (snd s))] end).
  destruct (node_parse_fields dbg (map (fun l => WField 2 (WLen (pblink_write l))) ls ++ data)
    (pbnode_write (PBNode ls d)) ls (option_map snd d)) as (s & P & A); [|exact L| |].
  - unfold pbnode_write in *. cbn [n_links n_data] in *. rewrite blen_app in L64. apply encodes_app.
    + assert (Hc : blen (concat (map (fun l => write_with_tag 18 (write_message (pblink_size l) (pblink_write l))) ls)) < two64) by lia.
      clear - Hc. induction ls as [|l ls IH]; cbn [map concat] in *; [apply enc_nil|].
      rewrite blen_app in Hc. apply enc_cons; [|apply IH; lia].
      unfold write_message in *. rewrite pblink_size_ok in *.
      apply (enc_len 2); [lia|]. unfold write_with_tag in Hc. rewrite !blen_app in Hc. lia.
    + unfold data. destruct d as [[p x]|]; cbn [opt snd] in *; [|apply enc_nil]. apply encodes_one. apply (enc_len 1); [lia|].
      unfold write_with_tag, write_bytes in L64. rewrite !blen_app in L64. lia.
  - unfold pbnode_write in L64. cbn [n_links n_data] in L64. rewrite blen_app in L64.
    assert (Hc : blen (concat (map (fun l => write_with_tag 18 (write_message (pblink_size l) (pblink_write l))) ls)) < two64) by lia.
    clear L L64. cut (forall ls0, node_sem encodes ls0 None (map (fun l => WField 2 (WLen (pblink_write l))) ls ++ data) (ls0 ++ ls) (option_map snd d)).
    { intros H. exact (H []). }
    induction F as [|l ls Hlf Hf IH]; intros ls0; cbn [map concat app] in *.
    + rewrite app_nil_r. unfold data. destruct d as [[p x]|]; cbn [option_map snd]; [apply ns_data|]; apply ns_nil.
    + rewrite blen_app in Hc. eapply ns_link with (lfs := link_fields l) (l := l).
      * apply link_write_encodes; [exact Hlf|]. unfold write_message, write_with_tag in Hc. rewrite !blen_app in Hc. lia.
      * apply link_write_sem. exact Hlf.
      * replace (ls0 ++ l :: ls) with ((ls0 ++ [l]) ++ ls) by app_assoc. apply IH. lia.
  - exists s. split; [exact P|]. unfold data_at in A. destruct d as [[p x]|]; cbn [option_map snd] in *; destruct s as [[q y]|]; try contradiction.
    + destruct A as (-> & pre & post & A). split; [reflexivity|]. intros at_ x' [= <- <-]. exists pre, post. destruct A as (A1 & A2 & _). split; [exact A1|symmetry; exact A2].
    + split; [reflexivity|discriminate].
Qed.
Print Assumptions C71_node_round_trip.

(** the same for UnixFs messages *)
Theorem C71_unixfs_round_trip : forall dbg u, unixfs_fits u -> blen (unixfs_write u) < 2 ^ 32 ->
  unixfs_of_data dbg (Some (unixfs_write u)) = Ok u.
Proof.
  intros dbg u F L. change (2 ^ 32) with two32 in L. unfold unixfs_of_data. apply (unixfs_parse_fields dbg (unixfs_fields u)); [|exact L|].
  - apply unixfs_write_encodes; [exact F|apply two32_lt_two64; exact L].
  - apply unixfs_write_sem. exact F.
Qed.
Print Assumptions C71_unixfs_round_trip.

(** a FlatUnixFs is written as the node with the written UnixFs as its data *)
Theorem C71_flat_is_node : forall f at_, flat_write f = pbnode_write (PBNode (f_links f) (Some (at_, unixfs_write (f_data f)))).
Proof.
  intros f at_. unfold flat_write, pbnode_write. cbn [n_links n_data opt snd]. f_equal. f_equal. unfold write_message, write_bytes. rewrite unixfs_size_ok. reflexivity.
Qed.
Print Assumptions C71_flat_is_node.

(** and reading in two steps, first the node and then its data, is the same as
    reading a FlatUnixFs, if there is any data *)
Theorem C71_two_steps : forall dbg block f,
  try_parse dbg block = Ok f
  <-> exists n d at_, pbnode_parse dbg block = Ok n /\ n_data n = Some (at_, d) /\ d <> []
      /\ unixfs_of_node dbg n = Ok (f_data f) /\ f_links f = n_links n.
Proof.
  intros dbg block f. unfold try_parse, unixfs_of_node, unixfs_of_data. split.
  - destruct (pbnode_parse dbg block) as [n|e| |]; cbn [map_err bind]; try discriminate.
    destruct (n_data n) as [[at_ [|x xs]]|] eqn:D; try discriminate. destruct (unixfs_parse dbg (x :: xs)) as [u|e| |] eqn:U; cbn [map_err bind]; try discriminate.
    intros [= <-]. exists n, (x :: xs), at_. cbn [f_data f_links]. rewrite D. cbn [option_map snd]. repeat split; [discriminate|exact U].
  - intros (n & d & at_ & -> & D & NE & U & L). cbn [map_err bind]. rewrite D in *. cbn [option_map snd] in U. destruct d as [|x xs]; [congruence|].
    rewrite U. cbn [map_err bind]. destruct f; cbn in *. congruence.
Qed.
Print Assumptions C71_two_steps.

(** One would expect a node without data, or with none in it, not to be UnixFS,
    as for FlatUnixFs; but it is read as an empty message, of type Raw *)
Theorem C71_no_data_refuted : forall dbg links,
  unixfs_of_node dbg (PBNode links None) = Ok (UnixFs Raw None None [] None None None None)
  /\ forall at_, unixfs_of_node dbg (PBNode links (Some (at_, []))) = Ok (UnixFs Raw None None [] None None None None).
Proof. intros dbg links. split; [|intros at_]; destruct dbg; reflexivity. Qed.
Print Assumptions C71_no_data_refuted.

Example C71_nonvacuous : exists n, length (n_links n) = 2%nat /\ Forall link_fits (n_links n) /\ blen (pbnode_write n) < 2 ^ 32
  /\ option_map snd (n_data n) = Some (unixfs_write (f_data ex_flat)) /\ unixfs_fits (f_data ex_flat).
Proof.
  exists (PBNode (f_links ex_flat) (Some (0, unixfs_write (f_data ex_flat)))). pose proof ex_flat_ok as (F & U & L).
  split; [reflexivity|]. split; [exact F|]. split; [vm_compute; reflexivity|]. split; [reflexivity|exact U].
Qed.
