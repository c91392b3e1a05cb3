(** * Property C04, without overflow checks: in which blocks parsing stays for
    ever.  The vocabulary is in SpecHang.v, the proofs in Hang_proofs.v. *)
From Verif Require Import Base Tac Wire Utf8 Cid Pb Dagpb SpecWire SpecOverflow SpecHang Parse_safety Hang_proofs.

(** C04: without overflow checks, parsing a block ends if and only if reading it,
    and the UnixFS data in it, never comes back to a position it has left.  (That
    [Diverge] is to stay for ever: C04_fuel.) *)
Theorem C04_hangs : forall block, blen block < 2 ^ 32 ->
  try_parse false block = Diverge <->
  node_hangs block \/ exists data, node_data false block = Ok (Some data) /\ unixfs_hangs data.
Proof. exact parse_hangs. Qed.
Print Assumptions C04_hangs.

(** the same for the two messages on their own *)
Theorem C04_messages_hang : forall bytes, blen bytes < 2 ^ 32 ->
  (pbnode_parse false bytes = Diverge <-> node_hangs bytes)
  /\ (unixfs_parse false bytes = Diverge <-> unixfs_hangs bytes)
  /\ (node_data false bytes = Diverge <-> node_hangs bytes).
Proof.
  intros b L. split; [exact (node_parse_hangs b L)|]. split; [exact (unixfs_parse_hangs b L)|].
  rewrite <- (node_parse_hangs b L). unfold node_data, node_data_slice. destruct (pbnode_parse false b); cbn [bind]; split; congruence.
Qed.
Print Assumptions C04_messages_hang.

(** Examples: an ignored field (of number 15) as long as to end where it began, *)
Definition endless_varint : bytes := [xf5; xff; xff; xff; xff; xff; xff; xff; xff; x01].
Lemma endless_is : varint endless_varint (2 ^ 64 - 11).
Proof.
  split; [|cbn; lia]. assert (H : exists v, is_varint endless_varint v /\ v = 2 ^ 64 - 11).
  { eexists. split; [repeat first [eapply vi_last; reflexivity|eapply vi_more; [discriminate|]]|]. vm_compute. reflexivity. }
  destruct H as (v & H & <-). exact H.
Qed.
Example C04_hangs_nonvacuous : node_hangs (x7a :: endless_varint)
  /\ unixfs_hangs (x7a :: endless_varint)
  (** the same in a link: in a link of eleven bytes *)
  /\ node_hangs (x12 :: x0b :: x7a :: endless_varint)
  (** and a block in which it ends: the ignored field has eleven bytes *)
  /\ ~ node_hangs [x7a; x01; x41].
Proof.
  assert (T : forall post, number_at (x7a :: post) 0 0x7a 1).
  { intros post. exists [x7a]. split; [split; [apply (vi_last x7a); reflexivity|cbn; lia]|]. split; [|reflexivity]. exists [], post. auto. }
  assert (L : number_at (x7a :: endless_varint) 1 (2 ^ 64 - 11) 11).
  { exists endless_varint. split; [exact endless_is|]. split; [|reflexivity]. exists [x7a], []. auto. }
  assert (I : ignored (x7a :: endless_varint) 1 2 0).
  { right. right. left. split; [reflexivity|]. eexists _, _. split; [exact L|]. reflexivity. }
  split; [|split; [|split]].
  - left. exists 0, 0. split; [constructor|]. split; [discriminate|]. split; [|constructor]. exists 0x7a, 1. split; [apply T|exact I].
  - left. exists 0, 0. split; [constructor|]. split; [discriminate|]. split; [|constructor]. exists 0x7a, 1. split; [apply T|exact I].
  - apply node_parse_hangs; [reflexivity|]. vm_compute. reflexivity.
  - intros H. apply node_parse_hangs in H; [|reflexivity]. vm_compute in H. discriminate H.
Qed.
