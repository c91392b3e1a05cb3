(** * Parsed: what is true of every message [try_parse] returns *)
From Verif Require Import Base Tac Wire Utf8 Cid Pb Wire_proofs Pb_proofs Codec_proofs Parse_safety.

Lemma varint64_go_lt b n : forall r acc sh r' v, acc < sh ->
  varint64_go b n r acc sh = Ok (r', v) -> v < sh * (128 ^ N.of_nat n * 2).
Proof.
  induction n as [|n IH]; intros r acc sh r' v Ha H; cbn [varint64_go] in H;
    apply bind_ok in H as [[r1 x] [_ H]].
  - destruct (b2n x <? 128); [|discriminate]. inv H. change (128 ^ N.of_nat 0) with 1.
    assert (b2n x mod 2 < 2) by (apply N.mod_lt; lia). nia.
  - assert (b2n x mod 128 < 128) by (apply N.mod_lt; lia).
    assert (A' : acc + b2n x mod 128 * sh < sh * 128) by nia.
    assert (P : 0 < 128 ^ N.of_nat n) by (apply N.neq_0_lt_0, N.pow_nonzero; lia).
    rewrite Nat2N.inj_succ, N.pow_succ_r'.
    destruct (b2n x <? 128).
    + inv H. nia.
    + specialize (IH _ _ _ _ _ A' H). nia.
Qed.
Lemma read_varint64_lt b r r' v : read_varint64 b r = Ok (r', v) -> v < two64.
Proof. intros H. apply varint64_go_lt in H; [exact H|lia]. Qed.

Lemma skip_cont_val b n : forall r v r' v', skip_cont b n r v = Ok (r', v') -> v' = v.
Proof.
  induction n as [|n IH]; intros r v r' v' H; cbn [skip_cont] in H; [discriminate|].
  apply bind_ok in H as [[r1 x] [_ H]]. destruct (b2n x <? 128); [inv H; reflexivity|]. eapply IH; exact H.
Qed.
Lemma varint32_go_lt b n : forall r acc sh r' v, acc < sh ->
  varint32_go b n r acc sh = Ok (r', v) -> v < sh * (128 ^ N.of_nat n * 16).
Proof.
  induction n as [|n IH]; intros r acc sh r' v Ha H; cbn [varint32_go] in H;
    apply bind_ok in H as [[r1 x] [_ H]].
  - change (128 ^ N.of_nat 0) with 1. assert (b2n x mod 16 < 16) by (apply N.mod_lt; lia).
    destruct (b2n x <? 128); [inv H; nia|]. apply skip_cont_val in H. subst. nia.
  - assert (b2n x mod 128 < 128) by (apply N.mod_lt; lia).
    assert (A' : acc + b2n x mod 128 * sh < sh * 128) by nia.
    assert (P : 0 < 128 ^ N.of_nat n) by (apply N.neq_0_lt_0, N.pow_nonzero; lia).
    rewrite Nat2N.inj_succ, N.pow_succ_r'.
    destruct (b2n x <? 128).
    + inv H. nia.
    + specialize (IH _ _ _ _ _ A' H). nia.
Qed.
Lemma read_varint32_lt b r r' v : read_varint32 b r = Ok (r', v) -> v < two32.
Proof. intros H. apply varint32_go_lt in H; [exact H|lia]. Qed.

(** names are strings *)
Definition link_str (l : pblink) : Prop :=
  match l_name l with Some n => utf8_valid n = true | None => True end
  /\ match l_tsize l with Some n => n < two64 | None => True end.
Definition unixfs_bounds (u : unixfs) : Prop :=
  (forall n, u_filesize u = Some n -> n < two64) /\ Forall (fun n => n < two64) (u_blocksizes u)
  /\ (forall n, u_hashtype u = Some n -> n < two64) /\ (forall n, u_fanout u = Some n -> n < two64)
  /\ (forall n, u_mode u = Some n -> n < two32).

Lemma pblink_step_str dbg b t m r r' m' : link_str m -> pblink_step dbg b t m r = Ok (r', m') -> link_str m'.
Proof.
  intros Hm H.
  destruct (N.eq_dec t 10) as [->|].
  { apply bind_ok in H as [[r1 v] [_ H]]. inv H. exact Hm. }
  destruct (N.eq_dec t 18) as [->|].
  { apply bind_ok in H as [[r1 v] [Hs H]]. inv H. split; [|exact (proj2 Hm)]. cbn.
    unfold read_string, read_len_varint in Hs.
    apply bind_ok in Hs as [[r2 len] [_ H]]. apply bind_ok in H as [e [_ H]]. apply bind_ok in H as [x [H1 H]].
    inv H. destruct (get_range _ _ _); [|discriminate]. destruct (utf8_valid l) eqn:E; [|discriminate].
    inv H1. exact E. }
  destruct (N.eq_dec t 24) as [->|].
  { apply bind_ok in H as [[r1 v] [Hs H]]. inv H. split; [exact (proj1 Hm)|]. cbn. eapply read_varint64_lt; exact Hs. }
  rewrite pblink_step_other in H by assumption.
  apply bind_ok in H as [r1 [_ H]]. inv H. exact Hm.
Qed.

Definition node_strs (n : pbnode) : Prop := Forall link_str (n_links n).

Lemma pbnode_step_strs dbg b t m r r' m' : node_strs m -> pbnode_step dbg b t m r = Ok (r', m') -> node_strs m'.
Proof.
  intros Hm H.
  destruct (N.eq_dec t 10) as [->|].
  { apply bind_ok in H as [[r1 v] [_ H]]. inv H. exact Hm. }
  destruct (N.eq_dec t 18) as [->|].
  { apply bind_ok in H as [[r1 v] [Hs H]]. inv H. unfold node_strs. cbn.
    apply Forall_app. split; [exact Hm|]. constructor; [|constructor].
    unfold read_message, read_len_varint in Hs.
    apply bind_ok in Hs as [[r2 len] [_ H]]. apply bind_ok in H as [e [_ H]]. apply bind_ok in H as [x [H1 H]].
    inv H. apply bind_ok in H1 as [[r3 m3] [H1 H]]. inv H.
    eapply (msg_loop_inv b (pblink_step dbg b) link_str); [|exact (conj I I : link_str pblink_default)|exact H1].
    intros t0 m0 r0 r1' m1. apply pblink_step_str. }
  rewrite pbnode_step_other in H by assumption.
  apply bind_ok in H as [r1 [_ H]]. inv H. exact Hm.
Qed.

Lemma pbnode_parse_strs dbg b n : pbnode_parse dbg b = Ok n -> node_strs n.
Proof.
  intros H. apply bind_ok in H as [[r m] [H E]]. inv E.
  eapply (msg_loop_inv b (pbnode_step dbg b) node_strs); [|exact (Forall_nil _ : node_strs pbnode_default)|exact H].
  intros t m r0 r' m'. apply pbnode_step_strs.
Qed.

Lemma unixfs_step_bounds dbg b t m r r' m' : unixfs_bounds m -> unixfs_step dbg b t m r = Ok (r', m') -> unixfs_bounds m'.
Proof.
  intros Hm H. pose proof Hm as HH. destruct m as [ty da fs bs ht fa mo mt].
  destruct Hm as (B1 & B2 & B3 & B4 & B5). cbn in B1, B2, B3, B4, B5.
  destruct (N.eq_dec t 8) as [->|].
  { apply bind_ok in H as [[r1 v] [_ H]]. inv H. exact HH. }
  destruct (N.eq_dec t 18) as [->|].
  { apply bind_ok in H as [[r1 v] [_ H]]. inv H. exact HH. }
  destruct (N.eq_dec t 24) as [->|].
  { apply bind_ok in H as [[r1 v] [Hs H]]. inv H. apply read_varint64_lt in Hs. repeat split; cbn; auto. intros ? E; inv E; exact Hs. }
  destruct (N.eq_dec t 32) as [->|].
  { apply bind_ok in H as [[r1 v] [Hs H]]. inv H. apply read_varint64_lt in Hs. repeat split; cbn; auto. apply Forall_app; auto. }
  destruct (N.eq_dec t 40) as [->|].
  { apply bind_ok in H as [[r1 v] [Hs H]]. inv H. apply read_varint64_lt in Hs. repeat split; cbn; auto. intros ? E; inv E; exact Hs. }
  destruct (N.eq_dec t 48) as [->|].
  { apply bind_ok in H as [[r1 v] [Hs H]]. inv H. apply read_varint64_lt in Hs. repeat split; cbn; auto. intros ? E; inv E; exact Hs. }
  destruct (N.eq_dec t 56) as [->|].
  { apply bind_ok in H as [[r1 v] [Hs H]]. inv H. apply read_varint32_lt in Hs. repeat split; cbn; auto. intros ? E; inv E; exact Hs. }
  destruct (N.eq_dec t 66) as [->|].
  { apply bind_ok in H as [[r1 v] [Hs H]]. inv H. exact HH. }
  rewrite unixfs_step_other in H by assumption.
  apply bind_ok in H as [r1 [_ H]]. inv H. exact HH.
Qed.

Lemma unixfs_parse_bounds dbg b u : unixfs_parse dbg b = Ok u -> unixfs_bounds u.
Proof.
  intros H. apply bind_ok in H as [[r m] [H E]]. inv E.
  eapply (msg_loop_inv b (unixfs_step dbg b) unixfs_bounds) with (m := unixfs_default); [| |exact H].
  - intros t m r0 r' m'. apply unixfs_step_bounds.
  - repeat split; cbn; try discriminate. constructor.
Qed.

Lemma try_parse_parsed dbg b f : try_parse dbg b = Ok f -> Forall link_str (f_links f) /\ unixfs_bounds (f_data f).
Proof.
  intros H. apply bind_ok in H as [n [H1 H]].
  destruct (pbnode_parse dbg b) as [n'| | |] eqn:E; cbn [map_err] in H1; try discriminate. inv H1.
  apply pbnode_parse_strs in E.
  destruct (n_data n) as [[o [|x xs]]|]; try discriminate.
  apply bind_ok in H as [d [H1 H]]. inv H. split; [exact E|]. cbn.
  destruct (unixfs_parse dbg (x :: xs)) eqn:E2; cbn in H1; inv H1. eapply unixfs_parse_bounds; exact E2.
Qed.
