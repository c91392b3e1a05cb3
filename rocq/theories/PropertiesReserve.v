(** * Property C82: configurations whose buffers cannot exist
    (/repo/src/file/adder.rs).  [lsz] is the size in bytes of a PBLink in memory.
    Proofs: Reserve_proofs.v. *)
From Verif Require Import Base Wire Cid Sha256 Pb Adder SpecAdder Adder_proofs Adder_thms Reserve SpecReserve Reserve_proofs PropertiesAdder.

Lemma holds_addressable size n : holds size n = true <-> addressable size n.
Proof. unfold holds, addressable, isize_max. rewrite N.leb_le. change (2 ^ 63) with 9223372036854775808. lia. Qed.
Lemma fits_addressable lsz bf : collector_fits lsz bf = true <-> addressable lsz bf /\ addressable 8 bf.
Proof. unfold collector_fits. rewrite andb_true_iff, !holds_addressable. reflexivity. Qed.
Lemma unfit_addressable lsz bf : collector_fits lsz bf = false <-> ~ (addressable lsz bf /\ addressable 8 bf).
Proof. rewrite <- fits_addressable. destruct (collector_fits lsz bf); split; congruence. Qed.

(** C82: every chunk size and every branching factor is accepted; a push call
    panics exactly if the chunk size is 2^63 or more, or if it completes a chunk
    and the branching factor is so large that the links of a node have no room.
    Otherwise it does what C06-C15 say (there [push]). *)
Theorem C82_push : forall X lsz chunk bf a0 c out a input,
  ext_ok X -> 1 <= chunk < 2 ^ 64 -> 1 <= bf -> adder_new chunk bf = Ok a0 ->
  session_res X lsz a0 c out a -> blen c + blen input <= max_content ->
  (push_res X lsz a input = Panic <->
   ~ addressable 1 chunk
   \/ chunk <= blen c mod chunk + blen input /\ ~ (addressable lsz bf /\ addressable 8 bf))
  /\ (push_res X lsz a input <> Panic ->
      push_res X lsz a input = push X a input /\ exists a' bs n, push X a input = Ok (a', bs, n)).
Proof.
  intros X lsz chunk bf a0 c out a input HX Hc Hb Hn Hs Hm. apply adder_new_ok in Hn. subst a0.
  destruct (push_exact X lsz HX chunk bf c out a input Hc Hb Hs Hm) as [E R]. split; [|exact R].
  rewrite E. rewrite <- unfit_addressable, <- holds_addressable. unfold holds. rewrite N.leb_le, N.mul_1_r.
  split; (intros [?|?]; [left; lia|right; assumption]).
Qed.
Print Assumptions C82_push.

(** C82: finish panics exactly if the links of a node have no room, even when
    there is a single chunk and no node *)
Theorem C82_finish : forall X lsz chunk bf a0 c out a,
  ext_ok X -> 1 <= chunk < 2 ^ 64 -> 1 <= bf -> adder_new chunk bf = Ok a0 ->
  session_res X lsz a0 c out a -> blen c <= max_content ->
  (~ (addressable lsz bf /\ addressable 8 bf) -> finish_res X lsz a = Panic)
  /\ (addressable lsz bf /\ addressable 8 bf -> finish_res X lsz a = finish X a).
Proof.
  intros X lsz chunk bf a0 c out a HX Hc Hb Hn Hs Hm. apply adder_new_ok in Hn. subst a0.
  destruct (state_of X lsz HX chunk bf c out a Hc Hb Hs Hm) as (_ & E & _). unfold finish_res. rewrite E. split.
  - intros H. apply unfit_addressable in H. rewrite H. reflexivity.
  - intros H. apply fits_addressable in H. rewrite H. reflexivity.
Qed.
Print Assumptions C82_finish.

(** C82: whatever was pushed without a panic is a session of C06-C15; and when
    everything is addressable, which includes the configurations [cfg_ok] allows
    for but those beyond memory, there is no difference at all *)
Theorem C82_sessions : forall X lsz chunk bf a0 c out a,
  ext_ok X -> 1 <= chunk < 2 ^ 64 -> 1 <= bf -> adder_new chunk bf = Ok a0 -> blen c <= max_content ->
  (session_res X lsz a0 c out a -> session X a0 c out a)
  /\ (addressable 1 chunk -> addressable lsz bf -> addressable 8 bf ->
      cfg_ok chunk bf /\ (session X a0 c out a -> session_res X lsz a0 c out a)).
Proof.
  intros X lsz chunk bf a0 c out a HX Hc Hb Hn Hm. split; [apply session_res_sound|]. intros F1 F2 F3.
  assert (F : collector_fits lsz bf = true) by (apply fits_addressable; auto).
  assert (Hcfg : cfg_ok chunk bf) by (eapply fits_cfg; eassumption). split; [exact Hcfg|].
  intros Hs. revert Hm. induction Hs as [a|a c out a1 input a2 bs n Hs IH P]; intros Hm; [constructor|].
  rewrite blen_app in Hm. specialize (IH Hn ltac:(lia)).
  econstructor; [exact IH|].
  (* only the consumed part of the input matters for the bound *)
  pose proof Hn as Hn'. apply adder_new_ok in Hn'. subst a.
  destruct (state_of X lsz HX chunk bf c out a1 Hc Hb IH ltac:(lia)) as (E1 & E2 & _ & _).
  unfold push_res. rewrite E1, E2, F. apply holds_addressable in F1. rewrite F1.
  unfold push in P |- *. rewrite E1 in *. destruct (accept X chunk input (a_buf a1)) as [[acc ready]| | |]; cbn [bind] in *; try discriminate.
  rewrite !andb_false_r. exact P.
Qed.
Print Assumptions C82_sessions.

(** three configurations, links of 64 bytes: the default one; nodes of 2^60 links,
    which can be pushed to while no chunk is complete; chunks of 2^63 bytes *)
Example C82_nonvacuous : forall dbg,
  (addressable 1 262144 /\ addressable 64 174 /\ addressable 8 174)
  /\ ~ addressable 64 (2 ^ 60) /\ ~ addressable 1 (2 ^ 63)
  /\ (exists a, session_res (ex_ext dbg) 64 (Adder 4 (2 ^ 60) [] []) [x61; x62] [] a
      /\ push_res (ex_ext dbg) 64 a [x63] <> Panic
      /\ push_res (ex_ext dbg) 64 a [x63; x64] = Panic
      /\ finish_res (ex_ext dbg) 64 a = Panic
      /\ (exists b, finish (ex_ext dbg) a = Ok [b]))
  /\ push_res (ex_ext dbg) 64 (Adder (2 ^ 63) 174 [] []) [] = Panic.
Proof.
  intros dbg. split; [repeat split; vm_compute; reflexivity|]. split; [intros H; vm_compute in H; discriminate|].
  split; [intros H; vm_compute in H; discriminate|]. split; [|destruct dbg; vm_compute; reflexivity].
  exists (Adder 4 (2 ^ 60) [x61; x62] []). split.
  - change [x61; x62] with (@nil byte ++ firstn (N.to_nat 2) [x61; x62]) at 1. change (@nil cblock) with (@nil cblock ++ []).
    econstructor; [constructor|]. destruct dbg; vm_compute; reflexivity.
  - split; [destruct dbg; vm_compute; discriminate|]. split; [destruct dbg; vm_compute; reflexivity|].
    split; [destruct dbg; vm_compute; reflexivity|]. destruct dbg; vm_compute; eexists; reflexivity.
Qed.
