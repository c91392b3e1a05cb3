(** * Reserve_proofs: proofs for PropertiesReserve.v *)
From Verif Require Import Base Tac Wire Cid Sha256 Pb Adder SpecAdder Adder_proofs Adder_thms Reserve SpecReserve.

Section reserve.
Context (X : ext) (lsz : N).

Lemma accept_spec chunk input buf : blen buf < chunk -> chunk < two64 -> blen buf + blen input < two64 ->
  exists acc, accept X chunk input buf = Ok (acc, chunk <=? blen buf + blen input).
Proof.
  intros H1 H2 H3. unfold accept. rewrite sub64_ok by lia. cbn [bind]. rewrite add64_ok by lia. cbn [bind].
  eexists. f_equal. f_equal.
  destruct (N.leb_spec chunk (blen buf + N.min (blen input) (chunk - blen buf))), (N.leb_spec chunk (blen buf + blen input)); lia || reflexivity.
Qed.

Lemma push_res_ok a input r : push_res X lsz a input = Ok r -> push X a input = Ok r.
Proof.
  unfold push_res. intros H. apply bind_ok in H as [[acc ready] [_ H]].
  destruct (negb _ && negb _); [discriminate|]. destruct (ready && negb _); [discriminate|]. exact H.
Qed.

Lemma session_res_sound a0 c out a : session_res X lsz a0 c out a -> session X a0 c out a.
Proof.
  induction 1 as [|a c out a1 input a2 bs n H IH P]; [constructor|]. econstructor; [exact IH|]. apply push_res_ok, P.
Qed.

(** without room for the links nothing gets past the first chunk *)
Lemma unfit_state chunk bf c out a :
  1 <= chunk < two64 -> collector_fits lsz bf = false ->
  session_res X lsz (Adder chunk bf [] []) c out a -> blen c <= max_content ->
  a = Adder chunk bf c [] /\ blen c < chunk /\ out = [].
Proof.
  intros Hc Hb H. remember (Adder chunk bf [] []) as a0 eqn:E.
  induction H as [a|a c out a1 input a2 bs n H IH P]; intros Hm.
  - subst a. split; [reflexivity|]. split; [rewrite blen_nil; lia | reflexivity].
  - rewrite blen_app in Hm. destruct (IH E ltac:(lia)) as (-> & Hlt & ->).
    pose proof (push_res_ok _ _ _ P) as P'. unfold push_res in P. cbn [a_chunk a_buf a_bf] in P.
    rewrite Hb in P. apply bind_ok in P as [[acc ready] [A P]]. unfold push in P'. cbn [a_chunk a_buf a_bf a_links] in P'.
    rewrite A in P'. cbn [bind] in P'.
    destruct (negb _ && negb _); [discriminate|]. destruct ready; cbn [andb negb] in P; [discriminate|].
    rewrite andb_false_r in P'. cbn [negb] in P'. inv P'.
    assert (B : acc = firstn (N.to_nat (blen acc)) input /\ (chunk <=? blen c + blen acc) = false).
    { unfold accept in A. apply bind_ok in A as [room [A1 A2]]. apply bind_ok in A2 as [s [A2 A3]]. injection A3 as A3 A4.
      set (l := N.min (blen input) room) in *.
      assert (L : blen acc = l) by (rewrite <- A3; unfold blen in *; rewrite firstn_length; unfold l, blen; lia).
      split; [rewrite L; symmetry; exact A3|]. rewrite L.
      destruct (N.ltb_spec (blen c + l) two64) as [T|T].
      - rewrite add64_ok in A2 by exact T. inv A2. exact A4.
      - rewrite sub64_ok in A1 by lia. inv A1. unfold l in T. lia. }
    destruct B as [B1 B2]. rewrite <- B1. split; [reflexivity|]. apply N.leb_gt in B2.
    split; [rewrite blen_app; lia | reflexivity].
Qed.

Lemma fits_cfg chunk bf : 1 <= chunk < two64 -> 1 <= bf -> collector_fits lsz bf = true -> cfg_ok chunk bf.
Proof.
  intros H1 H2 H. unfold collector_fits in H. apply andb_prop in H as [_ H]. unfold holds in H. apply N.leb_le in H.
  assert (I : isize_max = 9223372036854775807) by reflexivity. rewrite I in H.
  assert (T : two63 = 9223372036854775808) by reflexivity.
  split; [exact H1|]. rewrite T. lia.
Qed.

Lemma state_of (HX : ext_ok X) chunk bf c out a :
  1 <= chunk < two64 -> 1 <= bf ->
  session_res X lsz (Adder chunk bf [] []) c out a -> blen c <= max_content ->
  a_chunk a = chunk /\ a_bf a = bf /\ blen (a_buf a) = blen c mod chunk /\ blen (a_buf a) < chunk.
Proof.
  intros Hc Hb H Hm. destruct (collector_fits lsz bf) eqn:F.
  - pose proof (fits_cfg chunk bf Hc Hb F) as Hcfg.
    destruct (session_state X HX chunk bf _ c out a Hcfg eq_refl (session_res_sound _ _ _ _ H) Hm) as (full & rest & -> & Hf & Hr & -> & _).
    cbn [a_chunk a_bf a_buf]. split; [reflexivity|]. split; [reflexivity|]. split; [|exact Hr].
    assert (L : blen (concat full) = N.of_nat (length full) * chunk).
    { clear - Hf. induction Hf as [|d full H _ IH]; [reflexivity|]. cbn [concat length]. rewrite blen_app, IH. lia. }
    rewrite blen_app, L. apply N.mod_unique with (N.of_nat (length full)); lia.
  - destruct (unfit_state chunk bf c out a Hc F H Hm) as (-> & Hl & _). cbn [a_chunk a_bf a_buf].
    rewrite N.mod_small by exact Hl. auto.
Qed.

Lemma push_exact (HX : ext_ok X) chunk bf c out a input :
  1 <= chunk < two64 -> 1 <= bf ->
  session_res X lsz (Adder chunk bf [] []) c out a -> blen c + blen input <= max_content ->
  (push_res X lsz a input = Panic <->
   isize_max < chunk \/ chunk <= blen c mod chunk + blen input /\ collector_fits lsz bf = false)
  /\ (push_res X lsz a input <> Panic ->
      push_res X lsz a input = push X a input /\ exists a' bs n, push X a input = Ok (a', bs, n)).
Proof.
  intros Hc Hb H Hm. assert (M : max_content = 18014398509481984) by reflexivity.
  assert (T : two64 = 18446744073709551616) by reflexivity. assert (I : isize_max = 9223372036854775807) by reflexivity.
  destruct (state_of HX chunk bf c out a Hc Hb H ltac:(lia)) as (E1 & E2 & E3 & E4).
  assert (Hmod : blen c mod chunk <= blen c) by (apply N.mod_le; lia).
  destruct (accept_spec chunk input (a_buf a)) as [acc A]; [lia|lia|lia|].
  assert (R : push_res X lsz a input =
    if negb ((blen (a_buf a) =? 0) && (chunk <=? blen (a_buf a) + blen input)) && negb (holds 1 chunk) then Panic
    else if (chunk <=? blen (a_buf a) + blen input) && negb (collector_fits lsz bf) then Panic
    else push X a input).
  { unfold push_res. rewrite E1, E2, A. reflexivity. }
  rewrite R. clear R. rewrite <- E3.
  replace (holds 1 chunk) with (chunk <=? isize_max) by (unfold holds; rewrite N.mul_1_r; reflexivity).
  destruct (N.leb_spec chunk (blen (a_buf a) + blen input)) as [Hr|Hr].
  - assert (chunk <= isize_max) by lia. destruct (N.leb_spec chunk isize_max); [|lia]. cbn [negb andb].
    rewrite !andb_false_r. cbn [andb].
    destruct (collector_fits lsz bf) eqn:F; cbn [negb].
    + pose proof (fits_cfg chunk bf Hc Hb F) as Hcfg.
      destruct (session_push_ok X HX chunk bf (Adder chunk bf [] []) c out a Hcfg) with (input := input) as (a' & bs & P & _).
      * unfold adder_new. destruct (N.ltb_spec 0 bf); [reflexivity|lia].
      * apply (session_res_sound _ _ _ _ H).
      * exact Hm.
      * rewrite P. split; [split; [discriminate|]; intros [?|[_ ?]]; [lia|discriminate]|]. intros _. split; [reflexivity|]. eauto.
    + split; [split; [intros _; auto|reflexivity]|intros N0; destruct N0; reflexivity].
  - rewrite !andb_false_r. cbn [negb andb]. destruct (N.leb_spec chunk isize_max) as [G|G]; cbn [negb].
    + assert (P : exists a' bs n, push X a input = Ok (a', bs, n)).
      { unfold push. rewrite E1, A. cbn [bind]. destruct (N.leb_spec chunk (blen (a_buf a) + blen input)); [lia|].
        rewrite andb_false_r. cbn [negb]. eauto. }
      split; [|intros _; split; [reflexivity|exact P]]. destruct P as (a' & bs & n & P). rewrite P.
      split; [discriminate|]. intros [?|[? _]]; lia.
    + split; [split; [intros _; auto|reflexivity]|intros N0; destruct N0; reflexivity].
Qed.
End reserve.
