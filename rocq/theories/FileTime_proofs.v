(** * FileTime_proofs: proofs for PropertiesFileTime.v *)
From Verif Require Import Base Tac Wire Utf8 Cid Pb Pb_proofs Reader FileTime Parse_safety Parsed.

(** ** The seconds that are parsed fit an i64 *)
Lemma i64_of_u64_fits v : v < two64 -> fits_i64 (i64_of_u64 v) = true.
Proof.
  intros H. unfold fits_i64, i64_of_u64, two64 in *. apply andb_true_intro.
  destruct (N.ltb_spec v two63); unfold two63 in *; split; [apply Z.leb_le|apply Z.ltb_lt|apply Z.leb_le|apply Z.ltb_lt]; lia.
Qed.

Definition secs_fit (t : unixtime) : Prop := fits_i64 (t_secs t) = true.

Lemma unixtime_step_fits dbg b t m r r' m' : secs_fit m -> unixtime_step dbg b t m r = Ok (r', m') -> secs_fit m'.
Proof.
  intros H1 H.
  destruct (N.eq_dec t 8) as [->|].
  { apply bind_ok in H as [[r1 v] [Hs H]]. inv H. apply read_varint64_lt in Hs. apply i64_of_u64_fits, Hs. }
  destruct (N.eq_dec t 21) as [->|].
  { apply bind_ok in H as [[r1 v] [Hs H]]. inv H. exact H1. }
  rewrite unixtime_step_other in H by assumption. apply bind_ok in H as [r1 [_ H]]. inv H. exact H1.
Qed.

Definition mtime_fits (u : unixfs) : Prop := match u_mtime u with Some t => secs_fit t | None => True end.

Lemma unixfs_step_fits dbg b t m r r' m' : mtime_fits m -> unixfs_step dbg b t m r = Ok (r', m') -> mtime_fits m'.
Proof.
  intros Hm H. destruct m as [ty da fs bs ht fa mo mt].
  destruct (N.eq_dec t 66) as [->|].
  { apply bind_ok in H as [[r1 v] [Hs H]]. inv H. unfold mtime_fits. cbn [u_mtime].
    unfold read_message, read_len_varint in Hs.
    apply bind_ok in Hs as [[r2 len] [_ H]]. apply bind_ok in H as [e [_ H]]. apply bind_ok in H as [x [H1 H]].
    inv H. apply bind_ok in H1 as [[r3 m3] [H1 H]]. inv H.
    eapply (msg_loop_inv b (unixtime_step dbg b) secs_fit); [|exact (eq_refl : secs_fit unixtime_default)|exact H1].
    intros t0 m0 r0 r1' m1. apply unixtime_step_fits. }
  destruct (N.eq_dec t 8) as [->|]; [apply bind_ok in H as [[r1 v] [_ H]]; inv H; exact Hm|].
  destruct (N.eq_dec t 18) as [->|]; [apply bind_ok in H as [[r1 v] [_ H]]; inv H; exact Hm|].
  destruct (N.eq_dec t 24) as [->|]; [apply bind_ok in H as [[r1 v] [_ H]]; inv H; exact Hm|].
  destruct (N.eq_dec t 32) as [->|]; [apply bind_ok in H as [[r1 v] [_ H]]; inv H; exact Hm|].
  destruct (N.eq_dec t 40) as [->|]; [apply bind_ok in H as [[r1 v] [_ H]]; inv H; exact Hm|].
  destruct (N.eq_dec t 48) as [->|]; [apply bind_ok in H as [[r1 v] [_ H]]; inv H; exact Hm|].
  destruct (N.eq_dec t 56) as [->|]; [apply bind_ok in H as [[r1 v] [_ H]]; inv H; exact Hm|].
  rewrite unixfs_step_other in H by assumption. apply bind_ok in H as [r1 [_ H]]. inv H. exact Hm.
Qed.

Lemma try_parse_secs dbg b f : try_parse dbg b = Ok f -> mtime_fits (f_data f).
Proof.
  intros H. apply bind_ok in H as [n [_ H]].
  destruct (n_data n) as [[o [|x xs]]|]; try discriminate.
  apply bind_ok in H as [d [H1 H]]. inv H. cbn [f_data].
  destruct (unixfs_parse dbg (x :: xs)) eqn:E; cbn [map_err] in H1; inv H1.
  apply bind_ok in E as [[r m] [H E]]. inv E.
  eapply (msg_loop_inv (x :: xs) (unixfs_step dbg (x :: xs)) mtime_fits) with (m := unixfs_default); [|exact Logic.I|exact H].
  intros t m r0 r' m'. apply unixfs_step_fits.
Qed.

(** ** Shifting the epoch *)
Lemma shift_back windows dbg s t : fits_i64 s = true ->
  i64 dbg (s + epoch_shift windows)%Z = Ok t -> i64 dbg (t - epoch_shift windows)%Z = Ok s.
Proof.
  unfold i64. intros Hs H.
  destruct (fits_i64 (s + epoch_shift windows)) eqn:F.
  - inv H. replace (s + epoch_shift windows - epoch_shift windows)%Z with s by lia. rewrite Hs. reflexivity.
  - destruct dbg; [discriminate|]. inv H.
    destruct windows; cbn [epoch_shift] in *; [|rewrite Z.add_0_r in F; congruence].
    unfold fits_i64 in *. apply andb_prop in Hs as [H1 H2]. apply Z.leb_le in H1. apply Z.ltb_lt in H2.
    assert (G : (9223372036854775808 <= s + 11644473600)%Z).
    { destruct (Z.leb_spec (- 9223372036854775808) (s + 11644473600)); cbn [andb] in F; [|lia].
      apply Z.ltb_ge in F. exact F. }
    assert (E : ((s + 11644473600 + 9223372036854775808) mod 18446744073709551616 = s + 11644473600 - 9223372036854775808)%Z).
    { symmetry. apply Z.mod_unique with 1%Z; lia. }
    rewrite E.
    destruct (Z.leb_spec (- 9223372036854775808) (s + 11644473600 - 9223372036854775808 - 9223372036854775808 - 11644473600)); [lia|].
    cbn [andb]. f_equal.
    replace (s + 11644473600 - 9223372036854775808 - 9223372036854775808 - 11644473600 + 9223372036854775808)%Z with (s - 9223372036854775808)%Z by lia.
    replace ((s - 9223372036854775808) mod 18446744073709551616)%Z with (s + 9223372036854775808)%Z; [lia|].
    apply Z.mod_unique with (-1)%Z; lia.
Qed.

Lemma shift_panics dbg s : fits_i64 s = true ->
  i64 dbg (s + epoch_shift true)%Z = Panic <-> dbg = true /\ (9223372036854775808 - 11644473600 <= s)%Z.
Proof.
  unfold i64, epoch_shift, fits_i64. intros Hs. apply andb_prop in Hs as [H1 H2]. apply Z.leb_le in H1. apply Z.ltb_lt in H2.
  destruct (Z.leb_spec (- 9223372036854775808) (s + 11644473600)); [|lia].
  destruct (Z.ltb_spec (s + 11644473600) 9223372036854775808); cbn [andb].
  - split; [discriminate|]. intros [_ ?]. lia.
  - destruct dbg.
    + split; [intros _; split; [reflexivity|lia]|reflexivity].
    + split; [discriminate|]. intros [E _]. discriminate.
Qed.
