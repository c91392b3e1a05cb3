(** Proofs for C04, C05, C44, C45 *)
From Verif Require Import Base Tac Wire Utf8 Cid Pb Dagpb SpecWire Wire_proofs Pb_proofs Codec_proofs.

(** ** Every read moves forward (build with overflow checks) *)
Lemma get_at_some l i x : get_at l i = Some x -> i < blen l.
Proof. unfold get_at. destruct (N.ltb_spec i (blen l)); [auto | discriminate]. Qed.

Definition fwd {A} (b : bytes) (r : reader) (o : pres A) : Prop :=
  match o with
  | Ok (r', _) => r_start r <= r_start r' /\ r_end r' = r_end r
  | Diverge => False
  | _ => True
  end.
(** strictly, having consumed at least one byte of the buffer *)
Definition sfwd {A} (b : bytes) (r : reader) (o : pres A) : Prop :=
  match o with
  | Ok (r', _) => r_start r < r_start r' /\ r_start r < blen b /\ r_end r' = r_end r
  | Diverge => False
  | _ => True
  end.

Lemma read_u8_sfwd b r : sfwd b r (read_u8 b r).
Proof.
  unfold read_u8. destruct (get_at b (r_start r)) eqn:E; cbn [sfwd]; [|exact I].
  apply get_at_some in E. cbn [r_start r_end]. lia.
Qed.

Lemma sfwd_fwd {A} b r (o : pres A) : sfwd b r o -> fwd b r o.
Proof. destruct o as [[r' a]| | |]; cbn; lia || auto. Qed.

Lemma sfwd_bind {A B} b r (o : pres A) (k : reader * A -> pres B) :
  sfwd b r o -> (forall r1 a, o = Ok (r1, a) -> fwd b r1 (k (r1, a))) -> sfwd b r (bind o k).
Proof.
  intros H Hk. destruct o as [[r1 a]| | |]; cbn [bind sfwd] in *; auto.
  specialize (Hk r1 a eq_refl).
  destruct (k (r1, a)) as [[r2 c]| | |]; cbn [sfwd fwd] in *; auto.
  destruct H as [H1 [H2 H3]], Hk as [H4 H5]. repeat split; lia.
Qed.

Lemma fwd_bind {A B} b r (o : pres A) (k : reader * A -> pres B) :
  fwd b r o -> (forall r1 a, o = Ok (r1, a) -> fwd b r1 (k (r1, a))) -> fwd b r (bind o k).
Proof.
  intros H Hk. destruct o as [[r1 a]| | |]; cbn [bind fwd] in *; auto.
  specialize (Hk r1 a eq_refl).
  destruct (k (r1, a)) as [[r2 c]| | |]; cbn [fwd] in *; auto.
  destruct H as [H1 H3], Hk as [H4 H5]. split; lia.
Qed.

Lemma fwd_ret {A} b r (a : A) : fwd b r (Ok (r, a)).
Proof. cbn. split; [lia | reflexivity]. Qed.

Lemma skip_cont_fwd b n : forall r v, fwd b r (skip_cont b n r v).
Proof.
  induction n as [|n IH]; intros r v; cbn [skip_cont]; [exact I|].
  apply fwd_bind; [apply sfwd_fwd, read_u8_sfwd|]. intros r1 a _.
  destruct (b2n a <? 128); [apply fwd_ret | apply IH].
Qed.

Lemma varint32_go_sfwd b n : forall r acc sh, sfwd b r (varint32_go b n r acc sh).
Proof.
  induction n as [|n IH]; intros r acc sh; cbn [varint32_go];
    (apply sfwd_bind; [apply read_u8_sfwd|]); intros r1 a _; destruct (b2n a <? 128);
    try apply fwd_ret; [apply skip_cont_fwd | apply sfwd_fwd, IH].
Qed.

Lemma varint64_go_sfwd b n : forall r acc sh, sfwd b r (varint64_go b n r acc sh).
Proof.
  induction n as [|n IH]; intros r acc sh; cbn [varint64_go];
    (apply sfwd_bind; [apply read_u8_sfwd|]); intros r1 a _; destruct (b2n a <? 128);
    try apply fwd_ret; [exact I | apply sfwd_fwd, IH].
Qed.

Lemma add64_true_ge {E} a c : forall s, @add64 E true a c = Ok s -> a <= s.
Proof. intros s. unfold add64. destruct (a + c <? two64); intros H; inv H. lia. Qed.

Lemma add64_not_div {E} dbg a c : @add64 E dbg a c <> Diverge.
Proof. unfold add64. destruct (a + c <? two64), dbg; discriminate. Qed.

Lemma read_len_varint_fwd {A} b (f : reader -> outcome perr A) r :
  (forall q, f q <> Diverge) -> fwd b r (read_len_varint true b f r).
Proof.
  intros Hf. unfold read_len_varint. apply fwd_bind; [apply sfwd_fwd, varint32_go_sfwd|].
  intros r1 len _.
  destruct (@add64 perr true (r_start r1) len) as [e| | |] eqn:Ea; cbn [bind fwd]; auto;
    [|exfalso; eapply add64_not_div; exact Ea].
  destruct (f (Reader (r_start r1) e)) as [v| | |] eqn:Ef; cbn [bind fwd]; auto;
    [|exfalso; eapply Hf; exact Ef].
  cbn [r_start r_end]. apply add64_true_ge in Ea. auto.
Qed.

Lemma read_slice_fwd b r : fwd b r (read_slice true b r).
Proof. apply read_len_varint_fwd. intros q. destruct (get_range _ _ _); discriminate. Qed.

Lemma read_bytes_fwd b r : fwd b r (read_bytes true b r).
Proof. unfold read_bytes. apply fwd_bind; [apply read_slice_fwd|]. intros r1 a _. apply fwd_ret. Qed.

Lemma read_string_fwd b v r : fwd b r (read_string true b v r).
Proof.
  apply read_len_varint_fwd. intros q.
  destruct (get_range _ _ _) as [x|]; [destruct (v x)|]; discriminate.
Qed.

Lemma read_fixed32_fwd b r : fwd b r (read_fixed32 true b r).
Proof.
  unfold read_fixed32.
  destruct (@add64 perr true (r_start r) 4) as [e| | |] eqn:Ea; cbn [bind fwd]; auto;
    [|exfalso; eapply add64_not_div; exact Ea].
  destruct (get_range b (r_start r) e); cbn [fwd]; auto.
  apply add64_true_ge in Ea. auto.
Qed.

Lemma unknown_fwd {M} b t (m : M) r : fwd b r (unknown true b t m r).
Proof.
  unfold unknown, read_unknown.
  assert (Hadd : forall n, fwd b r (do r1 <- (do s <- add64 true (r_start r) n; Ok (Reader s (r_end r))); Ok (r1, m))).
  { intros n. destruct (@add64 perr true (r_start r) n) as [e| | |] eqn:Ea; cbn [bind fwd]; auto;
      [|eapply add64_not_div; exact Ea].
    apply add64_true_ge in Ea. auto. }
  assert (Hv : fwd b r (read_varint64 b r)) by (apply sfwd_fwd, varint64_go_sfwd).
  destruct (t mod 8) as [|p]; [|destruct p as [p|p|]].
  - destruct (read_varint64 b r) as [[r1 v]| | |]; cbn [bind fwd] in *; auto.
  - destruct p as [p|p|]; [destruct p as [p|p|]| destruct p as [p|p|] |]; cbn [bind fwd]; auto.
  - destruct p as [p|p|].
    + destruct p; cbn [bind fwd]; auto.
    + destruct p; cbn [bind fwd]; auto.
    + destruct (read_varint64 b r) as [[r1 v]| | |]; cbn [bind fwd] in *; auto.
      destruct (@add64 perr true (r_start r1) v) as [e| | |] eqn:Ea; cbn [bind fwd]; auto;
        [|eapply add64_not_div; exact Ea].
      apply add64_true_ge in Ea. cbn [r_start r_end]. lia.
  - apply Hadd.
Qed.

Lemma msg_loop_fwd {M} b (step : N -> M -> reader -> pres M) :
  (forall t m r, fwd b r (step t m r)) ->
  forall fuel r m, blen b + 1 <= N.of_nat fuel + N.min (r_start r) (blen b) ->
  fwd b r (msg_loop b fuel step r m).
Proof.
  intros Hs. induction fuel as [|fuel IH]; intros r m Hf; cbn [msg_loop];
    destruct (is_eof r) eqn:Ee; try apply fwd_ret.
  - lia.
  - apply sfwd_fwd. apply sfwd_bind; [apply varint32_go_sfwd|]. intros r1 t Et.
    pose proof (varint32_go_sfwd b 4 r 0 1) as Hsf. unfold next_tag, read_varint32 in Et.
    rewrite Et in Hsf. cbn [sfwd] in Hsf.
    apply fwd_bind; [apply Hs|]. intros r2 m' Es.
    pose proof (Hs t m r1) as Hst. rewrite Es in Hst. cbn [fwd] in Hst.
    apply IH. lia.
Qed.

Lemma from_reader_fwd {M} b (step : N -> M -> reader -> pres M) m0 r :
  (forall t m r, fwd b r (step t m r)) -> fwd b r (from_reader b step m0 r).
Proof. intros Hs. apply msg_loop_fwd; [exact Hs|]. unfold blen. lia. Qed.

Lemma fwd_not_div {A} b r (o : pres A) : fwd b r o -> o <> Diverge.
Proof. intros H ->. exact H. Qed.

Lemma read_message_fwd {M} b (step : N -> M -> reader -> pres M) m0 r :
  (forall t m r, fwd b r (step t m r)) -> fwd b r (read_message true b step m0 r).
Proof.
  intros Hs. unfold read_message. apply read_len_varint_fwd. intros q.
  pose proof (from_reader_fwd b step m0 q Hs) as H.
  destruct (from_reader b step m0 q) as [[r1 m]| | |]; cbn [bind]; try discriminate. contradiction.
Qed.

Ltac map_fwd L := apply fwd_bind; [apply L | intros; apply fwd_ret].

Lemma read_varint64_fwd b r : fwd b r (read_varint64 b r).
Proof. apply sfwd_fwd, varint64_go_sfwd. Qed.
Lemma read_varint32_fwd b r : fwd b r (read_varint32 b r).
Proof. apply sfwd_fwd, varint32_go_sfwd. Qed.

Lemma pblink_step_fwd b t m r : fwd b r (pblink_step true b t m r).
Proof.
  destruct (N.eq_dec t 10) as [->|]; [map_fwd read_bytes_fwd|].
  destruct (N.eq_dec t 18) as [->|]; [map_fwd read_string_fwd|].
  destruct (N.eq_dec t 24) as [->|]; [map_fwd read_varint64_fwd|].
  rewrite pblink_step_other by assumption. apply unknown_fwd.
Qed.

Lemma pbnode_step_fwd b t m r : fwd b r (pbnode_step true b t m r).
Proof.
  destruct (N.eq_dec t 10) as [->|]; [map_fwd read_slice_fwd|].
  destruct (N.eq_dec t 18) as [->|];
    [apply fwd_bind; [apply read_message_fwd; apply pblink_step_fwd | intros; apply fwd_ret]|].
  rewrite pbnode_step_other by assumption. apply unknown_fwd.
Qed.

Lemma unixtime_step_fwd b t m r : fwd b r (unixtime_step true b t m r).
Proof.
  destruct (N.eq_dec t 8) as [->|]; [map_fwd read_varint64_fwd|].
  destruct (N.eq_dec t 21) as [->|]; [map_fwd read_fixed32_fwd|].
  rewrite unixtime_step_other by assumption. apply unknown_fwd.
Qed.

Lemma unixfs_step_fwd b t m r : fwd b r (unixfs_step true b t m r).
Proof.
  destruct (N.eq_dec t 8) as [->|]; [destruct m; map_fwd read_varint32_fwd|].
  destruct (N.eq_dec t 18) as [->|]; [destruct m; map_fwd read_bytes_fwd|].
  destruct (N.eq_dec t 24) as [->|]; [destruct m; map_fwd read_varint64_fwd|].
  destruct (N.eq_dec t 32) as [->|]; [destruct m; map_fwd read_varint64_fwd|].
  destruct (N.eq_dec t 40) as [->|]; [destruct m; map_fwd read_varint64_fwd|].
  destruct (N.eq_dec t 48) as [->|]; [destruct m; map_fwd read_varint64_fwd|].
  destruct (N.eq_dec t 56) as [->|]; [destruct m; map_fwd read_varint32_fwd|].
  destruct (N.eq_dec t 66) as [->|];
    [destruct m; apply fwd_bind; [apply read_message_fwd; apply unixtime_step_fwd | intros; apply fwd_ret]|].
  rewrite unixfs_step_other by assumption. apply unknown_fwd.
Qed.

Lemma pbnode_parse_terminates b : pbnode_parse true b <> Diverge.
Proof.
  unfold pbnode_parse.
  pose proof (from_reader_fwd b (pbnode_step true b) pbnode_default (whole b) (pbnode_step_fwd b)) as H.
  destruct (from_reader b (pbnode_step true b) pbnode_default (whole b)) as [[r1 m]| | |];
    cbn [bind]; try discriminate. contradiction.
Qed.

Lemma unixfs_parse_terminates b : unixfs_parse true b <> Diverge.
Proof.
  unfold unixfs_parse.
  pose proof (from_reader_fwd b (unixfs_step true b) unixfs_default (whole b) (unixfs_step_fwd b)) as H.
  destruct (from_reader b (unixfs_step true b) unixfs_default (whole b)) as [[r1 m]| | |];
    cbn [bind]; try discriminate. contradiction.
Qed.

Lemma try_parse_terminates b : try_parse true b <> Diverge.
Proof.
  unfold try_parse. pose proof (pbnode_parse_terminates b).
  destruct (pbnode_parse true b) as [n| | |]; cbn [map_err bind]; try congruence.
  destruct (n_data n) as [[off [|x xs]]|]; try discriminate.
  pose proof (unixfs_parse_terminates (x :: xs)).
  destruct (unixfs_parse true (x :: xs)); cbn [map_err bind]; congruence.
Qed.

(** ** Release builds: same result unless the checked build overflows *)
Definition same {E A} (o1 o2 : outcome E A) : Prop := o1 = Panic \/ o2 = o1.

Lemma same_refl {E A} (o : outcome E A) : same o o.
Proof. right; reflexivity. Qed.

Lemma same_bind {E A B} (o1 o2 : outcome E A) (k1 k2 : A -> outcome E B) :
  same o1 o2 -> (forall a, same (k1 a) (k2 a)) -> same (bind o1 k1) (bind o2 k2).
Proof.
  intros [-> | ->] Hk; [left; reflexivity|].
  destruct o1; cbn [bind]; [apply Hk | right | right | right]; reflexivity.
Qed.

Lemma same_map_err {E E' A} (f : E -> E') (o1 o2 : outcome E A) :
  same o1 o2 -> same (map_err f o1) (map_err f o2).
Proof. intros [-> | ->]; [left | right]; reflexivity. Qed.

Lemma same_add64 {E} a c : same (@add64 E true a c) (add64 false a c).
Proof. unfold add64. destruct (a + c <? two64); [right | left]; reflexivity. Qed.

Ltac same_tac :=
  repeat first [ apply same_refl | apply same_add64
               | apply same_bind; [|intros]
               | match goal with |- same (match ?x with _ => _ end) (match ?x with _ => _ end) => destruct x end ].

Lemma read_len_varint_same {A} b (f1 f2 : reader -> outcome perr A) r :
  (forall q, same (f1 q) (f2 q)) -> same (read_len_varint true b f1 r) (read_len_varint false b f2 r).
Proof.
  intros Hf. unfold read_len_varint. apply same_bind; [apply same_refl|]. intros [r1 len].
  apply same_bind; [apply same_add64|]. intros e.
  apply same_bind; [apply Hf|]. intros v. apply same_refl.
Qed.

Lemma read_slice_same b r : same (read_slice true b r) (read_slice false b r).
Proof. apply read_len_varint_same. intros q. apply same_refl. Qed.
Lemma read_bytes_same b r : same (read_bytes true b r) (read_bytes false b r).
Proof. apply same_bind; [apply read_slice_same | intros [? ?]; apply same_refl]. Qed.
Lemma read_string_same b v r : same (read_string true b v r) (read_string false b v r).
Proof. apply read_len_varint_same. intros q. apply same_refl. Qed.
Lemma read_fixed32_same b r : same (read_fixed32 true b r) (read_fixed32 false b r).
Proof. apply same_bind; [apply same_add64 | intros; apply same_refl]. Qed.
Lemma unknown_same {M} b t (m : M) r : same (unknown true b t m r) (unknown false b t m r).
Proof. apply same_bind; [|intros; apply same_refl]. unfold read_unknown. same_tac. Qed.

Lemma msg_loop_same {M} b (s1 s2 : N -> M -> reader -> pres M) :
  (forall t m r, same (s1 t m r) (s2 t m r)) ->
  forall fuel r m, same (msg_loop b fuel s1 r m) (msg_loop b fuel s2 r m).
Proof.
  intros Hs. induction fuel as [|fuel IH]; intros r m; cbn [msg_loop]; destruct (is_eof r);
    try apply same_refl.
  apply same_bind; [apply same_refl|]. intros [r1 t].
  apply same_bind; [apply Hs|]. intros [r2 m']. apply IH.
Qed.

Lemma read_message_same {M} b (s1 s2 : N -> M -> reader -> pres M) m0 r :
  (forall t m r, same (s1 t m r) (s2 t m r)) ->
  same (read_message true b s1 m0 r) (read_message false b s2 m0 r).
Proof.
  intros Hs. apply read_len_varint_same. intros q.
  apply same_bind; [apply msg_loop_same; exact Hs | intros [? ?]; apply same_refl].
Qed.

Ltac map_same L := apply same_bind; [apply L | intros [? ?]; apply same_refl].

Lemma pblink_step_same b t m r : same (pblink_step true b t m r) (pblink_step false b t m r).
Proof.
  destruct (N.eq_dec t 10) as [->|]; [map_same read_bytes_same|].
  destruct (N.eq_dec t 18) as [->|]; [map_same read_string_same|].
  destruct (N.eq_dec t 24) as [->|]; [map_same @same_refl|].
  rewrite !pblink_step_other by assumption. apply unknown_same.
Qed.
Lemma pbnode_step_same b t m r : same (pbnode_step true b t m r) (pbnode_step false b t m r).
Proof.
  destruct (N.eq_dec t 10) as [->|]; [map_same read_slice_same|].
  destruct (N.eq_dec t 18) as [->|];
    [apply same_bind; [apply read_message_same; apply pblink_step_same | intros [? ?]; apply same_refl]|].
  rewrite !pbnode_step_other by assumption. apply unknown_same.
Qed.
Lemma unixtime_step_same b t m r : same (unixtime_step true b t m r) (unixtime_step false b t m r).
Proof.
  destruct (N.eq_dec t 8) as [->|]; [map_same @same_refl|].
  destruct (N.eq_dec t 21) as [->|]; [map_same read_fixed32_same|].
  rewrite !unixtime_step_other by assumption. apply unknown_same.
Qed.
Lemma unixfs_step_same b t m r : same (unixfs_step true b t m r) (unixfs_step false b t m r).
Proof.
  destruct (N.eq_dec t 18) as [->|]; [destruct m; map_same read_bytes_same|].
  destruct (N.eq_dec t 66) as [->|];
    [destruct m; apply same_bind; [apply read_message_same; apply unixtime_step_same | intros [? ?]; apply same_refl]|].
  destruct (N.eq_dec t 8) as [->|]; [destruct m; apply same_refl|].
  destruct (N.eq_dec t 24) as [->|]; [destruct m; apply same_refl|].
  destruct (N.eq_dec t 32) as [->|]; [destruct m; apply same_refl|].
  destruct (N.eq_dec t 40) as [->|]; [destruct m; apply same_refl|].
  destruct (N.eq_dec t 48) as [->|]; [destruct m; apply same_refl|].
  destruct (N.eq_dec t 56) as [->|]; [destruct m; apply same_refl|].
  rewrite !unixfs_step_other by assumption. apply unknown_same.
Qed.

Lemma pbnode_parse_same b : same (pbnode_parse true b) (pbnode_parse false b).
Proof.
  apply same_bind; [apply msg_loop_same; apply pbnode_step_same | intros [? ?]; apply same_refl].
Qed.
Lemma unixfs_parse_same b : same (unixfs_parse true b) (unixfs_parse false b).
Proof.
  apply same_bind; [apply msg_loop_same; apply unixfs_step_same | intros [? ?]; apply same_refl].
Qed.
Lemma try_parse_same b : same (try_parse true b) (try_parse false b).
Proof.
  apply same_bind; [apply same_map_err; apply pbnode_parse_same|]. intros n.
  destruct (n_data n) as [[off [|x xs]]|]; try apply same_refl.
  apply same_bind; [apply same_map_err; apply unixfs_parse_same | intros; apply same_refl].
Qed.

(** C04, the provable part *)
Lemma try_parse_total b : try_parse true b <> Panic ->
  ((exists v, try_parse true b = Ok v) \/ (exists e, try_parse true b = Err e))
  /\ try_parse false b = try_parse true b.
Proof.
  intros Hp. pose proof (try_parse_terminates b) as Hd. split.
  - destruct (try_parse true b) as [v|e| |]; [left | right | congruence | congruence]; eauto.
  - destruct (try_parse_same b) as [H|H]; [contradiction | exact H].
Qed.

(** ** Release builds never panic while parsing *)
Definition nop {E A} (o : outcome E A) : Prop := o <> Panic.

Lemma nop_bind {E A B} (o : outcome E A) (k : A -> outcome E B) :
  nop o -> (forall a, o = Ok a -> nop (k a)) -> nop (bind o k).
Proof. unfold nop. intros H Hk. destruct o; cbn [bind]; try congruence. apply Hk; reflexivity. Qed.

Lemma nop_add64 {E} a c : nop (@add64 E false a c).
Proof. unfold nop, add64. destruct (a + c <? two64); discriminate. Qed.

Lemma read_u8_nop b r : nop (read_u8 b r).
Proof. unfold nop, read_u8. destruct (get_at _ _); discriminate. Qed.
Lemma skip_cont_nop b n : forall r v, nop (skip_cont b n r v).
Proof.
  induction n as [|n IH]; intros r v; cbn [skip_cont]; [discriminate|].
  apply nop_bind; [apply read_u8_nop|]. intros [r1 a] _. destruct (b2n a <? 128); [discriminate | apply IH].
Qed.
Lemma varint32_go_nop b n : forall r acc sh, nop (varint32_go b n r acc sh).
Proof.
  induction n as [|n IH]; intros r acc sh; cbn [varint32_go];
    (apply nop_bind; [apply read_u8_nop|]); intros [r1 a] _; destruct (b2n a <? 128); try discriminate;
    [apply skip_cont_nop | apply IH].
Qed.
Lemma varint64_go_nop b n : forall r acc sh, nop (varint64_go b n r acc sh).
Proof.
  induction n as [|n IH]; intros r acc sh; cbn [varint64_go];
    (apply nop_bind; [apply read_u8_nop|]); intros [r1 a] _; destruct (b2n a <? 128); try discriminate;
    apply IH.
Qed.
Lemma read_varint32_nop b r : nop (read_varint32 b r).
Proof. apply varint32_go_nop. Qed.
Lemma read_varint64_nop b r : nop (read_varint64 b r).
Proof. apply varint64_go_nop. Qed.
Lemma read_len_varint_nop {A} b (f : reader -> outcome perr A) r :
  (forall q, nop (f q)) -> nop (read_len_varint false b f r).
Proof.
  intros Hf. apply nop_bind; [apply varint32_go_nop|]. intros [r1 len] _.
  apply nop_bind; [apply nop_add64|]. intros e _.
  apply nop_bind; [apply Hf|]. intros v _. discriminate.
Qed.
Lemma read_slice_nop b r : nop (read_slice false b r).
Proof. apply read_len_varint_nop. intros q. destruct (get_range _ _ _); discriminate. Qed.
Lemma read_bytes_nop b r : nop (read_bytes false b r).
Proof. apply nop_bind; [apply read_slice_nop|]. intros [? ?] _. discriminate. Qed.
Lemma read_string_nop b v r : nop (read_string false b v r).
Proof.
  apply read_len_varint_nop. intros q. destruct (get_range _ _ _) as [x|]; [destruct (v x)|]; discriminate.
Qed.
Lemma read_fixed32_nop b r : nop (read_fixed32 false b r).
Proof.
  apply nop_bind; [apply nop_add64|]. intros e _. destruct (get_range _ _ _); discriminate.
Qed.
Lemma unknown_nop {M} b t (m : M) r : nop (unknown false b t m r).
Proof.
  apply nop_bind; [|intros; discriminate]. unfold read_unknown.
  assert (Ha : forall n (r : reader), nop (do s <- @add64 perr false (r_start r) n; Ok (Reader s (r_end r))))
    by (intros n r0; apply nop_bind; [apply nop_add64 | intros; discriminate]).
  destruct (t mod 8) as [|p]; [apply nop_bind; [apply varint64_go_nop | intros [? ?] _; discriminate]|].
  do 3 (try destruct p as [p|p|]); try discriminate; try apply Ha.
  apply nop_bind; [apply varint64_go_nop | intros [r1 len] _; apply Ha].
Qed.
Lemma msg_loop_nop {M} b (s : N -> M -> reader -> pres M) :
  (forall t m r, nop (s t m r)) -> forall fuel r m, nop (msg_loop b fuel s r m).
Proof.
  intros Hs. induction fuel as [|fuel IH]; intros r m; cbn [msg_loop]; destruct (is_eof r); try discriminate.
  apply nop_bind; [apply varint32_go_nop|]. intros [r1 t] _.
  apply nop_bind; [apply Hs|]. intros [r2 m'] _. apply IH.
Qed.
Lemma read_message_nop {M} b (s : N -> M -> reader -> pres M) m0 r :
  (forall t m r, nop (s t m r)) -> nop (read_message false b s m0 r).
Proof.
  intros Hs. apply read_len_varint_nop. intros q.
  apply nop_bind; [apply msg_loop_nop; exact Hs | intros [? ?] _; discriminate].
Qed.
Ltac map_nop L := apply nop_bind; [apply L | intros [? ?] _; discriminate].
Lemma pblink_step_nop b t m r : nop (pblink_step false b t m r).
Proof.
  destruct (N.eq_dec t 10) as [->|]; [map_nop read_bytes_nop|].
  destruct (N.eq_dec t 18) as [->|]; [map_nop read_string_nop|].
  destruct (N.eq_dec t 24) as [->|]; [map_nop read_varint64_nop|].
  rewrite !pblink_step_other by assumption. apply unknown_nop.
Qed.
Lemma pbnode_step_nop b t m r : nop (pbnode_step false b t m r).
Proof.
  destruct (N.eq_dec t 10) as [->|]; [map_nop read_slice_nop|].
  destruct (N.eq_dec t 18) as [->|];
    [apply nop_bind; [apply read_message_nop; apply pblink_step_nop | intros [? ?] _; discriminate]|].
  rewrite !pbnode_step_other by assumption. apply unknown_nop.
Qed.
Lemma unixtime_step_nop b t m r : nop (unixtime_step false b t m r).
Proof.
  destruct (N.eq_dec t 8) as [->|]; [map_nop read_varint64_nop|].
  destruct (N.eq_dec t 21) as [->|]; [map_nop read_fixed32_nop|].
  rewrite !unixtime_step_other by assumption. apply unknown_nop.
Qed.
Lemma unixfs_step_nop b t m r : nop (unixfs_step false b t m r).
Proof.
  destruct (N.eq_dec t 8) as [->|]; [destruct m; map_nop read_varint32_nop|].
  destruct (N.eq_dec t 18) as [->|]; [destruct m; map_nop read_bytes_nop|].
  destruct (N.eq_dec t 24) as [->|]; [destruct m; map_nop read_varint64_nop|].
  destruct (N.eq_dec t 32) as [->|]; [destruct m; map_nop read_varint64_nop|].
  destruct (N.eq_dec t 40) as [->|]; [destruct m; map_nop read_varint64_nop|].
  destruct (N.eq_dec t 48) as [->|]; [destruct m; map_nop read_varint64_nop|].
  destruct (N.eq_dec t 56) as [->|]; [destruct m; map_nop read_varint32_nop|].
  destruct (N.eq_dec t 66) as [->|];
    [destruct m; apply nop_bind; [apply read_message_nop; apply unixtime_step_nop | intros [? ?] _; discriminate]|].
  rewrite !unixfs_step_other by assumption. apply unknown_nop.
Qed.
Lemma try_parse_release_no_panic b : try_parse false b <> Panic.
Proof.
  unfold try_parse.
  assert (H1 : nop (pbnode_parse false b))
    by (apply nop_bind; [apply msg_loop_nop; apply pbnode_step_nop | intros [? ?] _; discriminate]).
  unfold nop in H1.
  destruct (pbnode_parse false b) as [n| | |]; cbn [map_err bind]; try congruence.
  destruct (n_data n) as [[off [|x xs]]|]; try discriminate.
  assert (H2 : nop (unixfs_parse false (x :: xs)))
    by (apply nop_bind; [apply msg_loop_nop; apply unixfs_step_nop | intros [? ?] _; discriminate]).
  unfold nop in H2.
  destruct (unixfs_parse false (x :: xs)); cbn [map_err bind]; congruence.
Qed.

(** ** The hostile block of C04: an unknown length-delimited field whose length
    is 2^64 - 11, so that the cursor comes back to the start of the field. *)
Definition evil_block : bytes := [x7a; xf5; xff; xff; xff; xff; xff; xff; xff; xff; x01].

Lemma evil_debug : try_parse true evil_block = Panic.
Proof. vm_compute. reflexivity. Qed.
Lemma evil_release : try_parse false evil_block = Diverge.
Proof. vm_compute. reflexivity. Qed.
(** not an artefact of the fuel: no amount of fuel is enough *)
Lemma evil_loops fuel m :
  msg_loop evil_block fuel (pbnode_step false evil_block) (whole evil_block) m = Diverge.
Proof.
  revert m. induction fuel as [|fuel IH]; intros m; [reflexivity|].
  cbn [msg_loop].
  replace (is_eof (whole evil_block)) with false by reflexivity.
  replace (next_tag evil_block (whole evil_block)) with (@Ok perr _ (Reader 1 11, 0x7a)) by (vm_compute; reflexivity).
  cbn [bind].
  replace (pbnode_step false evil_block 0x7a m (Reader 1 11)) with (@Ok perr _ (whole evil_block, m))
    by (vm_compute; reflexivity).
  cbn [bind]. apply IH.
Qed.

(** ** C05 *)
Definition slice_ok (b : bytes) (m : pbnode) : Prop :=
  match n_data m with
  | Some (off, x) => get_range b off (off + blen x) = Some x
  | None => True
  end.

Lemma get_range_some {A} (l : list A) s e x : get_range l s e = Some x ->
  s <= e /\ e <= N.of_nat (length l) /\ N.of_nat (length x) = e - s.
Proof.
  unfold get_range. destruct (N.leb_spec s e), (N.leb_spec e (N.of_nat (length l))); cbn [andb];
    intros Hx; inv Hx. repeat split; auto. rewrite firstn_length, skipn_length. lia.
Qed.

Lemma read_slice_ok dbg b r r' off x : read_slice dbg b r = Ok (r', (off, x)) ->
  get_range b off (off + blen x) = Some x.
Proof.
  unfold read_slice, read_len_varint. intros H.
  apply bind_ok in H as [[r1 len] [_ H]]. apply bind_ok in H as [e [_ H]].
  cbn [r_start r_end] in H.
  destruct (get_range b (r_start r1) e) as [y|] eqn:Eg; cbn [bind] in H; [|discriminate].
  inv H. pose proof (get_range_some _ _ _ _ Eg) as [H1 [H2 H3]].
  replace (r_start r1 + blen x) with e by (unfold blen; lia). exact Eg.
Qed.

Lemma pbnode_step_slice dbg b t m r r' m' :
  slice_ok b m -> pbnode_step dbg b t m r = Ok (r', m') -> slice_ok b m'.
Proof.
  intros Hm H.
  destruct (N.eq_dec t 10) as [->|].
  { apply bind_ok in H as [[r1 [off x]] [Hs H]]. inv H. cbn. eapply read_slice_ok. exact Hs. }
  destruct (N.eq_dec t 18) as [->|].
  { apply bind_ok in H as [[r1 l] [Hs H]]. inv H. exact Hm. }
  rewrite pbnode_step_other in H by assumption.
  apply bind_ok in H as [r1 [Hs H]]. inv H. exact Hm.
Qed.

Lemma msg_loop_inv {M} b (step : N -> M -> reader -> pres M) (P : M -> Prop) :
  (forall t m r r' m', P m -> step t m r = Ok (r', m') -> P m') ->
  forall fuel r m r' m', P m -> msg_loop b fuel step r m = Ok (r', m') -> P m'.
Proof.
  intros Hs. induction fuel as [|fuel IH]; intros r m r' m' Hm H; cbn [msg_loop] in H;
    destruct (is_eof r); try (inv H; exact Hm); try discriminate.
  apply bind_ok in H as [[r1 t] [_ H]]. apply bind_ok in H as [[r2 m2] [H2 H]].
  eapply IH; [|exact H]. eapply Hs; [exact Hm | exact H2].
Qed.

Lemma pbnode_parse_slice dbg b n : pbnode_parse dbg b = Ok n -> slice_ok b n.
Proof.
  intros H. apply bind_ok in H as [[r m] [H E]]. inv E.
  eapply (msg_loop_inv b (pbnode_step dbg b) (slice_ok b)); [|exact (I : slice_ok b pbnode_default)|exact H].
  intros t m r0 r' m'. apply pbnode_step_slice.
Qed.

(** everything [wrap_node_data] can do, in terms of [node_data] *)
Lemma wrap_spec dbg block :
  match node_data dbg block with
  | Ok (Some x) =>
      (exists nd, wrap_node_data dbg block = Ok nd /\ nd_node_data (E := perr) nd = Ok x
                  /\ nd_get_ref nd = block /\ nd_into_inner nd = block)
      \/ (x = [] /\ wrap_node_data dbg block = Panic
          /\ node_data_slice dbg block = Ok (Some (blen block, [])))
  | Ok None =>
      exists nd, wrap_node_data dbg block = Ok nd /\ nd_node_data (E := perr) nd = Ok []
                 /\ nd_get_ref nd = block /\ nd_into_inner nd = block
  | Err e => wrap_node_data dbg block = Err e
  | Panic => wrap_node_data dbg block = Panic
  | Diverge => wrap_node_data dbg block = Diverge
  end.
Proof.
  unfold wrap_node_data, node_data, node_data_slice.
  destruct (pbnode_parse dbg block) as [n| | |] eqn:Ep; cbn [bind]; auto.
  pose proof (pbnode_parse_slice dbg block n Ep) as Hs. unfold slice_ok in Hs.
  destruct (n_data n) as [[off x]|]; cbn [option_map snd].
  - pose proof (get_range_some _ _ _ _ Hs) as [H1 [H2 H3]]. fold (blen block) in H2.
    unfold subslice_to_range.
    destruct (N.ltb_spec (blen block) (blen x)) as [Hlt|_]; [lia|].
    destruct (N.leb_spec (blen block) off) as [Hle|Hgt]; cbn [unwrap bind].
    + right. assert (Hx : blen x = 0) by lia. apply blen_0 in Hx. subst x.
      rewrite blen_nil in *. assert (off = blen block) by lia. subst off. auto.
    + left. eexists. split; [reflexivity|]. unfold nd_node_data. cbn [nd_range nd_inner].
      rewrite Hs. cbn [unwrap]. auto.
  - eexists. split; [reflexivity|]. auto.
Qed.

(** "as it appears on the block" *)
Lemma node_data_fields dbg fs block ls d :
  encodes fs block -> blen block < two32 -> node_sem encodes [] None fs ls d -> node_data dbg block = Ok d.
Proof.
  intros He Hl Hs. destruct (node_parse_fields dbg fs block ls d He Hl Hs) as [s [Hp Hd]].
  unfold node_data, node_data_slice. rewrite Hp. cbn [bind n_data].
  destruct d as [x|], s as [[off y]|]; cbn [data_at] in Hd; try contradiction; cbn [option_map snd].
  - destruct Hd as [-> _]. reflexivity.
  - reflexivity.
Qed.

(** ** C44 *)
Lemma symlink_parse dbg target buf :
  blen target < 2 ^ 31 -> exists blk, serialize_symlink_block target buf = buf ++ blk
  /\ try_parse dbg blk = Ok (Flat [] (UnixFs Symlink (Some target) None [] None None None None)).
Proof.
  intros Hl. eexists. split; [reflexivity|].
  apply round_trip.
  - constructor.
  - unfold unixfs_fits; cbn; auto 10.
  - rewrite <- flat_size_ok. unfold flat_size, unixfs_size, sizeof_len. cbn [f_links f_data map sumN fold_right
      u_type u_data u_filesize u_blocksizes u_hashtype u_fanout u_mode u_mtime opt ftype_num].
    pose proof (sizeof_varint_le (blen target)). pose proof (sizeof_varint_le 4).
    pose proof (sizeof_varint_le (1 + sizeof_varint 4 + (1 + (sizeof_varint (blen target) + blen target)) + 0 + 0 + 0 + 0 + 0 + 0)).
    unfold two32. change (2 ^ 31) with 2147483648 in Hl. lia.
Qed.

(** ** C45: what the type field can be decoded to *)
Lemma unixfs_type_only dbg v : v < two64 ->
  unixfs_parse dbg (write_with_tag 8 (write_varint v))
  = Ok (UnixFs (type_value (v mod 2 ^ 32)) None None [] None None None None).
Proof.
  intros Hv. apply (unixfs_parse_fields dbg [WField 1 (WVarint v)]).
  - apply encodes_one. apply (enc_var 1); [lia | exact Hv].
  - unfold write_with_tag. rewrite blen_app, <- !sizeof_write.
    pose proof (sizeof_varint_le v). pose proof (sizeof_varint_le 8). unfold two32. lia.
  - apply us_type. apply us_nil.
Qed.
