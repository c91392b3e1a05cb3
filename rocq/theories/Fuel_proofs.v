(** * Fuel_proofs: the bound on the iterations of the parser's loop is no
    restriction: a loop that has not ended after [S (length b)] iterations never
    ends. *)
From Verif Require Import Base Tac Wire Utf8 Cid Pb Wire_proofs Pb_proofs Parse_safety.

Definition shape {M} (o : pres M) : outcome perr reader := do (r, _) <- o; Ok r.

Section loop.
Context {M : Type} (b : bytes) (step : N -> M -> reader -> pres M).
(** where the reader goes does not depend on the message read so far *)
Context (Hind : forall t m m' r, shape (step t m r) = shape (step t m' r)).
Context (Hend : forall t m r r' m', step t m r = Ok (r', m') -> r_end r' = r_end r).

Lemma more_fuel n : forall k r m, msg_loop b n step r m <> Diverge -> msg_loop b (n + k) step r m = msg_loop b n step r m.
Proof.
  induction n as [|n IH]; intros k r m H.
  - cbn [Nat.add]. cbn [msg_loop] in *. destruct (is_eof r) eqn:E; [|congruence]. destruct k; cbn [msg_loop]; rewrite E; reflexivity.
  - cbn [Nat.add msg_loop] in *. destruct (is_eof r); [reflexivity|].
    destruct (next_tag b r) as [[r1 t]| | |]; cbn [bind] in *; try reflexivity.
    destruct (step t m r1) as [[r2 m2]| | |]; cbn [bind] in *; try reflexivity. apply IH. exact H.
Qed.

(** one iteration, the message being irrelevant *)
Context (m0 : M).
Definition once (r : reader) : option reader :=
  if is_eof r then None
  else match next_tag b r with
       | Ok (r1, t) => match step t m0 r1 with Ok (r2, _) => Some r2 | _ => None end
       | _ => None
       end.
Fixpoint times (n : nat) (r : reader) : option reader :=
  match n with O => Some r | S n => match once r with Some r1 => times n r1 | None => None end end.

Lemma times_add n k r : times (n + k) r = match times n r with Some r1 => times k r1 | None => None end.
Proof. revert r. induction n as [|n IH]; intros r; [reflexivity|]. cbn [Nat.add times]. destruct (once r); [apply IH|reflexivity]. Qed.

(** the loop without end, except that a nested one may be *)
Lemma diverge_times n : forall r m, msg_loop b n step r m = Diverge ->
  times n r <> None \/ forall k, msg_loop b k step r m = Diverge.
Proof.
  induction n as [|n IH]; intros r m H; [left; discriminate|]. cbn [msg_loop] in H. cbn [times]. unfold once.
  destruct (is_eof r) eqn:E; [discriminate|]. destruct (next_tag b r) as [[r1 t]| | |] eqn:T; cbn [bind] in H; try discriminate.
  - pose proof (Hind t m m0 r1) as S. destruct (step t m r1) as [[r2 m2]| | |] eqn:St; cbn [bind] in H; try discriminate.
    + destruct (step t m0 r1) as [[r3 m3]| | |]; cbn in S; try discriminate. injection S as <-.
      apply IH in H as [H|H]; [left; exact H|right]. intros [|k]; cbn [msg_loop]; rewrite E; [reflexivity|].
      rewrite T. cbn [bind]. rewrite St. cbn [bind]. apply H.
    + right. intros [|k]; cbn [msg_loop]; rewrite E; [reflexivity|]. rewrite T. cbn [bind]. rewrite St. reflexivity.
  - right. intros [|k]; cbn [msg_loop]; rewrite E; [reflexivity|]. rewrite T. reflexivity.
Qed.
Lemma times_diverge n : forall r m, times n r <> None -> (forall r', times n r = Some r' -> is_eof r' = false) ->
  msg_loop b n step r m = Diverge.
Proof.
  induction n as [|n IH]; intros r m H He.
  - cbn [msg_loop]. rewrite (He r eq_refl). reflexivity.
  - cbn [msg_loop times] in *. unfold once in *. destruct (is_eof r); [congruence|].
    destruct (next_tag b r) as [[r1 t]| | |]; try congruence. cbn [bind].
    pose proof (Hind t m m0 r1) as S. destruct (step t m0 r1) as [[r3 m3]| | |]; try congruence.
    destruct (step t m r1) as [[r2 m2]| | |]; cbn in S; try discriminate. injection S as <-. cbn [bind]. apply IH; assumption.
Qed.

Lemma once_in r r' : once r = Some r' -> r_start r < blen b /\ r_end r' = r_end r.
Proof.
  unfold once. destruct (is_eof r); [discriminate|]. intros H.
  pose proof (varint32_go_sfwd b 4 r 0 1) as F. unfold next_tag, read_varint32 in H.
  destruct (varint32_go b 4 r 0 1) as [[r1 t]| | |]; try discriminate. cbn [sfwd] in F.
  destruct (step t m0 r1) as [[r2 m2]| | |] eqn:St; try discriminate. injection H as <-. apply Hend in St. lia.
Qed.

(** the readers met *)
Lemma times_split n r : times n r <> None -> forall i, (i <= n)%nat -> exists ri, times i r = Some ri.
Proof.
  intros H i L. replace n with (i + (n - i))%nat in H by lia. rewrite times_add in H.
  destruct (times i r); [eauto|congruence].
Qed.
Lemma times_end i : forall r ri, times i r = Some ri -> r_end ri = r_end r.
Proof.
  induction i as [|i IH]; intros r ri H; cbn [times] in H; [congruence|]. destruct (once r) as [r1|] eqn:O; [|discriminate].
  apply once_in in O. apply IH in H. lia.
Qed.
Lemma pigeonhole r n : times n r <> None -> blen b < N.of_nat n ->
  exists i j ri, (i < j <= n)%nat /\ times i r = Some ri /\ times j r = Some ri.
Proof.
  intros H L.
  set (f := fun i => match times i r with Some ri => N.to_nat (r_start ri) | None => O end).
  assert (Fin : forall i, (i < n)%nat -> (f i < length b)%nat).
  { intros i Hi. unfold f. destruct (times_split n r H (S i) Hi) as (r1 & T). replace (S i) with (i + 1)%nat in T by lia.
    rewrite times_add in T. destruct (times i r) as [ri|]; [|discriminate]. cbn [times] in T.
    destruct (once ri) as [r2|] eqn:O; [|discriminate]. apply once_in in O. unfold blen in O. lia. }
  assert (ND : ~ NoDup (map f (seq 0 n))).
  { intros ND. assert (I : incl (map f (seq 0 n)) (seq 0 (length b))).
    { intros x Hx. apply in_map_iff in Hx as (i & <- & Hi). apply in_seq in Hi. apply in_seq. specialize (Fin i). lia. }
    pose proof (NoDup_incl_length ND I) as K. rewrite map_length, !seq_length in K. unfold blen in L. lia. }
  assert (D : exists i j, (i < j < n)%nat /\ f i = f j).
  { clear -ND. induction n as [|n IH]; [cbn in ND; destruct ND; constructor|].
    rewrite seq_S, map_app in ND. cbn [map Nat.add] in ND.
    destruct (in_dec Nat.eq_dec (f n) (map f (seq 0 n))) as [I|NI].
    - apply in_map_iff in I as (i & E & Hi). apply in_seq in Hi. exists i, n. split; [lia|exact E].
    - destruct IH as (i & j & Hij & E).
      + intros N. apply ND. apply NoDup_rev in N. rewrite <- (rev_involutive (map f (seq 0 n) ++ [f n])).
        apply NoDup_rev. rewrite rev_app_distr. cbn [rev app]. constructor; [rewrite <- in_rev; exact NI|exact N].
      + exists i, j. split; [lia|exact E]. }
  destruct D as (i & j & Hij & E).
  destruct (times_split n r H i ltac:(lia)) as (ri & Ti). destruct (times_split n r H j ltac:(lia)) as (rj & Tj).
  exists i, j, ri. split; [lia|]. split; [exact Ti|]. rewrite Tj. f_equal. unfold f in E. rewrite Ti, Tj in E.
  pose proof (times_end _ _ _ Ti). pose proof (times_end _ _ _ Tj). destruct ri, rj. cbn in *. f_equal; lia.
Qed.

Lemma fuel_enough r m : msg_loop b (S (length b)) step r m = Diverge -> forall k, msg_loop b k step r m = Diverge.
Proof.
  intros H. destruct (diverge_times _ _ _ H) as [T|T]; [|exact T].
  destruct (pigeonhole r (S (length b)) T) as (i & j & ri & Hij & Ti & Tj); [unfold blen; lia|].
  assert (A : forall n, exists rn, times n r = Some rn).
  { induction n as [n IH] using (well_founded_induction Wf_nat.lt_wf).
    destruct (Nat.le_gt_cases n j) as [L|L]; [apply (times_split _ _ T); lia|].
    destruct (IH (i + (n - j))%nat) as (rn & E); [lia|]. exists rn. rewrite times_add, Ti in E.
    replace n with (j + (n - j))%nat by lia. rewrite times_add, Tj. exact E. }
  intros k. apply times_diverge.
  - destruct (A k) as (rk & E). congruence.
  - intros r' E. destruct (A (k + 1)%nat) as (r1 & E1). rewrite times_add, E in E1. cbn [times] in E1. unfold once in E1.
    destruct (is_eof r'); [discriminate|reflexivity].
Qed.
Lemma loop_fuel r m fuel : (S (length b) <= fuel)%nat -> msg_loop b fuel step r m = msg_loop b (S (length b)) step r m.
Proof.
  intros L. destruct (msg_loop b (S (length b)) step r m) eqn:E.
  4: apply fuel_enough; exact E.
  all: replace fuel with (S (length b) + (fuel - S (length b)))%nat by lia; rewrite more_fuel by congruence; exact E.
Qed.
End loop.

(** ** The four messages *)
Section messages.
Context (dbg : bool) (b : bytes).

Lemma shape_map {A M} (o : pres A) (f g : A -> M) :
  shape (do (r1, v) <- o; Ok (r1, f v)) = shape (do (r1, v) <- o; Ok (r1, g v)).
Proof. destruct o as [[r v]| | |]; reflexivity. Qed.
Lemma shape_unknown {M} t (m m' : M) r : shape (unknown dbg b t m r) = shape (unknown dbg b t m' r).
Proof. unfold unknown. destruct (read_unknown dbg b t r); reflexivity. Qed.

Definition keeps {A} (r : reader) (o : pres A) : Prop := forall r' a, o = Ok (r', a) -> r_end r' = r_end r.
Lemma keeps_bind {A B} r (o : pres A) (k : reader * A -> pres B) :
  keeps r o -> (forall r1 a, r_end r1 = r_end r -> keeps r (k (r1, a))) -> keeps r (bind o k).
Proof. intros H K r' a E. apply bind_ok in E as [[r1 x] [E1 E2]]. eapply K; [eapply H; exact E1|exact E2]. Qed.
Lemma keeps_ok {A} r r1 (a : A) : r_end r1 = r_end r -> keeps r (Ok (r1, a)).
Proof. intros H r' x [= <- <-]. exact H. Qed.
Lemma keeps_sfwd {A} r (o : pres A) : fwd b r o -> keeps r o.
Proof. intros H r' a ->. exact (proj2 H). Qed.
Lemma keeps_32 r : keeps r (read_varint32 b r).
Proof. apply keeps_sfwd, read_varint32_fwd. Qed.
Lemma keeps_64 r : keeps r (read_varint64 b r).
Proof. apply keeps_sfwd, read_varint64_fwd. Qed.
Lemma keeps_len {A} (f : reader -> outcome perr A) r : keeps r (read_len_varint dbg b f r).
Proof.
  apply keeps_bind; [apply keeps_32|]. intros r1 len E r' a H. apply bind_ok in H as [e [_ H]]. apply bind_ok in H as [v [_ H]].
  injection H as <- _. exact E.
Qed.
Lemma keeps_unknown {M} t (m : M) r : keeps r (unknown dbg b t m r).
Proof.
  intros r' m' H. apply bind_ok in H as [r1 [R H]]. injection H as <- _. unfold read_unknown in R.
  assert (C : t mod 8 = 0 \/ t mod 8 = 1 \/ t mod 8 = 2 \/ t mod 8 = 3 \/ t mod 8 = 4 \/ t mod 8 = 5 \/ t mod 8 = 6 \/ t mod 8 = 7)
    by (pose proof (N.mod_lt t 8 ltac:(discriminate)); lia).
  destruct C as [C|[C|[C|[C|[C|[C|[C|C]]]]]]]; rewrite C in R; try discriminate;
    repeat match type of R with bind _ _ = _ => let x := fresh in let E := fresh in apply bind_ok in R as [x [E R]]; try destruct x as [? ?] end;
    injection R as <-; cbn [r_end]; try reflexivity; try (eapply keeps_64; eassumption).
Qed.
Lemma keeps_map {A M} r (o : pres A) (f : A -> M) : keeps r o -> keeps r (do (r1, v) <- o; Ok (r1, f v)).
Proof. intros H. apply keeps_bind; [exact H|]. intros. apply keeps_ok. assumption. Qed.
Lemma keeps_bytes r : keeps r (read_bytes dbg b r).
Proof. apply (keeps_map r (read_slice dbg b r) snd), keeps_len. Qed.
Lemma keeps_fixed r : keeps r (read_fixed32 dbg b r).
Proof. intros r' v H. apply bind_ok in H as [e [_ H]]. destruct (get_range _ _ _); [|discriminate]. injection H as <- _. reflexivity. Qed.

Ltac tag t n := destruct (N.eq_dec t n) as [->|?].

Lemma link_ind t m m' r : shape (pblink_step dbg b t m r) = shape (pblink_step dbg b t m' r).
Proof.
  tag t 10; [apply shape_map|]. tag t 18; [apply shape_map|]. tag t 24; [apply shape_map|].
  rewrite !pblink_step_other by assumption. apply shape_unknown.
Qed.
Lemma link_end t m r r' m' : pblink_step dbg b t m r = Ok (r', m') -> r_end r' = r_end r.
Proof.
  tag t 10; [apply keeps_map, keeps_bytes|]. tag t 18; [apply keeps_map, keeps_len|]. tag t 24; [apply keeps_map, keeps_64|].
  rewrite pblink_step_other by assumption. apply keeps_unknown.
Qed.
Lemma node_ind t m m' r : shape (pbnode_step dbg b t m r) = shape (pbnode_step dbg b t m' r).
Proof.
  tag t 10; [apply shape_map|]. tag t 18; [apply shape_map|]. rewrite !pbnode_step_other by assumption. apply shape_unknown.
Qed.
Lemma node_end t m r r' m' : pbnode_step dbg b t m r = Ok (r', m') -> r_end r' = r_end r.
Proof.
  tag t 10; [apply keeps_map, keeps_len|]. tag t 18; [apply keeps_map, keeps_len|].
  rewrite pbnode_step_other by assumption. apply keeps_unknown.
Qed.
Lemma time_ind t m m' r : shape (unixtime_step dbg b t m r) = shape (unixtime_step dbg b t m' r).
Proof.
  tag t 8; [apply shape_map|]. tag t 21; [apply shape_map|]. rewrite !unixtime_step_other by assumption. apply shape_unknown.
Qed.
Lemma time_end t m r r' m' : unixtime_step dbg b t m r = Ok (r', m') -> r_end r' = r_end r.
Proof.
  tag t 8; [apply keeps_map, keeps_64|]. tag t 21; [apply keeps_map, keeps_fixed|].
  rewrite unixtime_step_other by assumption. apply keeps_unknown.
Qed.
Lemma unixfs_ind t m m' r : shape (unixfs_step dbg b t m r) = shape (unixfs_step dbg b t m' r).
Proof.
  destruct m, m'.
  tag t 8; [apply shape_map|]. tag t 18; [apply shape_map|]. tag t 24; [apply shape_map|]. tag t 32; [apply shape_map|].
  tag t 40; [apply shape_map|]. tag t 48; [apply shape_map|]. tag t 56; [apply shape_map|]. tag t 66; [apply shape_map|].
  rewrite !unixfs_step_other by assumption. apply shape_unknown.
Qed.
Lemma unixfs_end t m r r' m' : unixfs_step dbg b t m r = Ok (r', m') -> r_end r' = r_end r.
Proof.
  destruct m.
  tag t 8; [apply keeps_map, keeps_32|]. tag t 18; [apply keeps_map, keeps_bytes|]. tag t 24; [apply keeps_map, keeps_64|].
  tag t 32; [apply keeps_map, keeps_64|]. tag t 40; [apply keeps_map, keeps_64|]. tag t 48; [apply keeps_map, keeps_64|].
  tag t 56; [apply keeps_map, keeps_32|]. tag t 66; [apply keeps_map, keeps_len|].
  rewrite unixfs_step_other by assumption. apply keeps_unknown.
Qed.

Lemma fuel_adequate fuel r : (S (length b) <= fuel)%nat ->
  (forall m, msg_loop b fuel (pblink_step dbg b) r m = from_reader b (pblink_step dbg b) m r)
  /\ (forall m, msg_loop b fuel (pbnode_step dbg b) r m = from_reader b (pbnode_step dbg b) m r)
  /\ (forall m, msg_loop b fuel (unixtime_step dbg b) r m = from_reader b (unixtime_step dbg b) m r)
  /\ (forall m, msg_loop b fuel (unixfs_step dbg b) r m = from_reader b (unixfs_step dbg b) m r).
Proof.
  intros L. unfold from_reader. split; [|split; [|split]]; intros m; apply loop_fuel; try exact m; try exact L.
  - apply link_ind. - apply link_end. - apply node_ind. - apply node_end.
  - apply time_ind. - apply time_end. - apply unixfs_ind. - apply unixfs_end.
Qed.
End messages.
