(** * Hang_proofs: parsing without overflow checks stays for ever exactly in the
    blocks of SpecHang.v *)
From Verif Require Import Base Tac Wire Utf8 Cid Pb Dagpb SpecWire Wire_proofs Pb_proofs Codec_proofs Parse_safety Lax_proofs SpecOverflow Overflow_proofs Fuel_proofs SpecHang.

(** ** Loops *)
Section loop.
Context {M : Type} (b : bytes) (step : N -> M -> reader -> pres M).
Context (Hind : forall t m m' r, shape (step t m r) = shape (step t m' r)).
Context (Hend : forall t m r r' m', step t m r = Ok (r', m') -> r_end r' = r_end r).
Context (m0 : M).
Let once := once b step m0.
Let times := times b step m0.
(** the move of a loop ending at [e] *)
Definition goes (e p q : N) : Prop := p <> e /\ once (Reader p e) = Some (Reader q e).

Lemma once_end r r' : once r = Some r' -> r_end r' = r_end r.
Proof. intros H. exact (proj2 (once_in b step Hind Hend m0 _ _ H)). Qed.
Lemma once_eof r r' : once r = Some r' -> is_eof r = false.
Proof. unfold once, Fuel_proofs.once. destruct (is_eof r); [discriminate|reflexivity]. Qed.
Lemma eof_neq p e : is_eof (Reader p e) = false <-> p <> e.
Proof. unfold is_eof. cbn [r_start r_end]. destruct (N.eqb_spec p e); split; congruence. Qed.

Section moves.
Context (e : N) (move : N -> N -> Prop).
Context (Hmove : forall p q, p <> e -> (once (Reader p e) = Some (Reader q e) <-> move p q)).

Lemma times_reaches n : forall p r, times n (Reader p e) = Some r -> exists q, r = Reader q e /\ reaches move e p q.
Proof.
  induction n as [|n IH]; intros p r H; cbn in H.
  - injection H as <-. exists p. split; [reflexivity|constructor].
  - fold once times in H. destruct (once (Reader p e)) as [[q e']|] eqn:O; [|discriminate].
    pose proof (once_end _ _ O) as E. cbn in E. subst e'. pose proof (proj1 (eof_neq p e) (once_eof _ _ O)) as N.
    apply IH in H as (k & -> & R). exists k. split; [reflexivity|]. econstructor; [exact N|apply Hmove; eassumption|exact R].
Qed.
Lemma reaches_times p q : reaches move e p q -> exists n, times n (Reader p e) = Some (Reader q e).
Proof.
  induction 1 as [p|p q r N Hm _ (n & IH)]; [exists 0%nat; reflexivity|]. exists (S n). cbn. fold once times.
  apply Hmove in Hm; [|exact N]. rewrite Hm. exact IH.
Qed.

Lemma loop_through n : forall r r' m, times n r = Some r' -> exists m', forall k, msg_loop b (n + k) step r m = msg_loop b k step r' m'.
Proof.
  induction n as [|n IH]; intros r r' m H; cbn in H.
  - injection H as ->. exists m. reflexivity.
  - fold once times in H. destruct (once r) as [r1|] eqn:O; [|discriminate]. pose proof (once_eof _ _ O) as N.
    unfold once, Fuel_proofs.once in O. rewrite N in O. destruct (next_tag b r) as [[r2 t]| | |] eqn:T; try discriminate.
    pose proof (Hind t m m0 r2) as S. destruct (step t m0 r2) as [[r3 m3]| | |]; try discriminate. injection O as ->.
    destruct (step t m r2) as [[r4 m4]| | |] eqn:St; cbn in S; try discriminate. injection S as ->.
    destruct (IH _ _ m4 H) as (m' & E). exists m'. intros k. cbn [Nat.add msg_loop]. rewrite N, T. cbn [bind]. rewrite St. cbn [bind]. apply E.
Qed.
Lemma loop_back n : forall r m x, msg_loop b n step r m = Ok x ->
  exists i r', times i r = Some r' /\ is_eof r' = true /\ fst x = r'.
Proof.
  induction n as [|n IH]; intros r m x H; cbn [msg_loop] in H; destruct (is_eof r) eqn:E; try discriminate.
  - injection H as <-. exists 0%nat, r. auto.
  - injection H as <-. exists 0%nat, r. auto.
  - apply bind_ok in H as [[r1 t] [T H]]. apply bind_ok in H as [[r2 m2] [St H]]. apply IH in H as (i & r' & Ti & E' & F).
    exists (S i), r'. split; [|auto]. cbn. fold once times. unfold once, Fuel_proofs.once. rewrite E, T.
    pose proof (Hind t m m0 r1) as S. rewrite St in S. destruct (step t m0 r1) as [[r3 m3]| | |]; cbn in S; try discriminate.
    injection S as <-. exact Ti.
Qed.
Lemma enough k r m : msg_loop b k step r m <> Diverge -> from_reader b step m r = msg_loop b k step r m.
Proof.
  intros H. unfold from_reader. destruct (Nat.le_ge_cases k (S (length b))) as [L|L].
  - replace (S (length b)) with (k + (S (length b) - k))%nat by lia. apply more_fuel. exact H.
  - symmetry. exact (loop_fuel b step Hind Hend m0 r m k L).
Qed.

Lemma loop_ok p m : (exists x, from_reader b step m (Reader p e) = Ok x) <-> reaches move e p e.
Proof.
  split.
  - intros (x & H). apply loop_back in H as (i & r' & T & E & _). apply times_reaches in T as (q & -> & R).
    unfold is_eof in E. cbn in E. apply N.eqb_eq in E. subst q. exact R.
  - intros R. apply reaches_times in R as (n & T). destruct (loop_through _ _ _ m T) as (m' & E). specialize (E 0%nat).
    cbn [msg_loop] in E. unfold is_eof in E. cbn in E. rewrite N.eqb_refl in E. eexists. rewrite (enough (n + 0)); rewrite E; [reflexivity|discriminate].
Qed.

(** a field in which reading never ends *)
Definition stuck (p : N) : Prop := p <> e /\ exists r t, next_tag b (Reader p e) = Ok (r, t) /\ step t m0 r = Diverge.
Lemma diverge_cases n : forall p m, msg_loop b n step (Reader p e) m = Diverge ->
  times n (Reader p e) <> None \/ exists q, reaches move e p q /\ stuck q.
Proof.
  induction n as [|n IH]; intros p m H; [left; discriminate|]. cbn [msg_loop] in H.
  destruct (is_eof (Reader p e)) eqn:E; [discriminate|]. pose proof (proj1 (eof_neq p e) E) as N.
  destruct (next_tag b (Reader p e)) as [[r1 t]| | |] eqn:T; cbn [bind] in H; try discriminate.
  - pose proof (Hind t m m0 r1) as S. destruct (step t m r1) as [[r2 m2]| | |] eqn:St; cbn [bind] in H; try discriminate.
    + destruct (step t m0 r1) as [[r3 m3]| | |] eqn:S0; cbn in S; try discriminate. injection S as <-.
      assert (O : once (Reader p e) = Some r2) by (unfold once, Fuel_proofs.once; rewrite E, T, S0; reflexivity).
      pose proof (once_end _ _ O) as E2. destruct r2 as [q e']. cbn in E2. subst e'.
      apply IH in H as [H|(k & R & K)].
      * left. cbn. fold once times. rewrite O. exact H.
      * right. exists k. split; [|exact K]. econstructor; [exact N|apply Hmove; eassumption|exact R].
    + right. exists p. split; [constructor|]. split; [exact N|]. exists r1, t. split; [exact T|].
      destruct (step t m0 r1) as [[r3 m3]| | |]; cbn in S; congruence.
  - exfalso. pose proof (varint32_go_sfwd b 4 (Reader p e) 0 1) as F. unfold next_tag, read_varint32 in T. rewrite T in F. exact F.
Qed.
Lemma never n : forall r m, times n r <> None -> forall k, (k < n)%nat -> msg_loop b k step r m = Diverge.
Proof.
  intros r m H k L. apply (times_diverge b step Hind m0).
  - destruct (times_split b step Hind Hend m0 n r H k ltac:(lia)) as (r' & E). congruence.
  - intros r' E. destruct (times_split b step Hind Hend m0 n r H (S k) ltac:(lia)) as (r1 & E1).
    replace (S k) with (k + 1)%nat in E1 by lia. rewrite times_add, E in E1. cbn in E1. fold once in E1.
    destruct (once r') eqn:O; [|discriminate]. exact (once_eof _ _ O).
Qed.

Lemma loop_hangs p m : from_reader b step m (Reader p e) = Diverge <->
  circles move e p \/ exists q, reaches move e p q /\ stuck q.
Proof.
  split.
  - intros H. apply diverge_cases in H as [H|H]; [left|right; exact H].
    destruct (pigeonhole b step Hind Hend m0 (Reader p e) (S (length b)) H) as (i & j & ri & Hij & Ti & Tj); [unfold blen; lia|].
    pose proof Ti as Ri. apply times_reaches in Ri as (q & -> & Ri). replace j with (i + S (j - i - 1))%nat in Tj by lia.
    rewrite times_add, Ti in Tj. cbn in Tj. fold once times in Tj. destruct (once (Reader q e)) as [[k e']|] eqn:O; [|discriminate].
    pose proof (once_end _ _ O) as E. cbn in E. subst e'. pose proof (proj1 (eof_neq q e) (once_eof _ _ O)) as N.
    apply times_reaches in Tj as (q' & E & Rk). injection E as <-. exists q, k. split; [exact Ri|]. split; [exact N|].
    split; [apply Hmove; assumption|exact Rk].
  - intros [(q & k & R & N & Hm & Rk)|(q & R & N & r & t & T & St)].
    + apply reaches_times in R as (i & Ti). apply Hmove in Hm; [|exact N]. apply reaches_times in Rk as (j & Tj).
      assert (Loop : times (S j) (Reader q e) = Some (Reader q e)) by (cbn; fold once times; rewrite Hm; exact Tj).
      assert (A : forall n, times (n * S j) (Reader q e) = Some (Reader q e)).
      { induction n as [|n IH]; [reflexivity|]. cbn [Nat.mul]. unfold times in *. rewrite times_add, Loop. exact IH. }
      unfold from_reader. apply (never (i + (S (S (length b))) * S j)).
      * unfold times in *. rewrite times_add, Ti, A. discriminate.
      * nia.
    + apply reaches_times in R as (i & Ti). destruct (loop_through _ _ _ m Ti) as (m' & E). specialize (E (Datatypes.S (Datatypes.S (length b)))).
      cbn [msg_loop] in E. rewrite (proj2 (eof_neq q e) N), T in E. cbn [bind] in E.
      pose proof (Hind t m' m0 r) as St'. rewrite St in St'. destruct (step t m' r) as [[? ?]| | |]; cbn in St'; try discriminate. cbn [bind] in E.
      rewrite <- E. unfold from_reader. symmetry. apply (loop_fuel b step Hind Hend m0). lia.
Qed.
End moves.
End loop.

(** ** Numbers and lengths *)
Section fields.
Context (b : bytes) (Lb : blen b < two32).
Lemma Lb64 : blen b < two64. Proof. apply two32_lt_two64. exact Lb. Qed.

Lemma add_false {E} x y : @add64 E false x y = Ok ((x + y) mod two64).
Proof. unfold add64. destruct (N.ltb_spec (x + y) two64); [rewrite N.mod_small by assumption|]; reflexivity. Qed.
Lemma number_le p v q : number_at b p v q -> p < q /\ q <= blen b.
Proof.
  intros (x & (V & _) & St & ->). apply is_varint_pos in V. apply has_stands in St as (L & _). unfold blen in *. lia.
Qed.
Lemma num_iff (read : bytes -> reader -> pres N) (modulus : N)
  (Hr : forall pos x v, varint x v -> reads_at pos read x (v mod modulus))
  (Hi : forall b r r' v, blen b < two64 -> read b r = Ok (r', v) ->
     exists bs w, varint bs w /\ v = w mod modulus /\ has b (r_start r) bs /\ r' = Reader (r_start r + blen bs) (r_end r)) p e r' v :
  read b (Reader p e) = Ok (r', v) <-> exists w q, number_at b p w q /\ v = w mod modulus /\ r' = Reader q e.
Proof.
  split.
  - intros H. apply Hi in H as (bs & w & V & -> & Hb & ->); [|exact Lb64]. cbn [r_start r_end] in *.
    exists w, (p + blen bs). split; [|auto]. exists bs. split; [exact V|]. split; [apply has_stands; exact Hb|reflexivity].
  - intros (w & q & (x & V & (pre & post & E & P) & ->) & -> & ->). pose proof Lb64 as L. rewrite E in *. apply Hr; assumption.
Qed.
Definition num32_iff := num_iff read_varint32 two32 read_varint32_reads inv32.
Definition num64_iff := num_iff read_varint64 two64 read_varint64_reads inv64.

Lemma number_ok32 p w q e : number_at b p w q -> read_varint32 b (Reader p e) = Ok (Reader q e, w mod two32).
Proof. intros H. apply num32_iff. eauto. Qed.
Lemma number_ok64 p w q e : number_at b p w q -> read_varint64 b (Reader p e) = Ok (Reader q e, w mod two64).
Proof. intros H. apply num64_iff. eauto. Qed.

Lemma len_iff {A} (f : reader -> outcome perr A) p e r' a :
  read_len_varint false b f (Reader p e) = Ok (r', a) <->
  exists w m, number_at b p w m /\ f (Reader m (m + w mod two32)) = Ok a /\ r' = Reader (m + w mod two32) e.
Proof.
  assert (Small : forall w m p, number_at b p w m -> (m + w mod two32) mod two64 = m + w mod two32).
  { intros w m p0 H. apply number_le in H. apply N.mod_small. pose proof (N.mod_lt w two32 ltac:(discriminate)).
    unfold two32, two64 in *. lia. }
  unfold read_len_varint. split.
  - intros H. apply bind_ok in H as [[r1 len] [R H]]. apply bind_ok in H as [x [Ea H]]. apply bind_ok in H as [v [F H]].
    injection H as <- <-. apply num32_iff in R as (w & m & Nu & -> & ->). cbn [r_start r_end] in *. rewrite add_false in Ea. injection Ea as <-.
    rewrite (Small _ _ _ Nu) in *. eauto.
  - intros (w & m & Nu & F & ->). rewrite (number_ok32 _ _ _ _ Nu). cbn [bind r_start r_end]. rewrite add_false, (Small _ _ _ Nu). cbn [bind].
    rewrite F. reflexivity.
Qed.
Lemma range_iff s k x : get_range b s k = Some x <-> stands b s x /\ k = s + blen x.
Proof.
  split.
  - intros H. apply get_range_has in H as [H E]. split; [apply has_stands; exact H|exact E].
  - intros [St ->]. apply has_stands in St as [L [post E]]. unfold get_range. unfold blen in *.
    rewrite (proj2 (N.leb_le _ _)) by lia. rewrite (proj2 (N.leb_le _ _)) by lia. cbn [andb]. f_equal.
    rewrite E. replace (N.to_nat (s + N.of_nat (length x) - s)) with (length x) by lia. rewrite firstn_app, Nat.sub_diag, firstn_all. cbn. apply app_nil_r.
Qed.
(** slices that have to satisfy [ok] *)
Lemma slice_iff {A} (f : reader -> outcome perr A) (ok : bytes -> Prop) p e r'
  (Hf : forall s k, (exists a, f (Reader s k) = Ok a) <-> exists x, get_range b s k = Some x /\ ok x) :
  (exists a, read_len_varint false b f (Reader p e) = Ok (r', a)) <-> exists q x, r' = Reader q e /\ bytes_at b p x q /\ ok x.
Proof.
  split.
  - intros (a & H). apply len_iff in H as (w & m & Nu & F & ->). destruct (proj1 (Hf m (m + w mod two32)) (ex_intro _ a F)) as (x & G & Hok).
    apply range_iff in G as [St E]. exists (m + w mod two32), x. split; [reflexivity|]. split; [|exact Hok]. exists w, m. repeat split; auto; lia.
  - intros (q & x & -> & (w & m & Nu & St & E & ->) & Hok).
    destruct (proj2 (Hf m (m + blen x))) as (a & F); [exists x; split; [apply range_iff; auto|exact Hok]|].
    exists a. apply len_iff. exists w, m. rewrite <- E. auto.
Qed.
Lemma bytes_iff p e r' : (exists a, read_slice false b (Reader p e) = Ok (r', a)) <-> exists q x, r' = Reader q e /\ bytes_at b p x q.
Proof.
  unfold read_slice. rewrite (slice_iff _ (fun _ => True)).
  - split; intros (q & x & H); exists q, x; tauto.
  - intros s k. cbn [r_start r_end]. destruct (get_range b s k) as [x|]; split; intros (y & H); try discriminate H; eauto. destruct H as [H _]. discriminate H.
Qed.
Lemma string_iff p e r' : (exists a, read_string false b utf8_valid (Reader p e) = Ok (r', a)) <->
  exists q x, r' = Reader q e /\ bytes_at b p x q /\ utf8_valid x = true.
Proof.
  unfold read_string. apply slice_iff. intros s k. cbn [r_start r_end]. destruct (get_range b s k) as [x|].
  - destruct (utf8_valid x) eqn:U; split; intros (y & H); try discriminate H; eauto. destruct H as [H U']. injection H as <-. congruence.
  - split; intros (y & H); [discriminate H|destruct H as [H _]; discriminate H].
Qed.
Lemma fixed_iff p e r' : p <= blen b -> (exists a, read_fixed32 false b (Reader p e) = Ok (r', a)) <->
  exists x, r' = Reader (p + 4) e /\ stands b p x /\ blen x = 4.
Proof.
  intros L. unfold read_fixed32. cbn [r_start r_end]. rewrite add_false. cbn [bind].
  rewrite N.mod_small by (unfold two32, two64 in *; lia). split.
  - intros (a & H). destruct (get_range b p (p + 4)) as [x|] eqn:G; [|discriminate]. injection H as <- _.
    apply range_iff in G as [St E]. exists x. split; [reflexivity|]. split; [exact St|lia].
  - intros (x & -> & St & E). rewrite (proj2 (range_iff p (p + 4) x)); [eauto|]. split; [exact St|lia].
Qed.
Lemma unknown_iff {M} t (m : M) p e r' : (exists a, unknown false b t m (Reader p e) = Ok (r', a)) <->
  exists q, r' = Reader q e /\ ignored b p (t mod 8) q.
Proof.
  unfold unknown, read_unknown, ignored.
  assert (C : t mod 8 = 0 \/ t mod 8 = 1 \/ t mod 8 = 2 \/ t mod 8 = 3 \/ t mod 8 = 4 \/ t mod 8 = 5 \/ t mod 8 = 6 \/ t mod 8 = 7)
    by (pose proof (N.mod_lt t 8 ltac:(discriminate)); lia).
  assert (No : forall w, w <> 0 -> w <> 1 -> w <> 2 -> w <> 5 -> forall q,
    ~ ((w = 0 /\ exists v, number_at b p v q) \/ (w = 1 /\ q = (p + 8) mod two64)
       \/ (w = 2 /\ exists v m, number_at b p v m /\ q = (m + v) mod two64) \/ (w = 5 /\ q = (p + 4) mod two64))) by (intros; lia).
  destruct C as [C|[C|[C|[C|[C|[C|[C|C]]]]]]]; rewrite C; clear C; cbn [r_start r_end]; rewrite ?add_false; cbn [bind];
    try (split; [intros (a & H); discriminate H|intros (q & _ & H); exfalso; revert H; apply No; discriminate]).
  - split.
    + intros (a & H). apply bind_ok in H as [r1 [H E]]. injection E as <- _. apply bind_ok in H as [[r2 v] [H E]]. injection E as <-.
      apply num64_iff in H as (w & q & Nu & _ & ->). exists q. split; [reflexivity|]. left. eauto.
    + intros (q & -> & [[_ (v & Nu)]|H]); [|exfalso; lia]. rewrite (number_ok64 _ _ _ _ Nu). cbn [bind]. eauto.
  - split.
    + intros (a & H). injection H as <- _. eexists. split; [reflexivity|]. right. left. auto.
    + intros (q & -> & [H|[[_ ->]|H]]); [lia| |lia]. eauto.
  - split.
    + intros (a & H). apply bind_ok in H as [r1 [H E]]. injection E as <- _. apply bind_ok in H as [[r2 v] [H E]].
      apply num64_iff in H as (w & q & Nu & -> & ->). cbn [r_start r_end] in E. rewrite add_false in E. cbn [bind] in E. injection E as <-.
      eexists. split; [reflexivity|]. right. right. left. split; [reflexivity|]. exists w, q. split; [exact Nu|].
      rewrite N.add_mod_idemp_r by discriminate. reflexivity.
    + intros (q & -> & [H|[H|[[_ (v & m' & Nu & ->)]|H]]]); [lia|lia| |lia]. rewrite (number_ok64 _ _ _ _ Nu). cbn [bind r_start r_end].
      rewrite add_false. cbn [bind]. rewrite N.add_mod_idemp_r by discriminate. eauto.
  - split.
    + intros (a & H). injection H as <- _. eexists. split; [reflexivity|]. right. right. right. auto.
    + intros (q & -> & [H|[H|[H|[_ ->]]]]); [lia|lia|lia|]. eauto.
Qed.

(** [o] goes on, from a reader ending at [e], to where [where_] says *)
Lemma map_iff {A B} (o : pres A) (f : A -> B) r' : (exists a, (do (r1, v) <- o; Ok (r1, f v)) = Ok (r', a)) <-> exists a, o = Ok (r', a).
Proof. destruct o as [[r v]| | |]; cbn [bind]; split; intros (a & H); try discriminate H; injection H as <- _; eauto. Qed.
Lemma n32_iff p e r' : (exists a, read_varint32 b (Reader p e) = Ok (r', a)) <-> exists q v, r' = Reader q e /\ number_at b p v q.
Proof.
  split; [intros (a & H); apply num32_iff in H as (w & q & Nu & _ & ->); eauto|].
  intros (q & v & -> & Nu). rewrite (number_ok32 _ _ _ _ Nu). eauto.
Qed.
Lemma n64_iff p e r' : (exists a, read_varint64 b (Reader p e) = Ok (r', a)) <-> exists q v, r' = Reader q e /\ number_at b p v q.
Proof.
  split; [intros (a & H); apply num64_iff in H as (w & q & Nu & _ & ->); eauto|].
  intros (q & v & -> & Nu). rewrite (number_ok64 _ _ _ _ Nu). eauto.
Qed.

(** a message's fields go as its contents do *)
Section message.
Context {M : Type} (step : N -> M -> reader -> pres M) (m0 : M) (contents : N -> N -> N -> Prop).
Context (Hind : forall t m m' r, shape (step t m r) = shape (step t m' r)).
Context (Hend : forall t m r r' m', step t m r = Ok (r', m') -> r_end r' = r_end r).
Context (Hc : forall t p e r', p <= blen b ->
  (exists a, step t m0 (Reader p e) = Ok (r', a)) <-> exists q, r' = Reader q e /\ contents t p q).

Lemma goes_field e p q : p <> e -> (once b step m0 (Reader p e) = Some (Reader q e) <-> field b contents p q).
Proof.
  intros N. unfold once. rewrite (proj2 (eof_neq p e) N). split.
  - intros H. destruct (next_tag b (Reader p e)) as [[r1 t]| | |] eqn:T; try discriminate.
    destruct (step t m0 r1) as [[r2 m2]| | |] eqn:St; try discriminate. injection H as ->.
    apply num32_iff in T as (w & k & Nu & -> & ->). exists w, k. split; [exact Nu|]. apply number_le in Nu as Hl.
    destruct (proj1 (Hc _ _ _ _ (proj2 Hl)) (ex_intro _ _ St)) as (q' & E & C). injection E as ->. exact C.
  - intros (w & k & Nu & C). unfold next_tag. rewrite (number_ok32 _ _ _ _ Nu). apply number_le in Nu as Hl.
    destruct (proj2 (Hc _ k e (Reader q e) (proj2 Hl)) (ex_intro _ q (conj eq_refl C))) as (a & St). rewrite St. reflexivity.
Qed.
Lemma message_ok m p e : (exists x, from_reader b step m (Reader p e) = Ok x) <-> reaches (field b contents) e p e.
Proof. exact (loop_ok b step Hind Hend m0 e _ (goes_field e) p m). Qed.
Lemma message_iff p e r' : (exists a, read_message false b step m0 (Reader p e) = Ok (r', a)) <->
  exists q, r' = Reader q e /\ message_at b (field b contents) p q.
Proof.
  unfold read_message. split.
  - intros (a & H). apply len_iff in H as (w & m & Nu & F & ->). apply bind_ok in F as [[r2 x] [F _]].
    exists (m + w mod two32). split; [reflexivity|]. exists w, m. split; [exact Nu|]. split; [reflexivity|].
    apply (message_ok m0). eauto.
  - intros (q & -> & w & m & Nu & -> & R). apply (message_ok m0) in R as ([r2 x] & F). exists x.
    apply len_iff. exists w, m. rewrite F. auto.
Qed.
Lemma message_hangs m p e : from_reader b step m (Reader p e) = Diverge <->
  circles (field b contents) e p \/ exists q, reaches (field b contents) e p q /\ stuck b step m0 e q.
Proof. exact (loop_hangs b step Hind Hend m0 e _ (goes_field e) p m). Qed.
Lemma stuck_iff e q : stuck b step m0 e q <->
  q <> e /\ exists v m, number_at b q v m /\ step (v mod two32) m0 (Reader m e) = Diverge.
Proof.
  unfold stuck, next_tag. split.
  - intros (N & r & t & T & St). split; [exact N|]. apply num32_iff in T as (w & m & Nu & -> & ->). eauto.
  - intros (N & v & m & Nu & St). split; [exact N|]. rewrite (number_ok32 _ _ _ _ Nu). eauto.
Qed.
End message.

(** ** What never ends *)
Definition ends {A} (o : outcome perr A) : Prop := o <> Diverge.
Lemma ends_bind {A B} (o : outcome perr A) (k : A -> outcome perr B) : ends o -> (forall a, ends (k a)) -> ends (bind o k).
Proof. unfold ends. destruct o; cbn [bind]; auto; discriminate. Qed.
Lemma ends_ok {A} (a : A) : ends (Ok a). Proof. discriminate. Qed.
Lemma ends_32 r : ends (read_varint32 b r).
Proof. exact (fwd_not_div b r _ (read_varint32_fwd b r)). Qed.
Lemma ends_64 r : ends (read_varint64 b r).
Proof. exact (fwd_not_div b r _ (read_varint64_fwd b r)). Qed.
Lemma ends_add {E} x y : @add64 E false x y <> Diverge. Proof. apply add64_not_div. Qed.
Lemma ends_len {A} (f : reader -> outcome perr A) r : (forall q, ends (f q)) -> ends (read_len_varint false b f r).
Proof.
  intros H. apply ends_bind; [apply ends_32|]. intros [r1 len]. apply ends_bind; [apply ends_add|]. intros e.
  apply ends_bind; [apply H|]. intros. apply ends_ok.
Qed.
Lemma ends_slice r : ends (read_slice false b r).
Proof. apply ends_len. intros q. destruct (get_range _ _ _); discriminate. Qed.
Lemma ends_unknown {M} t (m : M) r : ends (unknown false b t m r).
Proof.
  apply ends_bind; [|intros; apply ends_ok]. unfold read_unknown.
  assert (C : t mod 8 = 0 \/ t mod 8 = 1 \/ t mod 8 = 2 \/ t mod 8 = 3 \/ t mod 8 = 4 \/ t mod 8 = 5 \/ t mod 8 = 6 \/ t mod 8 = 7)
    by (pose proof (N.mod_lt t 8 ltac:(discriminate)); lia).
  destruct C as [C|[C|[C|[C|[C|[C|[C|C]]]]]]]; rewrite C; try discriminate; rewrite ?add_false; try discriminate;
    apply ends_bind; try apply ends_64; intros [? ?]; rewrite ?add_false; discriminate.
Qed.
Lemma ends_map {A B} (o : pres A) (f : A -> B) : ends o -> ends (do (r1, v) <- o; Ok (r1, f v)).
Proof. intros H. apply ends_bind; [exact H|]. intros [? ?]. apply ends_ok. Qed.

Ltac tag t n := destruct (N.eq_dec t n) as [->|?].

Lemma ends_link t m r : ends (pblink_step false b t m r).
Proof.
  tag t 10; [apply ends_map, (ends_map (read_slice false b r) snd), ends_slice|].
  tag t 18; [apply ends_map, ends_len; intros q; destruct (get_range _ _ _); [destruct (utf8_valid _)|]; discriminate|].
  tag t 24; [apply ends_map, ends_64|]. rewrite pblink_step_other by assumption. apply ends_unknown.
Qed.
Lemma ends_time t m r : ends (unixtime_step false b t m r).
Proof.
  tag t 8; [apply ends_map, ends_64|].
  tag t 21; [apply ends_map; unfold read_fixed32; rewrite add_false; cbn [bind]; destruct (get_range _ _ _); discriminate|].
  rewrite unixtime_step_other by assumption. apply ends_unknown.
Qed.

(** ** The four messages *)
Ltac eqs := repeat match goal with |- context [?a =? ?c] => rewrite (proj2 (N.eqb_neq a c)) by assumption end.
Lemma swap_ex {A} (P : N -> Prop) (Q : N -> A -> Prop) : (exists q x, P q /\ Q q x) <-> exists q, P q /\ exists x, Q q x.
Proof. split; [intros (q & x & p & h); eauto|intros (q & p & x & h); eauto]. Qed.

Lemma link_goes t p e r' : p <= blen b ->
  (exists a, pblink_step false b t pblink_default (Reader p e) = Ok (r', a)) <-> exists q, r' = Reader q e /\ link_contents b t p q.
Proof.
  intros _. unfold link_contents.
  tag t 10. { cbn [N.eqb Pos.eqb N.mul N.add Pos.mul Pos.add]. unfold pblink_step, read_bytes. rewrite map_iff, map_iff, bytes_iff, swap_ex. reflexivity. }
  tag t 18. { cbn [N.eqb Pos.eqb N.mul N.add Pos.mul Pos.add Pos.succ]. unfold pblink_step. rewrite map_iff, string_iff, swap_ex. reflexivity. }
  tag t 24. { cbn [N.eqb Pos.eqb N.mul N.add Pos.mul Pos.add Pos.succ]. unfold pblink_step. rewrite map_iff, n64_iff, swap_ex. reflexivity. }
  rewrite pblink_step_other by assumption. eqs. apply unknown_iff.
Qed.
Lemma time_goes t p e r' : p <= blen b ->
  (exists a, unixtime_step false b t unixtime_default (Reader p e) = Ok (r', a)) <-> exists q, r' = Reader q e /\ time_contents b t p q.
Proof.
  intros L. unfold time_contents.
  tag t 8. { cbn [N.eqb Pos.eqb N.mul N.add Pos.mul Pos.add]. unfold unixtime_step. rewrite map_iff, n64_iff, swap_ex. reflexivity. }
  tag t 21. { cbn [N.eqb Pos.eqb N.mul N.add Pos.mul Pos.add Pos.succ]. unfold unixtime_step. rewrite map_iff, fixed_iff by exact L.
    split; [intros (x & -> & St & E); exists (p + 4); split; [reflexivity|exists x; auto]|intros (q & -> & x & St & E & ->); eauto]. }
  rewrite unixtime_step_other by assumption. eqs. apply unknown_iff.
Qed.
Lemma node_goes t p e r' : p <= blen b ->
  (exists a, pbnode_step false b t pbnode_default (Reader p e) = Ok (r', a)) <-> exists q, r' = Reader q e /\ node_contents b t p q.
Proof.
  intros _. unfold node_contents.
  tag t 10. { cbn [N.eqb Pos.eqb N.mul N.add Pos.mul Pos.add]. unfold pbnode_step. rewrite map_iff, bytes_iff, swap_ex. reflexivity. }
  tag t 18. { cbn [N.eqb Pos.eqb N.mul N.add Pos.mul Pos.add Pos.succ]. unfold pbnode_step. rewrite map_iff.
    apply message_iff; [apply link_ind|apply link_end|exact link_goes]. }
  rewrite pbnode_step_other by assumption. eqs. apply unknown_iff.
Qed.
Lemma unixfs_goes t p e r' : p <= blen b ->
  (exists a, unixfs_step false b t unixfs_default (Reader p e) = Ok (r', a)) <-> exists q, r' = Reader q e /\ unixfs_contents b t p q.
Proof.
  intros _. unfold unixfs_contents.
  tag t 8. { cbn -[read_varint32 read_varint64 read_message]. rewrite map_iff, n32_iff, swap_ex. reflexivity. }
  tag t 18. { cbn -[read_slice read_bytes]. unfold read_bytes. rewrite map_iff, map_iff, bytes_iff, swap_ex. reflexivity. }
  tag t 24. { cbn -[read_varint32 read_varint64 read_message]. rewrite map_iff, n64_iff, swap_ex. reflexivity. }
  tag t 32. { cbn -[read_varint32 read_varint64 read_message]. rewrite map_iff, n64_iff, swap_ex. reflexivity. }
  tag t 40. { cbn -[read_varint32 read_varint64 read_message]. rewrite map_iff, n64_iff, swap_ex. reflexivity. }
  tag t 48. { cbn -[read_varint32 read_varint64 read_message]. rewrite map_iff, n64_iff, swap_ex. reflexivity. }
  tag t 56. { cbn -[read_varint32 read_varint64 read_message]. rewrite map_iff, n32_iff, swap_ex. reflexivity. }
  tag t 66. { cbn -[read_varint32 read_varint64 read_message]. rewrite map_iff. apply message_iff; [apply time_ind|apply time_end|exact time_goes]. }
  rewrite unixfs_step_other by assumption. cbn [existsb].
  change (1 * 8) with 8; change (3 * 8) with 24; change (4 * 8) with 32; change (5 * 8) with 40; change (6 * 8) with 48; change (7 * 8) with 56;
    change (2 * 8 + 2) with 18; change (8 * 8 + 2) with 66. eqs. cbn [orb]. apply unknown_iff.
Qed.

Lemma link_loop m p e : from_reader b (pblink_step false b) m (Reader p e) = Diverge <-> circles (field b (link_contents b)) e p.
Proof.
  rewrite (message_hangs _ pblink_default _ (link_ind false b) (link_end false b) link_goes). split; [|auto].
  intros [H|(q & _ & _ & r & t & _ & St)]; [exact H|]. destruct (ends_link _ _ _ St).
Qed.
Lemma time_loop m p e : from_reader b (unixtime_step false b) m (Reader p e) = Diverge <-> circles (field b (time_contents b)) e p.
Proof.
  rewrite (message_hangs _ unixtime_default _ (time_ind false b) (time_end false b) time_goes). split; [|auto].
  intros [H|(q & _ & _ & r & t & _ & St)]; [exact H|]. destruct (ends_time _ _ _ St).
Qed.

(** an embedded message without end *)
Lemma nested_iff {M P} (step : N -> M -> reader -> pres M) (m0 : M) (move : N -> N -> Prop) (f : M -> P) p e
  (Hl : forall m p e, from_reader b step m (Reader p e) = Diverge <-> circles move e p) :
  (do (r1, v) <- read_message false b step m0 (Reader p e); Ok (r1, f v)) = Diverge <->
  exists n k, number_at b p n k /\ circles move (k + n mod two32) k.
Proof.
  assert (Small : forall w m p, number_at b p w m -> (m + w mod two32) mod two64 = m + w mod two32).
  { intros w m p0 H. apply number_le in H. apply N.mod_small. pose proof (N.mod_lt w two32 ltac:(discriminate)).
    unfold two32, two64 in *. lia. }
  unfold read_message, read_len_varint. split.
  - destruct (read_varint32 b (Reader p e)) as [[r1 w]| | |] eqn:R; cbn [bind]; try discriminate; [|intros _; destruct (ends_32 _ R)].
    apply num32_iff in R as (n & k & Nu & -> & ->). cbn [r_start r_end]. rewrite add_false. cbn [bind]. rewrite (Small _ _ _ Nu).
    intros H. exists n, k. split; [exact Nu|]. apply (Hl m0).
    destruct (from_reader b step m0 (Reader k (k + n mod two32))) as [[r x]| | |]; cbn [bind] in H; congruence.
  - intros (n & k & Nu & C). rewrite (number_ok32 _ _ _ _ Nu). cbn [bind r_start r_end]. rewrite add_false. cbn [bind]. rewrite (Small _ _ _ Nu).
    apply (Hl m0) in C. rewrite C. reflexivity.
Qed.
Lemma node_stuck t p e : pbnode_step false b t pbnode_default (Reader p e) = Diverge <->
  t = 2 * 8 + 2 /\ exists n k, number_at b p n k /\ circles (field b (link_contents b)) (k + n mod two32) k.
Proof.
  change (2 * 8 + 2) with 18. tag t 18.
  - unfold pbnode_step. rewrite (nested_iff _ _ _ (fun l => PBNode (n_links pbnode_default ++ [l]) (n_data pbnode_default)) p e link_loop). tauto.
  - split; [|intros [E _]; congruence]. intros H. exfalso. tag t 10.
    + revert H. apply (ends_map (read_slice false b _)), ends_slice.
    + rewrite pbnode_step_other in H by assumption. exact (ends_unknown _ _ _ H).
Qed.
Lemma unixfs_stuck t p e : unixfs_step false b t unixfs_default (Reader p e) = Diverge <->
  t = 8 * 8 + 2 /\ exists n k, number_at b p n k /\ circles (field b (time_contents b)) (k + n mod two32) k.
Proof.
  change (8 * 8 + 2) with 66. tag t 66.
  - cbn -[read_message]. rewrite (nested_iff _ _ _ (fun v => UnixFs Raw None None [] None None None (Some v)) p e time_loop). tauto.
  - split; [|intros [E _]; congruence]. intros H. exfalso. revert H. change (ends (unixfs_step false b t unixfs_default (Reader p e))).
    tag t 8; [apply ends_map, ends_32|].
    tag t 18; [apply ends_map, (ends_map (read_slice false b _) snd), ends_slice|].
    tag t 24; [apply ends_map, ends_64|]. tag t 32; [apply ends_map, ends_64|]. tag t 40; [apply ends_map, ends_64|].
    tag t 48; [apply ends_map, ends_64|]. tag t 56; [apply ends_map, ends_32|].
    rewrite unixfs_step_other by assumption. apply ends_unknown.
Qed.
Lemma whole_hangs {M} (step : N -> M -> reader -> pres M) (m0 : M) contents t move'
  (Hind : forall t m m' r, shape (step t m r) = shape (step t m' r))
  (Hend : forall t m r r' m', step t m r = Ok (r', m') -> r_end r' = r_end r)
  (Hc : forall t p e r', p <= blen b -> (exists a, step t m0 (Reader p e) = Ok (r', a)) <-> exists q, r' = Reader q e /\ contents t p q)
  (Hs : forall v p e, step v m0 (Reader p e) = Diverge <-> v = t /\ exists n k, number_at b p n k /\ circles move' (k + n mod two32) k) :
  (do (_, m) <- from_reader b step m0 (whole b); Ok m) = Diverge <-> hangs b (field b contents) t move'.
Proof.
  transitivity (from_reader b step m0 (Reader 0 (blen b)) = Diverge).
  { unfold whole. destruct (from_reader _ _ _ _) as [[? ?]| | |]; cbn [bind]; split; congruence. }
  rewrite (message_hangs _ m0 _ Hind Hend Hc). unfold hangs. apply or_iff_compat_l. split.
  - intros (q & R & S). apply stuck_iff in S as (N & v & m & Nu & S). apply Hs in S as (E & n & k & Nk & C). exists q, v, m, n, k. auto 8.
  - intros (q & v & m & n & k & R & N & Nu & E & Nk & C). exists q. split; [exact R|]. apply stuck_iff. split; [exact N|]. exists v, m. split; [exact Nu|].
    apply Hs. eauto.
Qed.
Lemma node_parse_hangs : pbnode_parse false b = Diverge <-> node_hangs b.
Proof. exact (whole_hangs _ pbnode_default _ _ _ (node_ind false b) (node_end false b) node_goes node_stuck). Qed.
Lemma unixfs_parse_hangs : unixfs_parse false b = Diverge <-> unixfs_hangs b.
Proof. exact (whole_hangs _ unixfs_default _ _ _ (unixfs_ind false b) (unixfs_end false b) unixfs_goes unixfs_stuck). Qed.
End fields.

Lemma no_bytes_end : ~ unixfs_hangs [].
Proof. intros H. apply unixfs_parse_hangs in H; [discriminate H|reflexivity]. Qed.

Lemma parse_hangs block : blen block < two32 ->
  try_parse false block = Diverge <->
  node_hangs block \/ exists d, node_data false block = Ok (Some d) /\ unixfs_hangs d.
Proof.
  intros L. rewrite <- (node_parse_hangs block L). unfold try_parse, node_data, node_data_slice.
  destruct (pbnode_parse false block) as [n|e| |] eqn:P; cbn [map_err bind].
  - pose proof (pbnode_parse_slice false block n P) as Sl. unfold slice_ok in Sl.
    destruct (n_data n) as [[off x]|]; cbn [option_map snd].
    + apply get_range_has in Sl as [[Sl _] _].
      assert (Lx : blen x < two32) by lia. split.
      * intros H. right. exists x. split; [reflexivity|]. destruct x as [|y x]; [discriminate H|]. apply unixfs_parse_hangs; [exact Lx|].
        destruct (unixfs_parse false (y :: x)); cbn [map_err bind] in H; congruence.
      * intros [H|(d & E & H)]; [discriminate H|]. injection E as <-. destruct x as [|y x]; [destruct (no_bytes_end H)|].
        apply unixfs_parse_hangs in H; [|exact Lx]. rewrite H. reflexivity.
    + split; [discriminate|]. intros [H|(d & E & _)]; discriminate.
  - split; [discriminate|]. intros [H|(d & E & _)]; discriminate.
  - split; [discriminate|]. intros [H|(d & E & _)]; discriminate.
  - tauto.
Qed.
