(** * Overflow_proofs: parsing panics exactly on the blocks of SpecOverflow.v *)
From Verif Require Import Base Tac Wire Utf8 Cid Pb SpecWire Wire_proofs Pb_proofs Codec_proofs Parse_safety Lax_proofs SpecOverflow.

Lemma app_inj_length {A} (x y r s : list A) : x ++ r = y ++ s -> length x = length y -> x = y /\ r = s.
Proof.
  revert y. induction x as [|a x IH]; intros [|c y] E L; try discriminate; [auto|].
  cbn [app length] in *. injection E as -> E. injection L as L. destruct (IH y E L) as [-> ->]. auto.
Qed.
Lemma has_stands b pos x : has b pos x <-> stands b pos x.
Proof.
  split; [exact (has_split b pos x)|]. intros (pre & post & -> & <-). split; [rewrite !blen_app; lia|].
  exists post. replace (N.to_nat (blen pre)) with (length pre) by (unfold blen; lia).
  rewrite skipn_app, skipn_all, Nat.sub_diag. reflexivity.
Qed.
Lemma has_app_inv b pos x y : has b pos (x ++ y) -> has b pos x /\ has b (pos + blen x) y.
Proof.
  intros H. apply has_split in H as (pre & post & -> & P). split; apply has_stands.
  - exists pre, (y ++ post). split; [app_assoc|exact P].
  - exists (pre ++ x), post. split; [app_assoc|rewrite blen_app; lia].
Qed.
Lemma has_same b pos x y : has b pos x -> has b pos y -> blen x = blen y -> x = y.
Proof.
  intros [_ [p E1]] [_ [q E2]] L. rewrite E1 in E2. apply app_inj_length in E2; [apply E2|]. unfold blen in L. lia.
Qed.

(** ** Sequences of fields can be read in one way only *)
Lemma varint_prefix a v : is_varint a v -> forall b w r s, is_varint b w -> a ++ r = b ++ s -> a = b /\ v = w /\ r = s.
Proof.
  induction 1 as [x Hx|x a v Hx Ha IH]; intros b w r s Hb E; inversion Hb as [y Hy|y b' w' Hy Hb']; subst; cbn [app] in E;
    injection E as -> E; try lia.
  - auto.
  - destruct (IH _ _ _ _ Hb' E) as (-> & -> & ->). auto.
Qed.
Lemma payload_prefix k v w p q r s : wire_type v = wire_type w -> lax_payload k v p -> lax_payload k w q -> p ++ r = q ++ s -> p = q.
Proof.
  intros T P Q E. destruct v as [n|x|x|x], w as [n'|y|y|y]; cbn [wire_type] in T; try discriminate; cbn [lax_payload] in P, Q.
  - destruct P as (a & [V _] & _), Q as (c & [W _] & _). apply (varint_prefix _ _ V _ _ _ _ W E).
  - destruct P as [-> P], Q as [-> Q]. apply app_inj_length in E; [apply E|lia].
  - destruct P as (lb & a & [V _] & P & ->), Q as (lb' & c & [W _] & Q & ->). rewrite <- !app_assoc in E.
    destruct (varint_prefix _ _ V _ _ _ _ W E) as (-> & -> & E2). apply app_inj_length in E2 as [-> _]; [reflexivity|].
    unfold blen in *. lia.
  - destruct P as [-> P], Q as [-> Q]. apply app_inj_length in E; [apply E|lia].
Qed.
Lemma field_prefix k f g p q r s : lax_field k f p -> lax_field k g q -> p ++ r = q ++ s -> p = q.
Proof.
  intros (tb & t & pb & [V _] & T & P & ->) (tc & u & qb & [W _] & U & Q & ->) E. rewrite <- !app_assoc in E.
  destruct (varint_prefix _ _ V _ _ _ _ W E) as (-> & -> & E2). f_equal. rewrite <- U in T.
  destruct f as [n v], g as [m w]. cbn [w_num w_val] in *.
  assert (wire_type v < 8 /\ wire_type w < 8) by (split; [destruct v|destruct w]; cbn; lia).
  assert (n = m) as -> by lia. eapply payload_prefix; [|exact P|exact Q|exact E2]. lia.
Qed.
Lemma field_nonempty k f p : lax_field k f p -> p <> [].
Proof. intros (tb & t & pb & V & _ & _ & ->). exact (nonempty_app _ _ _ V). Qed.

(** ** Which steps panic *)
Section at_block.
Context (b : bytes) (Lb : blen b < two32).
Lemma Lb64 : blen b < two64. Proof. revert Lb. unfold two32, two64. lia. Qed.

Lemma varint32_panic n : forall r acc sh, varint32_go b n r acc sh <> Panic.
Proof. intros. apply varint32_go_nop. Qed.

Lemma unknown_panic {M} t (m : M) r : r_start r <= blen b ->
  (unknown true b t m r = Panic <-> t mod 8 = 2 /\ exists lb w, varint lb w /\ has b (r_start r) lb /\ two64 <= r_start r + blen lb + w mod two64).
Proof.
  intros L. assert (L8 : r_start r + 8 < two64) by (revert Lb; unfold two32, two64 in *; lia).
  assert (M8 : t mod 8 < 8) by (apply N.mod_lt; discriminate). unfold unknown, read_unknown.
  assert (C : t mod 8 = 0 \/ t mod 8 = 5 \/ t mod 8 = 2 \/ t mod 8 = 1 \/ t mod 8 = 3 \/ t mod 8 = 4 \/ t mod 8 = 6 \/ t mod 8 = 7) by lia.
  destruct C as [C|[C|[C|[C|[C|[C|[C|C]]]]]]]; rewrite C.
  1: { split; [|intros [? _]; discriminate]. intros H. exfalso. destruct (read_varint64 b r) as [[? ?]| | |] eqn:E; try discriminate.
       exact (varint64_go_nop _ _ _ _ _ E). }
  1: { split; [|intros [? _]; discriminate]. rewrite add64_ok by lia. discriminate. }
  2: { split; [|intros [? _]; discriminate]. rewrite add64_ok by lia. discriminate. }
  2-5: split; [discriminate|intros [? _]; discriminate].
  split.
  - intros H. split; [reflexivity|]. destruct (read_varint64 b r) as [[r1 v]| | |] eqn:E; try discriminate.
    + apply inv64 in E as (lb & w & V & -> & Hl & ->); [|exact Lb64]. exists lb, w. split; [exact V|]. split; [exact Hl|].
      cbn [bind r_start r_end] in H. unfold add64 in H. destruct (N.ltb_spec (r_start r + blen lb + w mod two64) two64); [discriminate|assumption].
    + exfalso. exact (varint64_go_nop _ _ _ _ _ E).
  - intros [_ (lb & w & V & Hl & O)]. apply has_split in Hl as (pre & post & E & P). destruct r as [s e]. cbn [r_start r_end] in *.
    pose proof Lb64 as L64. revert L64. rewrite E. intros L64.
    rewrite (read_varint64_reads s lb w V pre post e P L64). cbn [bind r_start r_end].
    unfold add64. destruct (N.ltb_spec (s + blen lb + w mod two64) two64); [lia|reflexivity].
Qed.

Lemma len_panic {A} (f : reader -> outcome perr A) r :
  (read_len_varint true b f r = Panic <->
   exists lb w, varint lb w /\ has b (r_start r) lb
     /\ f (Reader (r_start r + blen lb) (r_start r + blen lb + w mod two32)) = Panic).
Proof.
  assert (K : forall lb w, has b (r_start r) lb -> @add64 perr true (r_start r + blen lb) (w mod two32) = Ok (r_start r + blen lb + w mod two32)).
  { intros lb w [H _]. apply add64_ok. pose proof (N.mod_lt w two32 ltac:(discriminate)). revert Lb. unfold two32, two64 in *. lia. }
  unfold read_len_varint. split.
  - intros H. destruct (read_varint32 b r) as [[r1 v]| | |] eqn:E; try discriminate.
    + apply inv32 in E as (lb & w & V & -> & Hl & ->); [|exact Lb64]. exists lb, w. split; [exact V|]. split; [exact Hl|].
      cbn [bind r_start r_end] in H. rewrite (K lb w Hl) in H. cbn [bind] in H.
      destruct (f _); try discriminate. reflexivity.
    + exfalso. exact (varint32_panic _ _ _ _ E).
  - intros (lb & w & V & Hl & F). pose proof (K lb w Hl) as Ka. apply has_split in Hl as (pre & post & E & P). destruct r as [s e]. cbn [r_start r_end] in *.
    pose proof Lb64 as L64. revert L64. replace (read_varint32 b) with (read_varint32 (pre ++ lb ++ post)) by (rewrite <- E; reflexivity). rewrite E. intros L64.
    rewrite (read_varint32_reads s lb w V pre post e P L64). cbn [bind r_start r_end].
    rewrite Ka. cbn [bind]. rewrite F. reflexivity.
Qed.

Lemma map_panic {A B} (o : pres A) (g : reader * A -> pres B) : (forall x, g x <> Panic) -> (bind o g = Panic <-> o = Panic).
Proof. intros H. destruct o as [x| | |]; cbn; split; try congruence. Qed.

Lemma slice_panic r : read_slice true b r <> Panic.
Proof. intros H. apply len_panic in H as (lb & w & _ & _ & F). destruct (get_range b _ _); discriminate. Qed.
Lemma bytes_panic r : read_bytes true b r <> Panic.
Proof. intros H. apply map_panic in H; [exact (slice_panic _ H)|]. intros [? ?]. discriminate. Qed.
Lemma string_panic v r : read_string true b v r <> Panic.
Proof. intros H. apply len_panic in H as (lb & w & _ & _ & F). destruct (get_range b _ _) as [x|]; [destruct (v x)|]; discriminate. Qed.
Lemma varint64_panic r : read_varint64 b r <> Panic.
Proof. apply varint64_go_nop. Qed.
Lemma fixed32_panic r : r_start r <= blen b -> read_fixed32 true b r <> Panic.
Proof.
  intros L. unfold read_fixed32. rewrite add64_ok by (revert Lb; unfold two32, two64; lia). cbn [bind]. destruct (get_range b _ _); discriminate.
Qed.

(** ** The loop *)
Section loop.
Context {M : Type} (step : bytes -> N -> M -> reader -> pres M) (known : N -> bool) (S : M -> list wfield -> M -> Prop).

Lemma loop_panic_inv : (forall m, S m [] m) -> one_field b (step b) known S -> (forall t m r, fwd b r (step b t m r)) ->
  forall fuel r m, msg_loop b fuel (step b) r m = Panic ->
  exists fs x m' tb t, laxly known fs x /\ S m fs m' /\ has b (r_start r) x
    /\ (forall fs1 y z, x = y ++ z -> laxly known fs1 y -> r_start r + blen y <> r_end r)
    /\ varint tb t /\ has b (r_start r + blen x) tb
    /\ step b (t mod two32) m' (Reader (r_start r + blen x + blen tb) (r_end r)) = Panic.
Proof.
  intros S0 OF FW. induction fuel as [|fuel IH]; intros r m H; cbn [msg_loop] in H; destruct (is_eof r) eqn:Ee; try discriminate.
  apply N.eqb_neq in Ee.
  destruct (next_tag b r) as [[r1 t]| | |] eqn:T; try discriminate; [|exfalso; exact (varint32_panic _ _ _ _ T)]. cbn [bind] in H.
  apply inv32 in T as (tb & w & V & Et & Ht & ->); [|exact Lb64].
  destruct (step b t m _) as [[r2 m1]| | |] eqn:St; try discriminate; cbn [bind] in H.
  - pose proof (FW t m (Reader (r_start r + blen tb) (r_end r))) as F1. rewrite St in F1. cbn [fwd] in F1.
    destruct (IH _ _ H) as (fs & x & m' & tb2 & t2 & X1 & X2 & X3 & X4 & X5 & X6 & X7).
    destruct (OF _ _ _ _ _ St) as (f & pb & Ef & P & Hp & -> & Sm); [destruct X3; lia|]. cbn [r_start r_end] in *.
    assert (Ha : has b (r_start r) (tb ++ pb)) by (apply has_app; assumption).
    assert (LF : lax_field known f (tb ++ pb)) by (exists tb, w, pb; split; [exact V|split; [congruence|split; [exact P|reflexivity]]]).
    exists (f :: fs), ((tb ++ pb) ++ x), m', tb2, t2.
    rewrite !blen_app. rewrite <- !N.add_assoc in *.
    split; [constructor; assumption|]. split; [apply Sm; exact X2|]. split; [apply has_app; [exact Ha|]; rewrite blen_app; exact X3|].
    split.
    + intros fs1 y z E Y. inversion Y as [|g gs p q Hg Hq E1 E2]; subst; [rewrite blen_nil, N.add_0_r; exact Ee|].
      rewrite <- (app_assoc p q z) in E.
      pose proof (field_prefix _ _ _ _ _ _ _ LF Hg E) as <-. apply app_inv_head in E.
      specialize (X4 gs q z E Hq). rewrite !blen_app. lia.
    + split; [exact X5|]. split; [exact X6|exact X7].
  - exists [], [], m, tb, w. rewrite blen_nil, N.add_0_r.
    split; [constructor|]. split; [apply S0|]. split; [apply has_nil; destruct Ht; lia|].
    split; [intros fs1 y z E Y; symmetry in E; apply app_eq_nil in E as [-> _]; rewrite blen_nil, N.add_0_r; exact Ee|].
    split; [exact V|]. split; [exact Ht|]. subst t. exact St.
Qed.

(** the loop goes through fields that do not end at the end of the message *)
Lemma loop_through pos m x m' : steps step pos m x m' -> forall pre post fuel e, b = pre ++ x ++ post -> blen pre = pos ->
  (length x <= fuel)%nat ->
  (exists y z m1, x = y ++ z /\ steps step pos m y m1 /\ pos + blen y = e)
  \/ exists fuel', (fuel <= length x + fuel')%nat /\
     msg_loop b fuel (step b) (Reader pos e) m = msg_loop b fuel' (step b) (Reader (pos + blen x) e) m'.
Proof.
  induction 1 as [pos m | pos m a m1 c m2 Ha Hr Hs IH]; intros pre post fuel e Hb Hp Hf.
  - right. exists fuel. rewrite blen_nil, N.add_0_r. split; [cbn; lia|reflexivity].
  - destruct (N.eq_dec pos e) as [->|Ne].
    { left. exists [], (a ++ c), m. split; [reflexivity|]. split; [constructor|]. rewrite blen_nil. lia. }
    assert (Hla : (1 <= length a)%nat) by (destruct a; [congruence | cbn [length]; lia]). rewrite app_length in Hf.
    destruct fuel as [|fuel]; [lia|].
    assert (Hb1 : b = pre ++ a ++ (c ++ post)) by (rewrite Hb; app_assoc).
    pose proof Lb64 as L64.
    pose proof (Hr pre (c ++ post) e Hp ltac:(rewrite <- Hb1; exact L64)) as Hi. rewrite <- Hb1 in Hi.
    destruct (IH (pre ++ a) post fuel e) as [(y & z & m3 & -> & Y & Ey)|(fuel' & F & E)].
    + rewrite Hb. app_assoc.
    + rewrite blen_app. lia.
    + lia.
    + left. exists (a ++ y), z, m3. split; [app_assoc|]. split; [eapply steps_cons; eassumption|]. rewrite blen_app. lia.
    + right. exists fuel'. split; [rewrite app_length; lia|]. cbn [msg_loop]. unfold is_eof. cbn [r_start r_end].
      destruct (N.eqb_spec pos e) as [|_]; [congruence|]. unfold iter in Hi.
      destruct (next_tag b (Reader pos e)) as [[r1 t]| | |]; cbn [bind] in Hi |- *; try discriminate.
      rewrite Hi. cbn [bind]. rewrite E, blen_app. f_equal. f_equal. lia.
Qed.

Lemma loop_panics : (forall m, S m [] m) -> one_field b (step b) known S -> (forall t m r, fwd b r (step b t m r)) ->
  forall s e m fs x m' tb t fuel, steps step s m x m' -> laxly known fs x -> has b s x ->
  (forall fs1 y z, x = y ++ z -> laxly known fs1 y -> s + blen y <> e) ->
  varint tb t -> has b (s + blen x) tb -> (length x < fuel)%nat ->
  step b (t mod two32) m' (Reader (s + blen x + blen tb) e) = Panic ->
  msg_loop b fuel (step b) (Reader s e) m = Panic.
Proof.
  intros S0 OF FW s e m fs x m' tb t fuel St X H NB V Ht F P.
  pose proof H as Hx. apply has_split in H as (pre & post & E & Ep).
  destruct (loop_through _ _ _ _ St pre post fuel e E Ep ltac:(lia)) as [(y & z & m1 & -> & Y & Ey)|(fuel' & Ff & Eq)].
  - exfalso.
    pose proof (msg_loop_steps step s m y m1 Y pre (z ++ post) (length y) Ep) as L.
    replace (pre ++ y ++ z ++ post) with b in L by (rewrite E; app_assoc).
    specialize (L Lb64 ltac:(lia)).
    assert (Hy : has b s y) by (apply has_app_inv in Hx; apply Hx).
    destruct (loop_inv b Lb64 (step b) known S S0 OF FW _ _ _ _ _ L) as (_ & fs1 & y' & Q1 & Q2 & Q3 & Q4); cbn [r_start r_end] in *.
    + destruct Hy. lia.
    + assert (y' = y) as -> by (eapply has_same; [exact Q2|exact Hy|lia]).
      exact (NB fs1 y z eq_refl Q1 Ey).
  - rewrite Eq. destruct fuel' as [|fuel']; [lia|]. cbn [msg_loop]. unfold is_eof. cbn [r_start r_end].
    destruct (N.eqb_spec (s + blen x) e) as [Ee|_]; [exfalso; apply (NB fs x []); [rewrite app_nil_r; reflexivity|exact X|exact Ee]|].
    apply has_split in Ht as (pre2 & post2 & E2 & Ep2).
    pose proof Lb64 as L64. unfold next_tag.
    replace (read_varint32 b) with (read_varint32 (pre2 ++ tb ++ post2)) by (rewrite <- E2; reflexivity).
    rewrite (read_varint32_reads _ tb t V pre2 post2 e Ep2 ltac:(rewrite <- E2; exact L64)). cbn [bind].
    rewrite P. reflexivity.
Qed.
End loop.

(** ** The messages *)
Definition bad_length (pos : N) : Prop := exists lb w, varint lb w /\ has b pos lb /\ two64 <= pos + blen lb + w mod two64.

Lemma endless_iff known pos : endless known b pos <->
  exists tb t, varint tb t /\ has b pos tb /\ (t mod two32) mod 8 = 2 /\ known (t mod two32 / 8) = false /\ bad_length (pos + blen tb).
Proof.
  split.
  - intros (tb & t & lb & w & V & W & H & T & K & O). apply has_stands, has_app_inv in H as [H1 H2]. rewrite blen_app in O.
    exists tb, t. repeat (split; [assumption|]). exists lb, w. split; [exact W|]. split; [exact H2|lia].
  - intros (tb & t & V & H & T & K & lb & w & W & H2 & O). exists tb, t, lb, w. split; [exact V|]. split; [exact W|].
    split; [apply has_stands, has_app; assumption|]. split; [exact T|]. split; [exact K|]. rewrite blen_app. lia.
Qed.

Lemma link_step_panic t m r : r_start r <= blen b ->
  (pblink_step true b t m r = Panic <-> t mod 8 = 2 /\ link_known (t / 8) = false /\ bad_length (r_start r)).
Proof.
  intros L.
  destruct (N.eq_dec t 10) as [->|N1].
  { split; [|intros (_ & K & _); discriminate]. intros H. exfalso. apply map_panic in H; [exact (bytes_panic _ H)|]. intros [? ?]. discriminate. }
  destruct (N.eq_dec t 18) as [->|N2].
  { split; [|intros (_ & K & _); discriminate]. intros H. exfalso. apply map_panic in H; [exact (string_panic _ _ H)|]. intros [? ?]. discriminate. }
  destruct (N.eq_dec t 24) as [->|N3].
  { split; [|intros (K & _); discriminate]. intros H. exfalso. apply map_panic in H; [exact (varint64_panic _ H)|]. intros [? ?]. discriminate. }
  rewrite pblink_step_other by assumption. rewrite unknown_panic by exact L. split; [|tauto]. intros [C D]. split; [exact C|]. split; [|exact D].
  unfold link_known. pose proof (N.div_mod t 8 ltac:(discriminate)).
  destruct (N.eqb_spec (t / 8) 1); [lia|]. destruct (N.eqb_spec (t / 8) 2); [lia|]. reflexivity.
Qed.
Lemma time_step_panic t m r : r_start r <= blen b ->
  (unixtime_step true b t m r = Panic <-> t mod 8 = 2 /\ time_known (t / 8) = false /\ bad_length (r_start r)).
Proof.
  intros L.
  destruct (N.eq_dec t 8) as [->|N1].
  { split; [|intros (K & _); discriminate]. intros H. exfalso. apply map_panic in H; [exact (varint64_panic _ H)|]. intros [? ?]. discriminate. }
  destruct (N.eq_dec t 21) as [->|N2].
  { split; [|intros (K & _); discriminate]. intros H. exfalso. apply map_panic in H; [exact (fixed32_panic _ L H)|]. intros [? ?]. discriminate. }
  rewrite unixtime_step_other by assumption. rewrite unknown_panic by exact L. unfold time_known. tauto.
Qed.

Lemma link_panic s e : from_reader b (pblink_step true b) pblink_default (Reader s e) = Panic <-> link_overflows b s e.
Proof.
  split.
  - intros H. apply (loop_panic_inv (pblink_step true) link_known link_sem ls_nil (link_field_inv b Lb64) (fun t m r => pblink_step_fwd b t m r)) in H
      as (fs & x & m' & tb & t & X1 & X2 & X3 & X4 & V & Ht & P). cbn [r_start r_end] in *.
    apply link_step_panic in P as (P1 & P2 & P3); [|cbn [r_start]; destruct Ht; lia].
    exists fs, x. split; [exact X1|]. split; [exists m'; exact X2|]. split; [apply has_stands; exact X3|]. split; [exact X4|].
    apply endless_iff. exists tb, t. auto.
  - intros (fs & x & X1 & [l X2] & X3 & X4 & X5). apply has_stands in X3. apply endless_iff in X5 as (tb & t & V & Ht & P1 & P2 & P3).
    assert (Lx : blen x < two32) by (destruct X3; lia).
    assert (Lx2 : (length x < Datatypes.S (length b))%nat) by (destruct X3; unfold blen in *; lia).
    eapply (loop_panics (pblink_step true) link_known link_sem ls_nil (link_field_inv b Lb64) (fun t m r => pblink_step_fwd b t m r));
      [exact (link_steps true _ _ _ X2 s x X1 Lx)|exact X1|exact X3|exact X4|exact V|exact Ht|exact Lx2|].
    apply link_step_panic; [cbn [r_start]; destruct Ht; lia|]. auto.
Qed.
Lemma time_panic s e : from_reader b (unixtime_step true b) unixtime_default (Reader s e) = Panic <-> time_overflows b s e.
Proof.
  split.
  - intros H. apply (loop_panic_inv (unixtime_step true) time_known time_sem ts_nil (time_field_inv b Lb64) (fun t m r => unixtime_step_fwd b t m r)) in H
      as (fs & x & m' & tb & t & X1 & X2 & X3 & X4 & V & Ht & P). cbn [r_start r_end] in *.
    apply time_step_panic in P as (P1 & P2 & P3); [|cbn [r_start]; destruct Ht; lia].
    exists fs, x. split; [exact X1|]. split; [exists m'; exact X2|]. split; [apply has_stands; exact X3|]. split; [exact X4|].
    apply endless_iff. exists tb, t. auto.
  - intros (fs & x & X1 & [l X2] & X3 & X4 & X5). apply has_stands in X3. apply endless_iff in X5 as (tb & t & V & Ht & P1 & P2 & P3).
    assert (Lx : blen x < two32) by (destruct X3; lia).
    assert (Lx2 : (length x < Datatypes.S (length b))%nat) by (destruct X3; unfold blen in *; lia).
    eapply (loop_panics (unixtime_step true) time_known time_sem ts_nil (time_field_inv b Lb64) (fun t m r => unixtime_step_fwd b t m r));
      [exact (time_steps true _ _ _ X2 s x X1 Lx)|exact X1|exact X3|exact X4|exact V|exact Ht|exact Lx2|].
    apply time_step_panic; [cbn [r_start]; destruct Ht; lia|]. auto.
Qed.

(** a field containing a message *)
Definition bad_message (bad : N -> N -> Prop) (pos : N) : Prop :=
  exists lb w, varint lb w /\ has b pos lb /\ bad (pos + blen lb) (pos + blen lb + w mod two32).
Lemma message_panic {M} (step : N -> M -> reader -> pres M) m0 bad r :
  (forall s e, from_reader b step m0 (Reader s e) = Panic <-> bad s e) ->
  (read_message true b step m0 r = Panic <-> bad_message bad (r_start r)).
Proof.
  intros H. unfold read_message. rewrite len_panic. unfold bad_message.
  split; intros (lb & w & V & Hl & F); exists lb, w; (split; [exact V|split; [exact Hl|]]).
  - apply H. destruct (from_reader b step m0 _) as [[? ?]| | |]; try discriminate. reflexivity.
  - apply H in F. rewrite F. reflexivity.
Qed.
Lemma within_iff num bad pos : within num bad b pos <->
  exists tb t, varint tb t /\ has b pos tb /\ t mod two32 = num * 8 + 2 /\ bad_message bad (pos + blen tb).
Proof.
  split.
  - intros (tb & t & lb & w & V & W & H & T & O). apply has_stands, has_app_inv in H as [H1 H2]. rewrite blen_app in O.
    exists tb, t. repeat (split; [assumption|]). exists lb, w. split; [exact W|]. split; [exact H2|].
    rewrite <- (N.add_assoc pos). exact O.
  - intros (tb & t & V & H & T & lb & w & W & H2 & O). exists tb, t, lb, w. split; [exact V|]. split; [exact W|].
    split; [apply has_stands, has_app; assumption|]. split; [exact T|]. rewrite blen_app. rewrite !N.add_assoc in *. exact O.
Qed.

Lemma node_step_panic t m r : r_start r <= blen b ->
  (pbnode_step true b t m r = Panic <->
   (t mod 8 = 2 /\ node_known (t / 8) = false /\ bad_length (r_start r)) \/ (t = 18 /\ bad_message (link_overflows b) (r_start r))).
Proof.
  intros L.
  destruct (N.eq_dec t 10) as [->|N1].
  { split; [|intros [(_ & K & _)|[K _]]; discriminate]. intros H. exfalso. apply map_panic in H; [exact (slice_panic _ H)|]. intros [? ?]. discriminate. }
  destruct (N.eq_dec t 18) as [->|N2].
  { etransitivity; [apply (map_panic (read_message true b (pblink_step true b) pblink_default r)); intros [? ?]; discriminate|].
    rewrite (message_panic _ _ (link_overflows b) _ link_panic). split; [auto|]. intros [(_ & K & _)|[_ K]]; [discriminate|exact K]. }
  rewrite pbnode_step_other by assumption. rewrite unknown_panic by exact L. split.
  - intros [C D]. left. split; [exact C|]. split; [|exact D].
    unfold node_known. pose proof (N.div_mod t 8 ltac:(discriminate)).
    destruct (N.eqb_spec (t / 8) 1); [lia|]. destruct (N.eqb_spec (t / 8) 2); [lia|]. reflexivity.
  - intros [(C & _ & D)|[C _]]; [auto|congruence].
Qed.
Lemma unixfs_step_panic t m r : r_start r <= blen b ->
  (unixfs_step true b t m r = Panic <->
   (t mod 8 = 2 /\ unixfs_known (t / 8) = false /\ bad_length (r_start r)) \/ (t = 66 /\ bad_message (time_overflows b) (r_start r))).
Proof.
  intros L. destruct m as [ty da sz bz ht fa mo mt].
  destruct (N.eq_dec t 8) as [->|N1].
  { split; [|intros [(K & _)|[K _]]; discriminate]. intros H. exfalso. apply map_panic in H; [exact (varint32_panic _ _ _ _ H)|]. intros [? ?]. discriminate. }
  destruct (N.eq_dec t 18) as [->|N2].
  { split; [|intros [(_ & K & _)|[K _]]; discriminate]. intros H. exfalso. apply map_panic in H; [exact (bytes_panic _ H)|]. intros [? ?]. discriminate. }
  destruct (N.eq_dec t 24) as [->|N3].
  { split; [|intros [(K & _)|[K _]]; discriminate]. intros H. exfalso. apply map_panic in H; [exact (varint64_panic _ H)|]. intros [? ?]. discriminate. }
  destruct (N.eq_dec t 32) as [->|N4].
  { split; [|intros [(K & _)|[K _]]; discriminate]. intros H. exfalso. apply map_panic in H; [exact (varint64_panic _ H)|]. intros [? ?]. discriminate. }
  destruct (N.eq_dec t 40) as [->|N5].
  { split; [|intros [(K & _)|[K _]]; discriminate]. intros H. exfalso. apply map_panic in H; [exact (varint64_panic _ H)|]. intros [? ?]. discriminate. }
  destruct (N.eq_dec t 48) as [->|N6].
  { split; [|intros [(K & _)|[K _]]; discriminate]. intros H. exfalso. apply map_panic in H; [exact (varint64_panic _ H)|]. intros [? ?]. discriminate. }
  destruct (N.eq_dec t 56) as [->|N7].
  { split; [|intros [(K & _)|[K _]]; discriminate]. intros H. exfalso. apply map_panic in H; [exact (varint32_panic _ _ _ _ H)|]. intros [? ?]. discriminate. }
  destruct (N.eq_dec t 66) as [->|N8].
  { etransitivity; [apply (map_panic (read_message true b (unixtime_step true b) unixtime_default r)); intros [? ?]; discriminate|].
    rewrite (message_panic _ _ (time_overflows b) _ time_panic). split; [auto|]. intros [(_ & K & _)|[_ K]]; [discriminate|exact K]. }
  rewrite unixfs_step_other by assumption. rewrite unknown_panic by exact L. split.
  - intros [C D]. left. split; [exact C|]. split; [|exact D].
    unfold unixfs_known. pose proof (N.div_mod t 8 ltac:(discriminate)).
    destruct (N.eqb_spec (t / 8) 2); [lia|]. destruct (N.eqb_spec (t / 8) 8); [lia|]. reflexivity.
  - intros [(C & _ & D)|[C _]]; [auto|congruence].
Qed.

Lemma parse_panic {M} (o : outcome perr (reader * M)) : (do (_, m) <- o; Ok m) = Panic <-> o = Panic.
Proof. destruct o as [[? ?]| | |]; cbn; split; congruence. Qed.

Lemma node_panic : pbnode_parse true b = Panic <-> node_overflows b.
Proof.
  unfold pbnode_parse. rewrite parse_panic. split.
  - intros H. apply (loop_panic_inv (pbnode_step true) node_known node_S (fun m => ns_nil _ _ _) (node_field_inv b Lb64) (fun t m r => pbnode_step_fwd b t m r)) in H
      as (fs & x & m' & tb & t & X1 & X2 & X3 & X4 & V & Ht & P). cbn [r_start r_end whole] in *.
    apply node_step_panic in P; [|cbn [r_start]; destruct Ht; lia]. cbn [r_start] in P.
    exists fs, x. split; [exact X1|]. split; [eexists; eexists; exact X2|]. split; [apply has_stands; exact X3|]. split; [exact X4|].
    destruct P as [(P1 & P2 & P3)|(P1 & P2)].
    + left. apply endless_iff. exists tb, t. auto.
    + right. apply within_iff. exists tb, t. auto.
  - intros (fs & x & X1 & (ls & d & X2) & X3 & X4 & X5).
    assert (E0 : exists post, b = x ++ post).
    { destruct X3 as (pre & post & E & Hp). destruct pre; [|rewrite blen_cons in Hp; lia]. exists post. exact E. }
    apply has_stands in X3.
    assert (Lx : blen x < two32) by (destruct X3; lia).
    assert (Lx2 : (length x < Datatypes.S (length b))%nat) by (destruct X3; unfold blen in *; lia).
    destruct (node_steps true _ _ _ _ _ X2 [] x None X1 Lx Logic.I) as (s' & St & _).
    destruct X5 as [X5|X5]; [apply endless_iff in X5 as (tb & t & V & Ht & P1 & P2 & P3)|apply within_iff in X5 as (tb & t & V & Ht & P1 & P2)].
    + eapply (loop_panics (pbnode_step true) node_known node_S (fun m => ns_nil _ _ _) (node_field_inv b Lb64) (fun t m r => pbnode_step_fwd b t m r));
        [exact St|exact X1|exact X3|exact X4|exact V|exact Ht|exact Lx2|].
      apply node_step_panic; [cbn [r_start]; destruct Ht; lia|]. left. auto.
    + eapply (loop_panics (pbnode_step true) node_known node_S (fun m => ns_nil _ _ _) (node_field_inv b Lb64) (fun t m r => pbnode_step_fwd b t m r));
        [exact St|exact X1|exact X3|exact X4|exact V|exact Ht|exact Lx2|].
      apply node_step_panic; [cbn [r_start]; destruct Ht; lia|]. right. auto.
Qed.
Lemma unixfs_panic : unixfs_parse true b = Panic <-> unixfs_overflows b.
Proof.
  unfold unixfs_parse. rewrite parse_panic. split.
  - intros H. apply (loop_panic_inv (unixfs_step true) unixfs_known _ (us_nil _) (unixfs_field_inv b Lb64) (fun t m r => unixfs_step_fwd b t m r)) in H
      as (fs & x & m' & tb & t & X1 & X2 & X3 & X4 & V & Ht & P). cbn [r_start r_end whole] in *.
    apply unixfs_step_panic in P; [|cbn [r_start]; destruct Ht; lia]. cbn [r_start] in P.
    exists fs, x. split; [exact X1|]. split; [eexists; exact X2|]. split; [apply has_stands; exact X3|]. split; [exact X4|].
    destruct P as [(P1 & P2 & P3)|(P1 & P2)].
    + left. apply endless_iff. exists tb, t. auto.
    + right. apply within_iff. exists tb, t. auto.
  - intros (fs & x & X1 & (u & X2) & X3 & X4 & X5). apply has_stands in X3.
    assert (Lx : blen x < two32) by (destruct X3; lia).
    assert (Lx2 : (length x < Datatypes.S (length b))%nat) by (destruct X3; unfold blen in *; lia).
    pose proof (unixfs_steps true _ _ _ X2 0 x X1 Lx) as St.
    destruct X5 as [X5|X5]; [apply endless_iff in X5 as (tb & t & V & Ht & P1 & P2 & P3)|apply within_iff in X5 as (tb & t & V & Ht & P1 & P2)].
    + eapply (loop_panics (unixfs_step true) unixfs_known _ (us_nil _) (unixfs_field_inv b Lb64) (fun t m r => unixfs_step_fwd b t m r));
        [exact St|exact X1|exact X3|exact X4|exact V|exact Ht|exact Lx2|].
      apply unixfs_step_panic; [cbn [r_start]; destruct Ht; lia|]. left. auto.
    + eapply (loop_panics (unixfs_step true) unixfs_known _ (us_nil _) (unixfs_field_inv b Lb64) (fun t m r => unixfs_step_fwd b t m r));
        [exact St|exact X1|exact X3|exact X4|exact V|exact Ht|exact Lx2|].
      apply unixfs_step_panic; [cbn [r_start]; destruct Ht; lia|]. right. auto.
Qed.
End at_block.

(** ** Where the data of a node stands *)
Definition no_data (fs : list wfield) : Prop := Forall (fun f => forall x, f <> WField 1 (WLen x)) fs.
Definition data_from (fs : list wfield) (e : N) (s s' : option (N * bytes)) : Prop :=
  (s' = s /\ no_data fs)
  \/ exists fs1 x fs2 z off, fs = fs1 ++ WField 1 (WLen x) :: fs2 /\ no_data fs2 /\ laxly node_known fs2 z
       /\ s' = Some (off, x) /\ off + blen x + blen z = e.
Lemma data_from_cons f fs e s s' : (forall x, f <> WField 1 (WLen x)) -> data_from fs e s s' -> data_from (f :: fs) e s s'.
Proof.
  intros H [[-> N]|(fs1 & x & fs2 & z & off & -> & A)]; [left; split; [reflexivity|constructor; assumption]|].
  right. exists (f :: fs1), x, fs2, z, off. split; [reflexivity|exact A].
Qed.

Lemma node_steps_pos dbg ls d fs ls' d' : node_sem (laxly link_known) ls d fs ls' d' ->
  forall pos bs s, laxly node_known fs bs -> blen bs < two32 ->
  exists s', steps (pbnode_step dbg) pos (PBNode ls s) bs (PBNode ls' s') /\ data_from fs (pos + blen bs) s s'.
Proof.
  induction 1 as [ls d | ls d x lfs l fs ls' d' Hlenc Hlsem Hsem IH | ls d x fs ls' d' Hsem IH
                 | ls d f fs ls' d' H1 H2 Hsem IH];
    intros pos bs s Henc Hl.
  - inv Henc. exists s. split; [apply steps_nil|]. left. split; [reflexivity|constructor].
  - head Henc. destruct Hpl as (lb & w & Hlb & Hw & ->). rewrite !blen_app in Hl.
    destruct (IH (pos + blen (tb ++ lb ++ x)) rest s Hrest ltac:(lia)) as [s' [Hst Hd']].
    exists s'. split; [|apply data_from_cons; [intros y; discriminate|]; rewrite blen_app, N.add_assoc; exact Hd'].
    eapply steps_cons; [eapply nonempty_app; eauto | | exact Hst].
    eapply iter_reads; [exact Htv | exact Htl |].
    apply (reads_at_map _ (fun b => read_message dbg b (pblink_step dbg b) pblink_default)
             (fun l => PBNode (ls ++ [l]) s)).
    eapply read_message_reads; [exact Hlb | exact Hw |].
    apply link_steps with (fs := lfs); [exact Hlsem | exact Hlenc | lia].
  - head Henc. destruct Hpl as (lb & w & Hlb & Hw & ->). rewrite !blen_app in Hl.
    destruct (IH (pos + blen (tb ++ lb ++ x)) rest (Some (pos + blen tb + blen lb, x)) Hrest ltac:(lia)) as [s' [Hst Hd']].
    exists s'. split.
    + eapply steps_cons; [eapply nonempty_app; eauto | | exact Hst].
      eapply iter_reads; [exact Htv | exact Htl |].
      apply (reads_at_map _ (read_slice dbg) (fun s => PBNode ls (Some s))).
      eapply read_slice_reads; [exact Hlb | exact Hw].
    + right. destruct Hd' as [[-> N]|(fs1 & y & fs2 & z & off & -> & A)].
      * exists [], x, fs, rest, (pos + blen tb + blen lb). split; [reflexivity|]. split; [exact N|]. split; [exact Hrest|]. split; [reflexivity|].
        rewrite !blen_app. lia.
      * exists (WField 1 (WLen x) :: fs1), y, fs2, z, off. split; [reflexivity|]. rewrite blen_app, N.add_assoc. exact A.
  - destruct f as [num val]. head Henc. rewrite !blen_app in Hl.
    destruct (IH (pos + blen (tb ++ pb)) rest s Hrest ltac:(lia)) as [s' [Hst Hd']].
    exists s'. split; [|apply data_from_cons; [exact H2|]; rewrite blen_app, N.add_assoc; exact Hd'].
    eapply steps_cons; [eapply nonempty_app; eauto | | exact Hst].
    eapply iter_reads; [exact Htv | exact Htl |].
    eapply reads_at_ext; [|apply (unknown_reads _ dbg _ val num pb); eapply lax_unknown; [|exact Hpl]; intros K x E; unfold node_known in K; apply orb_prop in K as [K|K]; apply N.eqb_eq in K; subst num; [eapply H2|eapply H1]; exact E].
    intros b r. symmetry. apply pbnode_step_other.
    + not_len 1 H2.
    + not_len 2 H1.
Qed.

Lemma node_parse_pos dbg fs block ls d :
  laxly node_known fs block -> blen block < two32 -> node_sem (laxly link_known) [] None fs ls d ->
  exists s, pbnode_parse dbg block = Ok (PBNode ls s) /\ data_from fs (blen block) None s.
Proof.
  intros Henc Hl Hsem.
  destruct (node_steps_pos dbg _ _ _ _ _ Hsem 0 block None Henc Hl) as [s [Hst Hd]].
  exists s. split; [|exact Hd]. unfold pbnode_parse, whole.
  pose proof (from_reader_steps (pbnode_step dbg) 0 pbnode_default block (PBNode ls s) [] [] Hst eq_refl) as H.
  cbn [app] in H. rewrite app_nil_r in H. rewrite N.add_0_l in H.
  rewrite H by (apply two32_lt_two64; exact Hl). reflexivity.
Qed.
Lemma laxly_nil k fs : laxly k fs [] -> fs = [].
Proof.
  intros H. inversion H as [|f fs' a c Hf Hc E1 E2]; [reflexivity|]. apply app_eq_nil in E2 as [-> _]. destruct (field_nonempty _ _ _ Hf eq_refl).
Qed.
(** the data is empty and at the end of the block *)
Lemma data_at_end dbg fs block ls d :
  laxly node_known fs block -> blen block < two32 -> node_sem (laxly link_known) [] None fs ls d ->
  (exists n, pbnode_parse dbg block = Ok n /\ n_data n = Some (blen block, [])) <-> exists fs', fs = fs' ++ [WField 1 (WLen [])].
Proof.
  intros X L Y. destruct (node_parse_pos dbg fs block ls d X L Y) as (s & P & D). rewrite P. split.
  - intros (n & E & Ed). injection E as <-. cbn [n_data] in Ed. subst s.
    destruct D as [[E _]|(fs1 & x & fs2 & z & off & -> & N & Z & E & O)]; [discriminate|].
    injection E as <- <-. exists fs1. destruct z; [|rewrite blen_cons, blen_nil in O; lia].
    rewrite (laxly_nil _ _ Z). reflexivity.
  - intros (fs' & E). exists (PBNode ls s). split; [reflexivity|]. cbn [n_data].
    destruct D as [[_ N]|(fs1 & x & fs2 & z & off & E2 & N & Z & -> & O)].
    + exfalso. unfold no_data in N. rewrite E in N. apply Forall_app in N as [_ N]. inversion N as [|? ? H _]. exact (H _ eq_refl).
    + destruct fs2 as [|f fs2].
      * inversion Z; subst z. rewrite E in E2. apply app_inj_tail in E2 as [_ E2]. injection E2 as <-. rewrite !blen_nil in O. repeat f_equal. lia.
      * exfalso. destruct (@exists_last _ (f :: fs2) ltac:(discriminate)) as (l & g & El). rewrite El in E2, N. rewrite E in E2.
        replace (fs1 ++ WField 1 (WLen x) :: l ++ [g]) with ((fs1 ++ WField 1 (WLen x) :: l) ++ [g]) in E2 by (rewrite <- app_assoc; reflexivity).
        apply app_inj_tail in E2 as [_ <-]. unfold no_data in N. apply Forall_app in N as [_ N]. inversion N as [|? ? H _]. exact (H _ eq_refl).
Qed.
