(** * Lax_proofs: whatever the parser accepts is a (sloppy) encoding of what it
    returns *)
From Verif Require Import Base Tac Wire Utf8 Cid Pb SpecWire Wire_proofs Pb_proofs Codec_proofs Parse_safety.

(** [bs] stands at position [pos] of [b] *)
Definition has (b : bytes) (pos : N) (bs : bytes) : Prop :=
  pos + blen bs <= blen b /\ exists post, skipn (N.to_nat pos) b = bs ++ post.

Lemma has_split b pos bs : has b pos bs -> exists pre post, b = pre ++ bs ++ post /\ blen pre = pos.
Proof.
  intros [L [post E]]. exists (firstn (N.to_nat pos) b), post. split.
  - rewrite <- E. symmetry. apply firstn_skipn.
  - unfold blen in *. rewrite firstn_length. lia.
Qed.
Lemma skipn_plus {A} n m (l : list A) : skipn (n + m) l = skipn m (skipn n l).
Proof. revert l. induction n as [|n IH]; intros [|x l]; cbn; rewrite ?skipn_nil; auto. Qed.
Lemma has_app b pos x y : has b pos x -> has b (pos + blen x) y -> has b pos (x ++ y).
Proof.
  intros [L1 [p1 E1]] [L2 [p2 E2]]. split; [rewrite blen_app; lia|]. exists p2.
  replace (N.to_nat (pos + blen x)) with (N.to_nat pos + length x)%nat in E2 by (unfold blen; lia).
  rewrite skipn_plus, E1, skipn_app, skipn_all, Nat.sub_diag in E2. cbn [skipn app] in E2. subst p1.
  rewrite <- app_assoc. exact E1.
Qed.
Lemma has_nil b pos : pos <= blen b -> has b pos [].
Proof. intros H. split; [cbn; unfold blen in *; cbn; lia|]. eexists. reflexivity. Qed.
Lemma has_range b pos n : pos + n <= blen b -> exists x, has b pos x /\ blen x = n.
Proof.
  intros H. exists (firstn (N.to_nat n) (skipn (N.to_nat pos) b)).
  assert (L : blen (firstn (N.to_nat n) (skipn (N.to_nat pos) b)) = n).
  { unfold blen in *. rewrite firstn_length, skipn_length. lia. }
  split; [|exact L]. split; [lia|]. exists (skipn (N.to_nat n) (skipn (N.to_nat pos) b)). symmetry. apply firstn_skipn.
Qed.
Lemma get_range_has b s e x : get_range b s e = Some x -> has b s x /\ e = s + blen x.
Proof.
  unfold get_range. destruct (N.leb_spec s e); [|discriminate].
  destruct (N.leb_spec e (N.of_nat (length b))); [|discriminate]. cbn [andb]. intros [= <-].
  assert (L : blen (firstn (N.to_nat (e - s)) (skipn (N.to_nat s) b)) = e - s).
  { unfold blen. rewrite firstn_length, skipn_length. lia. }
  split; [|lia]. split; [unfold blen in *; lia|]. exists (skipn (N.to_nat (e - s)) (skipn (N.to_nat s) b)). symmetry. apply firstn_skipn.
Qed.

(** ** Varints *)
Lemma read_u8_has b r r1 x : read_u8 b r = Ok (r1, x) -> has b (r_start r) [x] /\ r1 = Reader (r_start r + 1) (r_end r).
Proof.
  unfold read_u8. destruct (get_at b (r_start r)) as [y|] eqn:E; [|discriminate]. intros [= <- <-].
  split; [|reflexivity]. pose proof (get_at_some _ _ _ E) as L. unfold get_at in E.
  destruct (N.ltb_spec (r_start r) (blen b)); [|discriminate]. split; [rewrite blen_cons, blen_nil; lia|].
  exists (skipn (S (N.to_nat (r_start r))) b). cbn [app].
  clear -E. revert b E. induction (N.to_nat (r_start r)) as [|n IH]; intros [|z b] E; cbn in *; try discriminate; [congruence|].
  apply IH. exact E.
Qed.

Lemma vcons b pos x bs w : 128 <= b2n x -> has b pos [x] -> is_varint bs w -> has b (pos + 1) bs ->
  is_varint (x :: bs) (b2n x - 128 + 128 * w) /\ has b pos (x :: bs).
Proof. intros L H V Hb. split; [constructor; assumption|]. apply (has_app b pos [x] bs H). exact Hb. Qed.

Lemma skip_find b n : forall r v r' v', skip_cont b n r v = Ok (r', v') ->
  exists bs w, is_varint bs w /\ (length bs <= n)%nat /\ has b (r_start r) bs.
Proof.
  induction n as [|n IH]; intros r v r' v' H; cbn [skip_cont] in H; [discriminate|].
  apply bind_ok in H as [[r1 x] [R H]]. apply read_u8_has in R as [Hx ->].
  destruct (N.ltb_spec (b2n x) 128) as [L|L].
  - exists [x], (b2n x). split; [constructor; exact L|]. split; [cbn; lia|exact Hx].
  - apply IH in H as (bs & w & V & Lb & Hb). cbn [r_start] in Hb.
    destruct (vcons b _ x bs w L Hx V Hb) as [V' H']. exists (x :: bs), (b2n x - 128 + 128 * w). split; [exact V'|]. split; [cbn; lia|exact H'].
Qed.
Lemma find32 b n : forall r acc sh r' v, varint32_go b n r acc sh = Ok (r', v) ->
  exists bs w, is_varint bs w /\ (length bs <= n + 6)%nat /\ has b (r_start r) bs.
Proof.
  induction n as [|n IH]; intros r acc sh r' v H; cbn [varint32_go] in H;
    apply bind_ok in H as [[r1 x] [R H]]; apply read_u8_has in R as [Hx ->]; destruct (N.ltb_spec (b2n x) 128) as [L|L].
  - exists [x], (b2n x). split; [constructor; exact L|]. split; [cbn; lia|exact Hx].
  - apply skip_find in H as (bs & w & V & Lb & Hb). cbn [r_start] in Hb.
    destruct (vcons b _ x bs w L Hx V Hb) as [V' H']. exists (x :: bs), (b2n x - 128 + 128 * w). split; [exact V'|]. split; [cbn; lia|exact H'].
  - exists [x], (b2n x). split; [constructor; exact L|]. split; [cbn; lia|exact Hx].
  - apply IH in H as (bs & w & V & Lb & Hb). cbn [r_start] in Hb.
    destruct (vcons b _ x bs w L Hx V Hb) as [V' H']. exists (x :: bs), (b2n x - 128 + 128 * w). split; [exact V'|]. split; [cbn; lia|exact H'].
Qed.
Lemma find64 b n : forall r acc sh r' v, varint64_go b n r acc sh = Ok (r', v) ->
  exists bs w, is_varint bs w /\ (length bs <= n + 1)%nat /\ has b (r_start r) bs.
Proof.
  induction n as [|n IH]; intros r acc sh r' v H; cbn [varint64_go] in H;
    apply bind_ok in H as [[r1 x] [R H]]; apply read_u8_has in R as [Hx ->]; destruct (N.ltb_spec (b2n x) 128) as [L|L].
  - exists [x], (b2n x). split; [constructor; exact L|]. split; [cbn; lia|exact Hx].
  - discriminate.
  - exists [x], (b2n x). split; [constructor; exact L|]. split; [cbn; lia|exact Hx].
  - apply IH in H as (bs & w & V & Lb & Hb). cbn [r_start] in Hb.
    destruct (vcons b _ x bs w L Hx V Hb) as [V' H']. exists (x :: bs), (b2n x - 128 + 128 * w). split; [exact V'|]. split; [cbn; lia|exact H'].
Qed.

Lemma inv32 b r r' v : blen b < two64 -> read_varint32 b r = Ok (r', v) ->
  exists bs w, varint bs w /\ v = w mod two32 /\ has b (r_start r) bs /\ r' = Reader (r_start r + blen bs) (r_end r).
Proof.
  intros Lb H. pose proof H as H0. apply find32 in H0 as (bs & w & V & L & Hb). exists bs, w.
  assert (V' : varint bs w) by (split; [exact V|lia]). split; [exact V'|].
  pose proof Hb as Hb0. apply has_split in Hb0 as (pre & post & -> & P). destruct r as [s e]. cbn [r_start r_end] in *.
  rewrite (read_varint32_reads s bs w V' pre post e P Lb) in H. injection H as <- <-. auto.
Qed.
Lemma inv64 b r r' v : blen b < two64 -> read_varint64 b r = Ok (r', v) ->
  exists bs w, varint bs w /\ v = w mod two64 /\ has b (r_start r) bs /\ r' = Reader (r_start r + blen bs) (r_end r).
Proof.
  intros Lb H. pose proof H as H0. apply find64 in H0 as (bs & w & V & L & Hb). exists bs, w.
  assert (V' : varint bs w) by (split; [exact V|lia]). split; [exact V'|].
  pose proof Hb as Hb0. apply has_split in Hb0 as (pre & post & -> & P). destruct r as [s e]. cbn [r_start r_end] in *.
  rewrite (read_varint64_reads s bs w V' pre post e P Lb) in H. injection H as <- <-. auto.
Qed.

Lemma add_true {E} a c s : @add64 E true a c = Ok s -> s = a + c.
Proof. unfold add64. destruct (a + c <? two64); [congruence|discriminate]. Qed.

(** ** Fields *)
Section fields.
Context (b : bytes) (Lb : blen b < two64).

Lemma len_inv {A} (f : reader -> outcome perr A) r r2 a :
  read_len_varint true b f r = Ok (r2, a) ->
  exists lb w, varint lb w /\ has b (r_start r) lb
    /\ f (Reader (r_start r + blen lb) (r_start r + blen lb + w mod two32)) = Ok a
    /\ r2 = Reader (r_start r + blen lb + w mod two32) (r_end r).
Proof.
  intros H. apply bind_ok in H as [[r1 len] [R H]]. apply bind_ok in H as [e [Ea H]]. apply bind_ok in H as [v [F H]].
  injection H as <- <-. apply inv32 in R as (lb & w & V & -> & Hl & ->); [|exact Lb]. cbn [r_start r_end] in *.
  apply add_true in Ea. subst e. exists lb, w. auto.
Qed.

Lemma slice_inv r r2 off x : read_slice true b r = Ok (r2, (off, x)) ->
  exists pb, lax_payload two32 (WLen x) pb /\ has b (r_start r) pb /\ r2 = Reader (r_start r + blen pb) (r_end r).
Proof.
  intros H. apply len_inv in H as (lb & w & V & Hl & F & ->). cbn [r_start r_end] in F.
  destruct (get_range b _ _) as [y|] eqn:G; [|discriminate]. injection F as <- <-.
  apply get_range_has in G as [Hy E].
  exists (lb ++ y). split; [exists lb, w; repeat split; [apply V|apply V|lia]|].
  split; [apply has_app; assumption|]. rewrite blen_app. f_equal. lia.
Qed.
Lemma bytes_inv r r2 x : read_bytes true b r = Ok (r2, x) ->
  exists pb, lax_payload two32 (WLen x) pb /\ has b (r_start r) pb /\ r2 = Reader (r_start r + blen pb) (r_end r).
Proof.
  intros H. apply bind_ok in H as [[r1 [off y]] [R H]]. injection H as <- <-. eapply slice_inv. exact R.
Qed.
Lemma string_inv valid r r2 x : read_string true b valid r = Ok (r2, x) ->
  valid x = true /\ exists pb, lax_payload two32 (WLen x) pb /\ has b (r_start r) pb /\ r2 = Reader (r_start r + blen pb) (r_end r).
Proof.
  intros H. apply len_inv in H as (lb & w & V & Hl & F & ->). cbn [r_start r_end] in F.
  destruct (get_range b _ _) as [y|] eqn:G; [|discriminate]. destruct (valid y) eqn:Vy; [|discriminate]. injection F as <-.
  apply get_range_has in G as [Hy E]. split; [exact Vy|].
  exists (lb ++ y). split; [exists lb, w; repeat split; [apply V|apply V|lia]|].
  split; [apply has_app; assumption|]. rewrite blen_app. f_equal. lia.
Qed.
Lemma varint64_inv r r2 v : read_varint64 b r = Ok (r2, v) ->
  exists pb, lax_payload two64 (WVarint v) pb /\ has b (r_start r) pb /\ r2 = Reader (r_start r + blen pb) (r_end r).
Proof. intros H. apply inv64 in H as (bs & w & V & -> & Hb & ->); [|exact Lb]. exists bs. split; [exists w; auto|auto]. Qed.
Lemma varint32_inv r r2 v : read_varint32 b r = Ok (r2, v) ->
  exists n pb, v = n mod two32 /\ lax_payload two64 (WVarint n) pb /\ has b (r_start r) pb /\ r2 = Reader (r_start r + blen pb) (r_end r).
Proof.
  intros H. apply inv32 in H as (bs & w & V & -> & Hb & ->); [|exact Lb]. exists (w mod two64), bs. split.
  - change two64 with (two32 * two32). rewrite N.mod_mul_r by discriminate.
    rewrite (N.mul_comm two32 ((w / two32) mod two32)), N.mod_add by discriminate. symmetry. apply N.mod_mod. discriminate.
  - split; [exists w; auto|auto].
Qed.
Lemma fixed32_inv r r2 v : read_fixed32 true b r = Ok (r2, v) ->
  exists x, v = le32 x /\ lax_payload two64 (WFixed32 x) x /\ has b (r_start r) x /\ r2 = Reader (r_start r + blen x) (r_end r).
Proof.
  intros H. apply bind_ok in H as [e [Ea H]]. apply add_true in Ea. subst e.
  destruct (get_range b _ _) as [x|] eqn:G; [|discriminate]. injection H as <- <-. apply get_range_has in G as [Hx E].
  assert (L4 : length x = 4%nat) by (unfold blen in E; lia).
  exists x. split.
  - destruct x as [|a [|c [|d [|e [|? ?]]]]]; cbn [length] in L4; try lia. cbn [le_bytes le32]. lia.
  - split; [split; [reflexivity|exact L4]|]. split; [exact Hx|]. f_equal. lia.
Qed.

Lemma unknown_inv {M} t (m : M) r r2 m' : unknown true b t m r = Ok (r2, m') -> r_start r2 <= blen b ->
  m' = m /\ exists v pb, t = t / 8 * 8 + wire_type v /\ lax_payload two64 v pb
    /\ has b (r_start r) pb /\ r2 = Reader (r_start r + blen pb) (r_end r).
Proof.
  intros H L. apply bind_ok in H as [r1 [R H]]. injection H as <- <-. split; [reflexivity|].
  pose proof (N.div_mod t 8 ltac:(discriminate)) as D. unfold read_unknown in R.
  assert (M8 : t mod 8 < 8) by (apply N.mod_lt; discriminate).
  assert (FX : forall n, @add64 perr true (r_start r) n = Ok (r_start r1) -> r_end r1 = r_end r ->
               exists x, blen x = n /\ has b (r_start r) x /\ r1 = Reader (r_start r + blen x) (r_end r)).
  { intros n A E. apply (add_true (E := perr)) in A. destruct (has_range b (r_start r) n) as (x & Hx & Lx); [lia|].
    exists x. split; [exact Lx|]. split; [exact Hx|]. destruct r1 as [s1 e1]. cbn [r_start r_end] in *. subst. reflexivity. }
  assert (C : t mod 8 = 0 \/ t mod 8 = 5 \/ t mod 8 = 2 \/ t mod 8 = 1 \/ t mod 8 = 3 \/ t mod 8 = 4 \/ t mod 8 = 6 \/ t mod 8 = 7) by lia.
  destruct C as [C|[C|[C|[C|[C|[C|[C|C]]]]]]]; rewrite C in R, D; try discriminate.
  - apply bind_ok in R as [[r3 v] [R E]]. injection E as ->. apply varint64_inv in R as (pb & P & Hp & ->).
    exists (WVarint v), pb. cbn [wire_type]. split; [lia|auto].
  - (* 5 *) apply bind_ok in R as [s [A E]]. injection E as <-.
    destruct (FX 4 A eq_refl) as (x & Lx & Hx & ->). exists (WFixed32 x), x. cbn [wire_type].
    split; [lia|]. split; [split; [reflexivity|unfold blen in Lx; lia]|auto].
  - (* 2 *) apply bind_ok in R as [[r3 v] [R E]]. apply bind_ok in E as [s [A E]]. injection E as <-. cbn [r_start] in L.
    apply inv64 in R as (lb & w & V & -> & Hl & ->); [|exact Lb]. cbn [r_start r_end] in *. apply add_true in A. subst s.
    destruct (has_range b (r_start r + blen lb) (w mod two64)) as (x & Hx & Lx); [lia|].
    exists (WLen x), (lb ++ x). cbn [wire_type]. split; [lia|]. split; [exists lb, w; auto|].
    split; [apply has_app; assumption|]. rewrite blen_app. f_equal. lia.
  - (* 1 *) apply bind_ok in R as [s [A E]]. injection E as <-.
    destruct (FX 8 A eq_refl) as (x & Lx & Hx & ->). exists (WFixed64 x), x. cbn [wire_type].
    split; [lia|]. split; [split; [reflexivity|unfold blen in Lx; lia]|auto].
Qed.

(** ** The loop *)
Section loop.
Context {M : Type} (step : N -> M -> reader -> pres M) (known : N -> bool) (S : M -> list wfield -> M -> Prop).

(** one step reads one field *)
Definition one_field : Prop := forall t m r r2 m', step t m r = Ok (r2, m') -> r_start r2 <= blen b ->
  exists f pb, t = w_num f * 8 + wire_type (w_val f) /\ lax_payload (if known (w_num f) then two32 else two64) (w_val f) pb
    /\ has b (r_start r) pb /\ r2 = Reader (r_start r + blen pb) (r_end r)
    /\ forall fs m2, S m' fs m2 -> S m (f :: fs) m2.

Lemma loop_inv : (forall m, S m [] m) -> one_field -> (forall t m r, fwd b r (step t m r)) ->
  forall fuel r m r' m', msg_loop b fuel step r m = Ok (r', m') -> r_end r <= blen b ->
  r_start r <= r_end r /\ exists fs bs, laxly known fs bs /\ has b (r_start r) bs
    /\ r_end r = r_start r + blen bs /\ S m fs m'.
Proof.
  intros S0 OF FW. induction fuel as [|fuel IH]; intros r m r' m' H Le; cbn [msg_loop] in H;
    destruct (is_eof r) eqn:Ee; try discriminate.
  1, 2: injection H as <- <-; apply N.eqb_eq in Ee; split; [lia|]; exists [], []; split; [constructor|];
    split; [apply has_nil; lia|]; split; [rewrite blen_nil; lia|apply S0].
  apply bind_ok in H as [[r1 t] [T H]]. apply bind_ok in H as [[r2 m1] [St H]].
  pose proof (FW t m r1) as F1. rewrite St in F1. cbn [fwd] in F1.
  apply inv32 in T as (tb & w & V & Et & Ht & ->); [|exact Lb]. cbn [r_start r_end] in *.
  destruct (IH _ _ _ _ H) as (L2 & fs & bs & X1 & X2 & X3 & X4); [lia|].
  destruct (OF _ _ _ _ _ St) as (f & pb & Ef & P & Hp & -> & Sm); [lia|]. cbn [r_start r_end] in *.
  split; [lia|]. exists (f :: fs), ((tb ++ pb) ++ bs). split.
  - constructor; [|exact X1]. exists tb, w, pb. split; [exact V|]. split; [congruence|]. split; [exact P|reflexivity].
  - assert (Ha : has b (r_start r) (tb ++ pb)) by (apply has_app; assumption).
    split; [apply has_app; [exact Ha|]; rewrite blen_app, N.add_assoc; exact X2|].
    split; [rewrite !blen_app; lia|]. apply Sm. exact X4.
Qed.
Lemma message_inv m0 : (forall m, S m [] m) -> one_field -> (forall t m r, fwd b r (step t m r)) ->
  forall r r2 m', read_message true b step m0 r = Ok (r2, m') -> r_start r2 <= blen b ->
  exists x fs pb, lax_payload two32 (WLen x) pb /\ has b (r_start r) pb /\ r2 = Reader (r_start r + blen pb) (r_end r)
    /\ laxly known fs x /\ S m0 fs m'.
Proof.
  intros S0 OF FW r r2 m' H L. apply len_inv in H as (lb & w & V & Hl & F & ->). cbn [r_start r_end] in *.
  apply bind_ok in F as [[r1 m1] [F E]]. injection E as ->.
  destruct (loop_inv S0 OF FW _ _ _ _ _ F) as (L1 & fs & x & X1 & X2 & X3 & X4); [exact L|]. cbn [r_start r_end] in *.
  exists x, fs, (lb ++ x). split; [exists lb, w; split; [exact V|split; [lia|reflexivity]]|].
  split; [apply has_app; assumption|]. split; [rewrite blen_app; f_equal; lia|]. auto.
Qed.
End loop.

(** ** The messages *)
Lemma lax_len_known k num v pb : lax_payload two64 v pb -> (forall x, v = WLen x -> k num = false) ->
  lax_payload (if (k : N -> bool) num then two32 else two64) v pb.
Proof. intros P H. destruct (k num) eqn:K; [|exact P]. destruct v; try exact P. pose proof (H _ eq_refl). congruence. Qed.

Ltac field f pb := exists f, pb; cbn [w_num w_val wire_type]; split; [lia|]; split; [try assumption|split; [assumption|split; [first [assumption|reflexivity]|]]].
Ltac unknown_field H L :=
  apply unknown_inv in H as (-> & v & pb & Et & P & Hp & ->); [|exact L];
  match type of Et with ?t = _ => exists (WField (t / 8) v), pb end; cbn [w_num w_val];
  split; [exact Et|]; split; [apply lax_len_known; [exact P|]; intros x ->; cbn [wire_type] in Et|split; [exact Hp|split; [reflexivity|]]].

Lemma link_field_inv : one_field (pblink_step true b) link_known link_sem.
Proof.
  intros t m r r2 m' H L.
  destruct (N.eq_dec t 10) as [->|N1].
  { apply bind_ok in H as [[r1 v] [H E]]. injection E as <- <-. apply bytes_inv in H as (pb & P & Hp & ->).
    field (WField 1 (WLen v)) pb. intros fs m2 Hs. destruct m. apply ls_hash. exact Hs. }
  destruct (N.eq_dec t 18) as [->|N2].
  { apply bind_ok in H as [[r1 v] [H E]]. injection E as <- <-. apply string_inv in H as (Hv & pb & P & Hp & ->).
    field (WField 2 (WLen v)) pb. intros fs m2 Hs. destruct m. apply ls_name; [exact Hv|exact Hs]. }
  destruct (N.eq_dec t 24) as [->|N3].
  { apply bind_ok in H as [[r1 v] [H E]]. injection E as <- <-. apply varint64_inv in H as (pb & P & Hp & ->).
    field (WField 3 (WVarint v)) pb. intros fs m2 Hs. destruct m. apply ls_tsize. exact Hs. }
  rewrite pblink_step_other in H by assumption. unknown_field H L.
  - unfold link_known. destruct (N.eqb_spec (t / 8) 1); [lia|]. destruct (N.eqb_spec (t / 8) 2); [lia|]. reflexivity.
  - intros fs m2 Hs. apply ls_other; [..|exact Hs]; intros x [= E1 E2]; subst v; cbn [wire_type] in Et; lia.
Qed.

Lemma time_field_inv : one_field (unixtime_step true b) time_known time_sem.
Proof.
  intros t m r r2 m' H L.
  destruct (N.eq_dec t 8) as [->|N1].
  { apply bind_ok in H as [[r1 v] [H E]]. injection E as <- <-. apply varint64_inv in H as (pb & P & Hp & ->).
    field (WField 1 (WVarint v)) pb. intros fs m2 Hs. destruct m. apply ts_secs. rewrite i64_value_of. exact Hs. }
  destruct (N.eq_dec t 21) as [->|N2].
  { apply bind_ok in H as [[r1 v] [H E]]. injection E as <- <-. apply fixed32_inv in H as (x & -> & P & Hp & ->).
    field (WField 2 (WFixed32 x)) x. intros fs m2 Hs. destruct m. apply ts_nanos. exact Hs. }
  rewrite unixtime_step_other in H by assumption. unknown_field H L.
  - reflexivity.
  - intros fs m2 Hs. apply ts_other; [..|exact Hs]; intros x [= E1 E2]; subst v; cbn [wire_type] in Et; lia.
Qed.

Definition node_S (m : pbnode) (fs : list wfield) (m' : pbnode) : Prop :=
  node_sem (laxly link_known) (n_links m) (option_map snd (n_data m)) fs (n_links m') (option_map snd (n_data m')).

Lemma node_field_inv : one_field (pbnode_step true b) node_known node_S.
Proof.
  intros t m r r2 m' H L.
  destruct (N.eq_dec t 10) as [->|N1].
  { apply bind_ok in H as [[r1 [off v]] [H E]]. injection E as <- <-. apply slice_inv in H as (pb & P & Hp & ->).
    field (WField 1 (WLen v)) pb. intros fs m2 Hs. apply ns_data. exact Hs. }
  destruct (N.eq_dec t 18) as [->|N2].
  { apply bind_ok in H as [[r1 v] [H E]]. injection E as <- <-.
    apply (message_inv (pblink_step true b) link_known link_sem pblink_default ls_nil link_field_inv) in H
      as (x & lfs & pb & P & Hp & -> & Hl & Hs); [|intros; apply pblink_step_fwd|exact L].
    field (WField 2 (WLen x)) pb. intros fs m2 Hs2. eapply ns_link; [exact Hl|exact Hs|exact Hs2]. }
  rewrite pbnode_step_other in H by assumption. unknown_field H L.
  - unfold node_known. destruct (N.eqb_spec (t / 8) 1); [lia|]. destruct (N.eqb_spec (t / 8) 2); [lia|]. reflexivity.
  - intros fs m2 Hs. apply ns_other; [..|exact Hs]; intros x [= E1 E2]; subst v; cbn [wire_type] in Et; lia.
Qed.

Lemma unixfs_field_inv : one_field (unixfs_step true b) unixfs_known (unixfs_sem (laxly time_known)).
Proof.
  intros t m r r2 m' H L. destruct m as [ty da sz bz ht fa mo mt].
  destruct (N.eq_dec t 8) as [->|N1].
  { apply bind_ok in H as [[r1 v] [H E]]. injection E as <- <-. apply varint32_inv in H as (n & pb & -> & P & Hp & ->).
    field (WField 1 (WVarint n)) pb. intros fs m2 Hs. apply us_type. rewrite type_value_of. exact Hs. }
  destruct (N.eq_dec t 18) as [->|N2].
  { apply bind_ok in H as [[r1 v] [H E]]. injection E as <- <-. apply bytes_inv in H as (pb & P & Hp & ->).
    field (WField 2 (WLen v)) pb. intros fs m2 Hs. apply us_data. exact Hs. }
  destruct (N.eq_dec t 24) as [->|N3].
  { apply bind_ok in H as [[r1 v] [H E]]. injection E as <- <-. apply varint64_inv in H as (pb & P & Hp & ->).
    field (WField 3 (WVarint v)) pb. intros fs m2 Hs. apply us_filesize. exact Hs. }
  destruct (N.eq_dec t 32) as [->|N4].
  { apply bind_ok in H as [[r1 v] [H E]]. injection E as <- <-. apply varint64_inv in H as (pb & P & Hp & ->).
    field (WField 4 (WVarint v)) pb. intros fs m2 Hs. apply us_blocksize. exact Hs. }
  destruct (N.eq_dec t 40) as [->|N5].
  { apply bind_ok in H as [[r1 v] [H E]]. injection E as <- <-. apply varint64_inv in H as (pb & P & Hp & ->).
    field (WField 5 (WVarint v)) pb. intros fs m2 Hs. apply us_hashtype. exact Hs. }
  destruct (N.eq_dec t 48) as [->|N6].
  { apply bind_ok in H as [[r1 v] [H E]]. injection E as <- <-. apply varint64_inv in H as (pb & P & Hp & ->).
    field (WField 6 (WVarint v)) pb. intros fs m2 Hs. apply us_fanout. exact Hs. }
  destruct (N.eq_dec t 56) as [->|N7].
  { apply bind_ok in H as [[r1 v] [H E]]. injection E as <- <-. apply varint32_inv in H as (n & pb & -> & P & Hp & ->).
    field (WField 7 (WVarint n)) pb. intros fs m2 Hs. apply us_mode. exact Hs. }
  destruct (N.eq_dec t 66) as [->|N8].
  { apply bind_ok in H as [[r1 v] [H E]]. injection E as <- <-.
    apply (message_inv (unixtime_step true b) time_known time_sem unixtime_default ts_nil time_field_inv) in H
      as (x & tfs & pb & P & Hp & -> & Hl & Hs); [|intros; apply unixtime_step_fwd|exact L].
    field (WField 8 (WLen x)) pb. intros fs m2 Hs2. eapply us_mtime; [exact Hl|exact Hs|exact Hs2]. }
  rewrite unixfs_step_other in H by assumption. unknown_field H L.
  - unfold unixfs_known. destruct (N.eqb_spec (t / 8) 2); [lia|]. destruct (N.eqb_spec (t / 8) 8); [lia|]. reflexivity.
  - intros fs m2 Hs. apply us_other; [..|exact Hs]; intros x [= E1 E2]; subst v; cbn [wire_type] in Et; lia.
Qed.

Lemma has_whole bs : has b 0 bs -> blen b = 0 + blen bs -> bs = b.
Proof.
  intros [_ [post E]] L. change (skipn (N.to_nat 0) b) with b in E. destruct post; [rewrite app_nil_r in E; auto|].
  rewrite E, blen_app, blen_cons in L. lia.
Qed.

Lemma node_parse_inv n : pbnode_parse true b = Ok n ->
  exists fs, laxly node_known fs b /\ node_sem (laxly link_known) [] None fs (n_links n) (option_map snd (n_data n)).
Proof.
  intros H. apply bind_ok in H as [[r m] [H E]]. injection E as ->.
  destruct (loop_inv (pbnode_step true b) node_known node_S (fun m => ns_nil _ _ _) node_field_inv
              (fun t m r => pbnode_step_fwd b t m r) _ _ _ _ _ H) as (_ & fs & bs & X1 & X2 & X3 & X4); [cbn; lia|].
  cbn [whole r_start r_end] in *. apply has_whole in X2; [|exact X3]. subst bs. exists fs. auto.
Qed.
Lemma unixfs_parse_inv u : unixfs_parse true b = Ok u ->
  exists fs, laxly unixfs_known fs b /\ unixfs_sem (laxly time_known) unixfs_default fs u.
Proof.
  intros H. apply bind_ok in H as [[r m] [H E]]. injection E as ->.
  destruct (loop_inv (unixfs_step true b) unixfs_known _ (us_nil _) unixfs_field_inv
              (fun t m r => unixfs_step_fwd b t m r) _ _ _ _ _ H) as (_ & fs & bs & X1 & X2 & X3 & X4); [cbn; lia|].
  cbn [whole r_start r_end] in *. apply has_whole in X2; [|exact X3]. subst bs. exists fs. auto.
Qed.
End fields.
