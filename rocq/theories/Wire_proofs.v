From Verif Require Import Base Tac Wire Utf8 Pb SpecWire.

Lemma two64_eq : two64 = 2 ^ 64. Proof. reflexivity. Qed.
Lemma two32_eq : two32 = 2 ^ 32. Proof. reflexivity. Qed.

(** ** The "reads" judgement *)
Definition reads_at {A} (pos : N) (p : bytes -> reader -> pres A) (bs : bytes) (v : A) : Prop :=
  forall pre post e, blen pre = pos -> blen (pre ++ bs ++ post) < two64 ->
    p (pre ++ bs ++ post) (Reader pos e) = Ok (Reader (pos + blen bs) e, v).

Lemma reads_at_bind {A B} pos (p : bytes -> reader -> pres A) (q : A -> bytes -> reader -> pres B) b1 b2 v1 v2 :
  reads_at pos p b1 v1 ->
  reads_at (pos + blen b1) (q v1) b2 v2 ->
  reads_at pos (fun b r => do (r1, v) <- p b r; q v b r1) (b1 ++ b2) v2.
Proof.
  intros H1 H2 pre post e Hp Hl.
  replace (pre ++ (b1 ++ b2) ++ post) with (pre ++ b1 ++ (b2 ++ post)) in * by app_assoc.
  rewrite (H1 pre (b2 ++ post) e Hp Hl). cbn [bind].
  replace (pre ++ b1 ++ b2 ++ post) with ((pre ++ b1) ++ b2 ++ post) in * by app_assoc.
  rewrite (H2 (pre ++ b1) post e).
  - rewrite blen_app. f_equal. f_equal. f_equal. lia.
  - rewrite blen_app. lia.
  - exact Hl.
Qed.

Lemma reads_at_ret {A} pos (v : A) : reads_at pos (fun _ r => Ok (r, v)) [] v.
Proof. intros pre post e _ _. rewrite blen_nil, N.add_0_r. reflexivity. Qed.

Lemma reads_at_map {A B} pos (p : bytes -> reader -> pres A) (f : A -> B) bs v :
  reads_at pos p bs v ->
  reads_at pos (fun b r => do (r1, x) <- p b r; Ok (r1, f x)) bs (f v).
Proof.
  intros H pre post e Hp Hl. rewrite (H pre post e Hp Hl). reflexivity.
Qed.

Lemma reads_at_ext {A} pos (p q : bytes -> reader -> pres A) bs v :
  (forall b r, p b r = q b r) -> reads_at pos p bs v -> reads_at pos q bs v.
Proof. intros E H pre post e Hp Hl. rewrite <- E. apply H; assumption. Qed.

(** ** Varints *)
Lemma read_u8_app pre x post e :
  read_u8 (pre ++ x :: post) (Reader (blen pre) e) = Ok (Reader (blen pre + 1) e, x).
Proof. unfold read_u8. cbn [r_start r_end]. rewrite get_at_app. reflexivity. Qed.

Lemma snoc_assoc (pre : bytes) x bs post : pre ++ (x :: bs) ++ post = (pre ++ [x]) ++ bs ++ post.
Proof. app_assoc. Qed.

Lemma blen_snoc pre x : blen (pre ++ [x]) = blen pre + 1.
Proof. rewrite blen_app. reflexivity. Qed.

Lemma is_varint_pos bs v : is_varint bs v -> (1 <= length bs)%nat.
Proof. intros H; inv H; cbn [length]; lia. Qed.

Lemma skip_cont_reads bs v : is_varint bs v -> forall n pre post e w, (length bs <= n)%nat ->
  skip_cont (pre ++ bs ++ post) n (Reader (blen pre) e) w = Ok (Reader (blen pre + blen bs) e, w).
Proof.
  induction 1 as [x Hx | x bs v Hx Hv IH]; intros n pre post e w Hn.
  - destruct n as [|n]; [cbn [length] in Hn; lia|]. cbn [skip_cont].
    cbn [app]. rewrite read_u8_app. cbn [bind].
    destruct (N.ltb_spec (b2n x) 128); [|lia]. rewrite blen_cons, blen_nil. reflexivity.
  - destruct n as [|n]; [cbn [length] in Hn; lia|]. cbn [skip_cont].
    change ((x :: bs) ++ post) with (x :: (bs ++ post)).
    rewrite read_u8_app. cbn [bind].
    destruct (N.ltb_spec (b2n x) 128); [lia|].
    change (pre ++ x :: bs ++ post) with (pre ++ (x :: bs) ++ post).
    rewrite snoc_assoc, <- blen_snoc with (x := x).
    rewrite IH by (cbn [length] in Hn; lia).
    rewrite blen_snoc, blen_cons. f_equal. f_equal. f_equal. lia.
Qed.

Lemma mod16_split x v : 128 <= x -> x < 256 -> (x - 128 + 128 * v) mod 16 = x mod 16.
Proof.
  intros H1 H2. replace (x - 128 + 128 * v) with (x - 128 + (8 * v) * 16) by lia.
  rewrite N.mod_add by lia. replace x with (x - 128 + 8 * 16) at 2 by lia.
  rewrite N.mod_add by lia. reflexivity.
Qed.

(** truncation of a group sum: [x + 128 v] modulo [128 m] *)
Lemma mod_group x v m : x < 128 -> 0 < m -> (x + 128 * v) mod (128 * m) = x + 128 * (v mod m).
Proof.
  intros Hx Hm.
  symmetry. apply N.mod_unique with (q := v / m).
  - assert (v mod m < m) by (apply N.mod_lt; lia). nia.
  - pose proof (N.div_mod v m ltac:(lia)). nia.
Qed.

Lemma pow_pos n : 0 < 128 ^ n.
Proof. apply N.neq_0_lt_0. apply N.pow_nonzero. lia. Qed.

Lemma varint32_go_reads n : forall bs v pre post e acc sh,
  is_varint bs v -> (length bs <= n + 6)%nat ->
  varint32_go (pre ++ bs ++ post) n (Reader (blen pre) e) acc sh
  = Ok (Reader (blen pre + blen bs) e, acc + (v mod (16 * 128 ^ N.of_nat n)) * sh).
Proof.
  induction n as [|n IH]; intros bs v pre post e acc sh Hv Hl.
  - cbn [varint32_go]. inversion Hv as [x Hx E1 E2 | x bs' v' Hx Hv' E1 E2]; subst.
    + cbn [app]. rewrite read_u8_app. cbn [bind].
      destruct (N.ltb_spec (b2n x) 128); [|lia].
      rewrite blen_cons, blen_nil. reflexivity.
    + change ((x :: bs') ++ post) with (x :: (bs' ++ post)).
      rewrite read_u8_app. cbn [bind].
      destruct (N.ltb_spec (b2n x) 128); [lia|].
      change (pre ++ x :: bs' ++ post) with (pre ++ (x :: bs') ++ post).
      rewrite snoc_assoc, <- blen_snoc with (x := x).
      rewrite (skip_cont_reads _ _ Hv') by (cbn [length] in Hl; lia).
      rewrite blen_snoc, blen_cons. change (16 * 128 ^ N.of_nat 0) with 16.
      rewrite (mod16_split _ _ Hx (b2n_lt x)). f_equal. f_equal. f_equal. lia.
  - cbn [varint32_go]. inversion Hv as [x Hx E1 E2 | x bs' v' Hx Hv' E1 E2]; subst.
    + cbn [app]. rewrite read_u8_app. cbn [bind].
      destruct (N.ltb_spec (b2n x) 128); [|lia].
      rewrite blen_cons, blen_nil. f_equal. f_equal. f_equal. f_equal.
      rewrite !N.mod_small; [reflexivity | | lia].
      pose proof (pow_pos (N.of_nat n)). rewrite Nat2N.inj_succ, N.pow_succ_r'. lia.
    + change ((x :: bs') ++ post) with (x :: (bs' ++ post)).
      rewrite read_u8_app. cbn [bind].
      destruct (N.ltb_spec (b2n x) 128); [lia|].
      change (pre ++ x :: bs' ++ post) with (pre ++ (x :: bs') ++ post).
      rewrite snoc_assoc, <- blen_snoc with (x := x).
      rewrite IH with (v := v') by (auto; cbn [length] in Hl; lia).
      rewrite blen_snoc, blen_cons. f_equal. f_equal; [f_equal; lia|].
      rewrite Nat2N.inj_succ, N.pow_succ_r'.
      replace (16 * (128 * 128 ^ N.of_nat n)) with (128 * (16 * 128 ^ N.of_nat n)) by lia.
      pose proof (pow_pos (N.of_nat n)). pose proof (b2n_lt x).
      rewrite mod_group by lia.
      replace (b2n x mod 128) with (b2n x - 128); [lia|].
      apply N.mod_unique with (q := 1); lia.
Qed.

Lemma varint64_go_reads n : forall bs v pre post e acc sh,
  is_varint bs v -> (length bs <= n + 1)%nat ->
  varint64_go (pre ++ bs ++ post) n (Reader (blen pre) e) acc sh
  = Ok (Reader (blen pre + blen bs) e, acc + (v mod (2 * 128 ^ N.of_nat n)) * sh).
Proof.
  induction n as [|n IH]; intros bs v pre post e acc sh Hv Hl.
  - cbn [varint64_go]. inversion Hv as [x Hx E1 E2 | x bs' v' Hx Hv' E1 E2]; subst.
    + cbn [app]. rewrite read_u8_app. cbn [bind].
      destruct (N.ltb_spec (b2n x) 128); [|lia].
      rewrite blen_cons, blen_nil. reflexivity.
    + apply is_varint_pos in Hv'. cbn [length] in Hl. lia.
  - cbn [varint64_go]. inversion Hv as [x Hx E1 E2 | x bs' v' Hx Hv' E1 E2]; subst.
    + cbn [app]. rewrite read_u8_app. cbn [bind].
      destruct (N.ltb_spec (b2n x) 128); [|lia].
      rewrite blen_cons, blen_nil. f_equal. f_equal. f_equal. f_equal.
      rewrite !N.mod_small; [reflexivity | | lia].
      pose proof (pow_pos (N.of_nat n)). rewrite Nat2N.inj_succ, N.pow_succ_r'. lia.
    + change ((x :: bs') ++ post) with (x :: (bs' ++ post)).
      rewrite read_u8_app. cbn [bind].
      destruct (N.ltb_spec (b2n x) 128); [lia|].
      change (pre ++ x :: bs' ++ post) with (pre ++ (x :: bs') ++ post).
      rewrite snoc_assoc, <- blen_snoc with (x := x).
      rewrite IH with (v := v') by (auto; cbn [length] in Hl; lia).
      rewrite blen_snoc, blen_cons. f_equal. f_equal; [f_equal; lia|].
      rewrite Nat2N.inj_succ, N.pow_succ_r'.
      replace (2 * (128 * 128 ^ N.of_nat n)) with (128 * (2 * 128 ^ N.of_nat n)) by lia.
      pose proof (pow_pos (N.of_nat n)). pose proof (b2n_lt x).
      rewrite mod_group by lia.
      replace (b2n x mod 128) with (b2n x - 128); [lia|].
      apply N.mod_unique with (q := 1); lia.
Qed.

Lemma read_varint32_reads pos bs v : varint bs v -> reads_at pos read_varint32 bs (v mod two32).
Proof.
  intros [Hv Hl] pre post e <- _. unfold read_varint32.
  rewrite varint32_go_reads with (v := v) by (auto; lia).
  f_equal. f_equal. change (16 * 128 ^ N.of_nat 4) with two32. lia.
Qed.

Lemma read_varint64_reads pos bs v : varint bs v -> reads_at pos read_varint64 bs (v mod two64).
Proof.
  intros [Hv Hl] pre post e <- _. unfold read_varint64.
  rewrite varint64_go_reads with (v := v) by (auto; lia).
  f_equal. f_equal. change (2 * 128 ^ N.of_nat 9) with two64. lia.
Qed.

(** ** Writing varints *)
Lemma varint_go_is f : forall v, v < 128 ^ N.of_nat f -> (0 < f)%nat -> is_varint (varint_go f v) v.
Proof.
  induction f as [|f IH]; intros v Hv Hf; [lia|].
  cbn [varint_go]. destruct (N.ltb_spec 127 v) as [Hgt|Hle].
  - rewrite Nat2N.inj_succ, N.pow_succ_r' in Hv.
    assert (Hd : v / 128 < 128 ^ N.of_nat f) by (apply N.div_lt_upper_bound; lia).
    destruct f as [|f]; [change (128 ^ N.of_nat 0) with 1 in Hv; lia|].
    specialize (IH (v / 128) Hd ltac:(lia)).
    assert (Hm : v mod 128 < 128) by (apply N.mod_lt; lia).
    assert (Hb : b2n (n2b (v mod 128 + 128)) = v mod 128 + 128)
      by (rewrite b2n_n2b; apply N.mod_small; lia).
    replace v with (b2n (n2b (v mod 128 + 128)) - 128 + 128 * (v / 128)) at 3
      by (rewrite Hb; pose proof (N.div_mod v 128 ltac:(lia)); lia).
    apply vi_more; [rewrite Hb; lia | exact IH].
  - assert (Hb : b2n (n2b v) = v) by (rewrite b2n_n2b; apply N.mod_small; lia).
    rewrite <- Hb at 2. apply vi_last. rewrite Hb. lia.
Qed.

Lemma varint_go_len f : forall v, (length (varint_go f v) <= f)%nat.
Proof.
  induction f as [|f IH]; intros v; cbn [varint_go]; [cbn; lia|].
  destruct (127 <? v); cbn [length]; [specialize (IH (v / 128)); lia | lia].
Qed.

Lemma write_varint_varint v : v < two64 -> varint (write_varint v) v.
Proof.
  intros H. split; [|apply varint_go_len].
  apply varint_go_is; [|lia]. eapply N.lt_le_trans; [exact H|].
  change (128 ^ N.of_nat 10) with 1180591620717411303424. unfold two64. lia.
Qed.

Lemma sizeof_varint_step v : v < two64 ->
  sizeof_varint v = if 127 <? v then 1 + sizeof_varint (v / 128) else 1.
Proof.
  intros H. unfold two64 in H.
  pose proof (N.div_mod v 128 ltac:(lia)) as Hd.
  pose proof (N.mod_lt v 128 ltac:(lia)) as Hm.
  set (q := v / 128) in *. set (m := v mod 128) in *. clearbody q m.
  unfold sizeof_varint.
  repeat match goal with |- context [?a <=? ?b] => destruct (N.leb_spec a b) end;
  destruct (N.ltb_spec 127 v); lia.
Qed.

Lemma varint_go_size f : forall v, v < 128 ^ N.of_nat f -> v < two64 -> (0 < f)%nat ->
  blen (varint_go f v) = sizeof_varint v.
Proof.
  induction f as [|f IH]; intros v Hv Hb Hf; [lia|].
  rewrite sizeof_varint_step by exact Hb. cbn [varint_go].
  destruct (N.ltb_spec 127 v) as [Hgt|Hle].
  - rewrite Nat2N.inj_succ, N.pow_succ_r' in Hv.
    assert (Hd : v / 128 < 128 ^ N.of_nat f) by (apply N.div_lt_upper_bound; lia).
    destruct f as [|f]; [change (128 ^ N.of_nat 0) with 1 in Hv; lia|].
    rewrite blen_cons, IH; [reflexivity | exact Hd | | lia].
    eapply N.le_lt_trans; [|exact Hb]. apply N.div_le_upper_bound; lia.
  - reflexivity.
Qed.

Lemma write_varint_size v : v < two64 -> blen (write_varint v) = sizeof_varint v.
Proof.
  intros H. unfold write_varint. apply varint_go_size; [|exact H|lia].
  change (128 ^ N.of_nat 10) with 1180591620717411303424. unfold two64 in H. lia.
Qed.

Lemma sizeof_varint_le v : 1 <= sizeof_varint v <= 10.
Proof.
  unfold sizeof_varint.
  repeat match goal with |- context [?a <=? ?b] => destruct (N.leb_spec a b) end; lia.
Qed.

(** ** Length delimited fields *)
Lemma read_slice_reads pos dbg lb w x :
  varint lb w -> blen x = w mod two32 ->
  reads_at pos (read_slice dbg) (lb ++ x) (pos + blen lb, x).
Proof.
  intros Hv Hs pre post e Hp Hl. unfold read_slice, read_len_varint.
  replace (pre ++ (lb ++ x) ++ post) with (pre ++ lb ++ (x ++ post)) in * by app_assoc.
  rewrite (read_varint32_reads pos lb w Hv pre (x ++ post) e Hp Hl). cbn [bind].
  rewrite <- Hs. cbn [r_start r_end].
  assert (Hlt : pos + blen lb + blen x < two64) by (rewrite !blen_app in Hl; lia).
  rewrite add64_ok by exact Hlt. cbn [bind r_start r_end].
  replace (pre ++ lb ++ x ++ post) with ((pre ++ lb) ++ x ++ post) by app_assoc.
  replace (pos + blen lb) with (N.of_nat (length (pre ++ lb)))
    by (rewrite app_length; unfold blen in *; lia).
  unfold blen at 1. rewrite get_range_app. cbn [bind].
  f_equal. f_equal. f_equal. rewrite app_length, !blen_app. unfold blen in *. lia.
Qed.

Lemma read_bytes_reads pos dbg lb w x :
  varint lb w -> blen x = w mod two32 -> reads_at pos (read_bytes dbg) (lb ++ x) x.
Proof.
  intros Hv Hs. unfold read_bytes.
  apply (reads_at_map pos (read_slice dbg) snd _ _ (read_slice_reads pos dbg lb w x Hv Hs)).
Qed.

Lemma read_string_reads pos dbg valid lb w x :
  varint lb w -> blen x = w mod two32 -> valid x = true ->
  reads_at pos (fun b => read_string dbg b valid) (lb ++ x) x.
Proof.
  intros Hv Hs Hu pre post e Hp Hl. unfold read_string, read_len_varint.
  replace (pre ++ (lb ++ x) ++ post) with (pre ++ lb ++ (x ++ post)) in * by app_assoc.
  rewrite (read_varint32_reads pos lb w Hv pre (x ++ post) e Hp Hl). cbn [bind].
  rewrite <- Hs. cbn [r_start r_end].
  assert (Hlt : pos + blen lb + blen x < two64) by (rewrite !blen_app in Hl; lia).
  rewrite add64_ok by exact Hlt. cbn [bind r_start r_end].
  replace (pre ++ lb ++ x ++ post) with ((pre ++ lb) ++ x ++ post) by app_assoc.
  replace (pos + blen lb) with (N.of_nat (length (pre ++ lb)))
    by (rewrite app_length; unfold blen in *; lia).
  unfold blen at 1. rewrite get_range_app, Hu. cbn [bind].
  f_equal. f_equal. f_equal. rewrite app_length, !blen_app. unfold blen in *. lia.
Qed.

Lemma read_fixed32_reads pos dbg x : length x = 4%nat ->
  reads_at pos (read_fixed32 dbg) x (le32 x).
Proof.
  intros H4 pre post e Hp Hl. unfold read_fixed32. cbn [r_start r_end].
  rewrite add64_ok by (rewrite !blen_app in Hl; unfold blen in *; lia). cbn [bind].
  replace (pos + 4) with (N.of_nat (length pre) + N.of_nat (length x)) by (unfold blen in *; lia).
  replace pos with (N.of_nat (length pre)) by (unfold blen in *; lia).
  rewrite get_range_app. f_equal. f_equal.
  destruct x as [|a [|b [|c [|d [|? ?]]]]]; cbn [length] in H4; try lia.
  cbn [le_bytes le32]. lia.
Qed.

(** ** The field loop *)

(** one iteration: tag, then the body *)
Definition iter {M} (step : bytes -> N -> M -> reader -> pres M) (m : M) (b : bytes) (r : reader) : pres M :=
  do (r1, t) <- next_tag b r; step b t m r1.

Lemma iter_reads {M} pos (step : bytes -> N -> M -> reader -> pres M) m m' tb w t bs :
  varint tb w -> t = w mod two32 ->
  reads_at (pos + blen tb) (fun b => step b t m) bs m' ->
  reads_at pos (iter step m) (tb ++ bs) m'.
Proof.
  intros Hv Ht H. unfold iter.
  apply (reads_at_bind pos next_tag (fun t b => step b t m) tb bs t m').
  - unfold next_tag. rewrite Ht. apply read_varint32_reads. exact Hv.
  - exact H.
Qed.

Inductive steps {M} (step : bytes -> N -> M -> reader -> pres M) : N -> M -> bytes -> M -> Prop :=
| steps_nil : forall pos m, steps step pos m [] m
| steps_cons : forall pos m a m1 b m2,
    a <> [] -> reads_at pos (iter step m) a m1 -> steps step (pos + blen a) m1 b m2 ->
    steps step pos m (a ++ b) m2.

Lemma msg_loop_steps {M} (step : bytes -> N -> M -> reader -> pres M) pos m bs m' :
  steps step pos m bs m' -> forall pre post fuel,
  blen pre = pos -> blen (pre ++ bs ++ post) < two64 -> (length bs <= fuel)%nat ->
  msg_loop (pre ++ bs ++ post) fuel (step (pre ++ bs ++ post)) (Reader pos (pos + blen bs)) m
  = Ok (Reader (pos + blen bs) (pos + blen bs), m').
Proof.
  induction 1 as [pos m | pos m a m1 b m2 Ha Hr Hs IH]; intros pre post fuel Hp Hl Hf.
  - rewrite blen_nil, N.add_0_r. destruct fuel; cbn [msg_loop]; unfold is_eof; cbn [r_start r_end];
      rewrite N.eqb_refl; reflexivity.
  - assert (Hla : (1 <= length a)%nat) by (destruct a; [congruence | cbn [length]; lia]).
    destruct fuel as [|fuel]; [rewrite app_length in Hf; lia|].
    cbn [msg_loop]. unfold is_eof. cbn [r_start r_end].
    destruct (N.eqb_spec pos (pos + blen (a ++ b))) as [E|_];
      [rewrite blen_app in E; unfold blen in E; lia|].
    replace (pre ++ (a ++ b) ++ post) with (pre ++ a ++ (b ++ post)) in * by app_assoc.
    pose proof (Hr pre (b ++ post) (pos + blen (a ++ b)) Hp Hl) as Hi.
    unfold iter in Hi.
    destruct (next_tag (pre ++ a ++ b ++ post) (Reader pos (pos + blen (a ++ b)))) as [[r1 t]| | |];
      cbn [bind] in Hi |- *; try discriminate.
    rewrite Hi. cbn [bind].
    replace (pre ++ a ++ b ++ post) with ((pre ++ a) ++ b ++ post) in * by app_assoc.
    rewrite blen_app. rewrite N.add_assoc.
    apply IH.
    + rewrite blen_app. lia.
    + exact Hl.
    + rewrite app_length in Hf. lia.
Qed.

Lemma from_reader_steps {M} (step : bytes -> N -> M -> reader -> pres M) pos m bs m' pre post :
  steps step pos m bs m' ->
  blen pre = pos -> blen (pre ++ bs ++ post) < two64 ->
  from_reader (pre ++ bs ++ post) (step (pre ++ bs ++ post)) m (Reader pos (pos + blen bs))
  = Ok (Reader (pos + blen bs) (pos + blen bs), m').
Proof.
  intros Hs Hp Hl. unfold from_reader. apply msg_loop_steps; auto.
  rewrite !app_length. lia.
Qed.

Lemma read_message_reads {M} pos dbg (step : bytes -> N -> M -> reader -> pres M) m0 m lb w x :
  varint lb w -> blen x = w mod two32 ->
  steps step (pos + blen lb) m0 x m ->
  reads_at pos (fun b => read_message dbg b (step b) m0) (lb ++ x) m.
Proof.
  intros Hv Hs Hx pre post e Hp Hl. unfold read_message, read_len_varint.
  replace (pre ++ (lb ++ x) ++ post) with (pre ++ lb ++ (x ++ post)) in * by app_assoc.
  rewrite (read_varint32_reads pos lb w Hv pre (x ++ post) e Hp Hl). cbn [bind].
  rewrite <- Hs. cbn [r_start r_end].
  assert (Hlt : pos + blen lb + blen x < two64) by (rewrite !blen_app in Hl; lia).
  rewrite add64_ok by exact Hlt. cbn [bind r_start r_end].
  replace (pre ++ lb ++ x ++ post) with ((pre ++ lb) ++ x ++ post) in * by app_assoc.
  rewrite (from_reader_steps step (pos + blen lb) m0 x m (pre ++ lb) post Hx);
    [|rewrite blen_app; lia | exact Hl].
  cbn [bind]. rewrite blen_app. f_equal. f_equal. f_equal. lia.
Qed.

(** ** Unknown fields are skipped *)
Lemma unknown_reads {M} pos dbg (m : M) v num bs :
  lax_payload two64 v bs -> reads_at pos (fun b => unknown dbg b (num * 8 + wire_type v) m) bs m.
Proof.
  intros Hp pre post e Hpos Hl. unfold unknown, read_unknown.
  replace ((num * 8 + wire_type v) mod 8) with (wire_type v)
    by (symmetry; rewrite N.add_comm, N.mod_add by lia; apply N.mod_small; destruct v; cbn; lia).
  destruct v as [n|x|x|x]; cbn [wire_type]; cbn [lax_payload] in Hp.
  - destruct Hp as (w & Hv & Hn).
    rewrite (read_varint64_reads pos bs w Hv pre post e Hpos Hl). reflexivity.
  - destruct Hp as [-> H8]. cbn [r_start r_end].
    rewrite add64_ok by (rewrite !blen_app in Hl; unfold blen in *; lia). cbn [bind].
    f_equal. f_equal. f_equal. unfold blen. lia.
  - destruct Hp as (lb & w & Hv & Hw & ->).
    replace (pre ++ (lb ++ x) ++ post) with (pre ++ lb ++ (x ++ post)) in * by app_assoc.
    rewrite (read_varint64_reads pos lb w Hv pre (x ++ post) e Hpos Hl). cbn [bind r_start r_end].
    assert (Hlt : pos + blen lb + blen x < two64) by (rewrite !blen_app in Hl; lia).
    rewrite <- Hw.
    rewrite add64_ok by exact Hlt. cbn [bind].
    f_equal. f_equal. f_equal. rewrite blen_app. lia.
  - destruct Hp as [-> H4]. cbn [r_start r_end].
    rewrite add64_ok by (rewrite !blen_app in Hl; unfold blen in *; lia). cbn [bind].
    f_equal. f_equal. f_equal. unfold blen. lia.
Qed.

Lemma varint_nonempty bs v : varint bs v -> bs <> [].
Proof. intros [H _] ->. apply is_varint_pos in H. cbn [length] in H. lia. Qed.
