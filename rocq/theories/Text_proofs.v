(** * Text_proofs: the validity check of [str::from_utf8] accepts exactly text. *)
From Coq Require Import ZifyBool.
From Verif Require Import Base Tac Utf8 SpecText.

Lemma eb n : n < 256 -> b2n (n2b n) = n.
Proof. intros H. rewrite b2n_n2b. apply N.mod_small, H. Qed.
Lemma inr_true lo hi n : Utf8.inr lo hi n = true <-> lo <= n <= hi.
Proof. unfold Utf8.inr. lia. Qed.
Lemma inr_false lo hi n : Utf8.inr lo hi n = false <-> n < lo \/ hi < n.
Proof. unfold Utf8.inr. lia. Qed.

(** a decoded code point from its parts *)
Lemma parts2 a b : b < 64 -> (64 * a + b) / 64 = a /\ (64 * a + b) mod 64 = b.
Proof.
  intros H. split.
  - symmetry. apply (N.div_unique _ 64 a b); lia.
  - symmetry. apply (N.mod_unique _ 64 a b); lia.
Qed.
Lemma parts3 a b c : b < 64 -> c < 64 -> let n := 64 * (64 * a + b) + c in
  n / 4096 = a /\ n / 64 mod 64 = b /\ n mod 64 = c.
Proof.
  intros H1 H2 n. destruct (parts2 (64 * a + b) c H2) as [E1 E2]. fold n in E1, E2. destruct (parts2 a b H1) as [E3 E4].
  change 4096 with (64 * 64). rewrite <- N.div_div by lia. rewrite E1, E3, E4, E2. auto.
Qed.
Lemma parts4 a b c d : b < 64 -> c < 64 -> d < 64 -> let n := 64 * (64 * (64 * a + b) + c) + d in
  n / 262144 = a /\ n / 4096 mod 64 = b /\ n / 64 mod 64 = c /\ n mod 64 = d.
Proof.
  intros H1 H2 H3 n. destruct (parts2 (64 * (64 * a + b) + c) d H3) as [E1 E2]. fold n in E1, E2.
  destruct (parts3 a b c H1 H2) as (E3 & E4 & E5).
  change 262144 with (64 * 4096). rewrite <- N.div_div by lia. rewrite E1, E3.
  change 4096 with (64 * 64). rewrite <- N.div_div by lia. rewrite E1, E4, E5, E2. auto.
Qed.

Lemma encode_first c : scalar c -> exists x l, encode_char c = x :: l /\ cont x = false.
Proof.
  intros H. unfold encode_char, scalar, cont in *.
  destruct (N.ltb_spec c 128); [|destruct (N.ltb_spec c 2048); [|destruct (N.ltb_spec c 65536)]];
    eexists _, _; (split; [reflexivity|]); rewrite inr_false, eb.
  1,2: lia.
  - assert (c / 64 < 32) by (apply N.div_lt_upper_bound; lia). lia.
  - assert (c / 64 < 32) by (apply N.div_lt_upper_bound; lia). lia.
  - assert (c / 4096 < 16) by (apply N.div_lt_upper_bound; lia). lia.
  - assert (c / 4096 < 16) by (apply N.div_lt_upper_bound; lia). lia.
  - assert (c / 262144 < 5) by (apply N.div_lt_upper_bound; lia). lia.
  - assert (c / 262144 < 5) by (apply N.div_lt_upper_bound; lia). lia.
Qed.

Lemma cont_bits n : n < 64 -> cont (n2b (128 + n)) = true.
Proof. intros H. unfold cont. rewrite eb by lia. apply inr_true. lia. Qed.

Ltac ifs := repeat match goal with
  | |- context [if ?b then _ else _] => first [replace b with true by (symmetry; unfold Utf8.inr; lia) | replace b with false by (symmetry; unfold Utf8.inr; lia)]
  end.

Lemma valid_encode c l : scalar c -> utf8_valid (encode_char c ++ l) = utf8_valid l.
Proof.
  intros H. unfold encode_char, scalar in *.
  assert (M : c mod 64 < 64) by (apply N.mod_lt; lia).
  assert (D : c = 64 * (c / 64) + c mod 64) by (apply N.div_mod; lia).
  destruct (N.ltb_spec c 128); [|destruct (N.ltb_spec c 2048); [|destruct (N.ltb_spec c 65536)]]; cbn [app utf8_valid].
  - rewrite eb by lia. ifs. reflexivity.
  - set (q := c / 64) in *. set (r := c mod 64) in *. clearbody q r. rewrite (eb (192 + q)) by lia. rewrite (cont_bits r M).
    replace (192 + q <=? 127) with false by lia. replace (Utf8.inr 194 223 (192 + q)) with true by (unfold Utf8.inr; lia). reflexivity.
  - change 4096 with (64 * 64). rewrite <- N.div_div by lia. set (r := c mod 64) in *. set (q := c / 64) in *.
    assert (M2 : q mod 64 < 64) by (apply N.mod_lt; lia).
    assert (D2 : q = 64 * (q / 64) + q mod 64) by (apply N.div_mod; lia).
    clearbody q r. set (s := q / 64) in *. set (t := q mod 64) in *. clearbody s t. subst q.
    rewrite (eb (224 + s)), (eb (128 + t)) by lia. rewrite (cont_bits r M), (cont_bits t M2). cbn [andb].
    replace (224 + s <=? 127) with false by lia. replace (Utf8.inr 194 223 (224 + s)) with false by (unfold Utf8.inr; lia).
    destruct (N.eqb_spec (224 + s) 224).
    + replace (Utf8.inr 160 191 (128 + t)) with true by (unfold Utf8.inr; lia). reflexivity.
    + destruct (N.eqb_spec (224 + s) 237).
      * replace (Utf8.inr 225 236 (224 + s) || Utf8.inr 238 239 (224 + s)) with false by (unfold Utf8.inr; lia).
        replace (Utf8.inr 128 159 (128 + t)) with true by (unfold Utf8.inr; lia). reflexivity.
      * replace (Utf8.inr 225 236 (224 + s) || Utf8.inr 238 239 (224 + s)) with true by (unfold Utf8.inr; lia). reflexivity.
  - change 262144 with (64 * (64 * 64)). change 4096 with (64 * 64). rewrite <- !N.div_div by lia. set (r := c mod 64) in *. set (q := c / 64) in *.
    assert (M2 : q mod 64 < 64) by (apply N.mod_lt; lia).
    assert (D2 : q = 64 * (q / 64) + q mod 64) by (apply N.div_mod; lia).
    clearbody q r. set (s := q / 64) in *. set (t := q mod 64) in *.
    assert (M3 : s mod 64 < 64) by (apply N.mod_lt; lia).
    assert (D3 : s = 64 * (s / 64) + s mod 64) by (apply N.div_mod; lia).
    clearbody s t. set (u := s / 64) in *. set (v := s mod 64) in *. clearbody u v. subst s q.
    rewrite (eb (240 + u)), (eb (128 + v)) by lia. rewrite (cont_bits r M), (cont_bits t M2), (cont_bits v M3). cbn [andb].
    replace (240 + u <=? 127) with false by lia. replace (Utf8.inr 194 223 (240 + u)) with false by (unfold Utf8.inr; lia).
    replace (240 + u =? 224) with false by lia. replace (240 + u =? 237) with false by lia.
    replace (Utf8.inr 225 236 (240 + u) || Utf8.inr 238 239 (240 + u)) with false by (unfold Utf8.inr; lia).
    destruct (N.eqb_spec (240 + u) 240).
    + replace (Utf8.inr 144 191 (128 + v)) with true by (unfold Utf8.inr; lia). reflexivity.
    + destruct (N.eqb_spec (240 + u) 244).
      * replace (Utf8.inr 241 243 (240 + u)) with false by (unfold Utf8.inr; lia).
        replace (Utf8.inr 128 143 (128 + v)) with true by (unfold Utf8.inr; lia). reflexivity.
      * replace (Utf8.inr 241 243 (240 + u)) with true by (unfold Utf8.inr; lia). reflexivity.
Qed.

Lemma n2b_eq x n : b2n x = n -> n2b n = x.
Proof. intros <-. apply n2b_b2n. Qed.
Lemma cont_range x : cont x = true -> 128 <= b2n x < 192.
Proof. unfold cont. rewrite inr_true. lia. Qed.

Lemma valid_first l : l <> [] -> utf8_valid l = true -> exists c l', scalar c /\ l = encode_char c ++ l' /\ utf8_valid l' = true.
Proof.
  intros NE V. destruct l as [|a l1]; [contradiction|]. cbn [utf8_valid] in V. pose proof (b2n_lt a) as La.
  destruct (N.leb_spec (b2n a) 127) as [A|A].
  { exists (b2n a), l1. split; [left; lia|]. split; [|exact V]. unfold encode_char. replace (b2n a <? 128) with true by lia. rewrite n2b_b2n. reflexivity. }
  destruct l1 as [|b l2]; [discriminate|]. destruct (Utf8.inr 194 223 (b2n a)) eqn:A2.
  { apply inr_true in A2. apply andb_true_iff in V as [Cb V]. apply cont_range in Cb.
    exists (64 * (b2n a - 192) + (b2n b - 128)), l2. destruct (parts2 (b2n a - 192) (b2n b - 128)) as [E1 E2]; [lia|].
    split; [left; lia|]. split; [|exact V]. unfold encode_char. rewrite E1, E2.
    replace (_ <? 128) with false by lia. replace (_ <? 2048) with true by lia.
    rewrite (n2b_eq a), (n2b_eq b) by lia. reflexivity. }
  apply inr_false in A2. destruct l2 as [|c l3]; [discriminate|].
  assert (K3 : 224 <= b2n a <= 239 -> 128 <= b2n b < 192 -> cont c = true -> (b2n a = 224 -> 160 <= b2n b) -> (b2n a = 237 -> b2n b < 160) -> utf8_valid l3 = true ->
     exists c0 l', scalar c0 /\ a :: b :: c :: l3 = encode_char c0 ++ l' /\ utf8_valid l' = true).
  { intros Ra Rb Cc R1 R2 V'. apply cont_range in Cc. exists (64 * (64 * (b2n a - 224) + (b2n b - 128)) + (b2n c - 128)), l3.
    destruct (parts3 (b2n a - 224) (b2n b - 128) (b2n c - 128)) as (E1 & E2 & E3); [lia|lia|].
    split; [unfold scalar; lia|]. split; [|exact V']. unfold encode_char. rewrite E1, E2, E3.
    replace (_ <? 128) with false by lia. replace (_ <? 2048) with false by lia. replace (_ <? 65536) with true by lia.
    rewrite (n2b_eq a), (n2b_eq b), (n2b_eq c) by lia. reflexivity. }
  destruct (N.eqb_spec (b2n a) 224) as [A3|A3].
  { apply andb_true_iff in V as [V V3]. apply andb_true_iff in V as [V1 V2]. apply inr_true in V1. apply K3; try assumption; lia. }
  destruct (Utf8.inr 225 236 (b2n a) || Utf8.inr 238 239 (b2n a)) eqn:A4.
  { apply andb_true_iff in V as [V V3]. apply andb_true_iff in V as [V1 V2]. apply cont_range in V1. unfold Utf8.inr in A4. apply K3; try assumption; lia. }
  destruct (N.eqb_spec (b2n a) 237) as [A5|A5].
  { apply andb_true_iff in V as [V V3]. apply andb_true_iff in V as [V1 V2]. apply inr_true in V1. apply K3; try assumption; lia. }
  destruct l3 as [|d l4]; [discriminate|]. unfold Utf8.inr in A4.
  assert (K4 : 240 <= b2n a <= 244 -> 128 <= b2n b < 192 -> cont c = true -> cont d = true -> (b2n a = 240 -> 144 <= b2n b) -> (b2n a = 244 -> b2n b < 144) -> utf8_valid l4 = true ->
     exists c0 l', scalar c0 /\ a :: b :: c :: d :: l4 = encode_char c0 ++ l' /\ utf8_valid l' = true).
  { intros Ra Rb Cc Cd R1 R2 V'. apply cont_range in Cc, Cd. exists (64 * (64 * (64 * (b2n a - 240) + (b2n b - 128)) + (b2n c - 128)) + (b2n d - 128)), l4.
    destruct (parts4 (b2n a - 240) (b2n b - 128) (b2n c - 128) (b2n d - 128)) as (E1 & E2 & E3 & E4); [lia|lia|lia|].
    split; [unfold scalar; lia|]. split; [|exact V']. unfold encode_char. rewrite E1, E2, E3, E4.
    replace (_ <? 128) with false by lia. replace (_ <? 2048) with false by lia. replace (_ <? 65536) with false by lia.
    rewrite (n2b_eq a), (n2b_eq b), (n2b_eq c), (n2b_eq d) by lia. reflexivity. }
  destruct (N.eqb_spec (b2n a) 240) as [A6|A6].
  { apply andb_true_iff in V as [V V4]. apply andb_true_iff in V as [V V3]. apply andb_true_iff in V as [V1 V2]. apply inr_true in V1. apply K4; try assumption; lia. }
  destruct (Utf8.inr 241 243 (b2n a)) eqn:A7.
  { apply andb_true_iff in V as [V V4]. apply andb_true_iff in V as [V V3]. apply andb_true_iff in V as [V1 V2]. apply cont_range in V1. apply inr_true in A7. apply K4; try assumption; lia. }
  destruct (N.eqb_spec (b2n a) 244) as [A8|A8]; [|discriminate].
  apply andb_true_iff in V as [V V4]. apply andb_true_iff in V as [V V3]. apply andb_true_iff in V as [V1 V2]. apply inr_true in V1. apply K4; try assumption; lia.
Qed.

Lemma encode_len c : (1 <= length (encode_char c))%nat.
Proof. unfold encode_char. destruct (c <? 128), (c <? 2048), (c <? 65536); cbn; lia. Qed.

Theorem valid_text l : utf8_valid l = true <-> text l.
Proof.
  split.
  - remember (length l) as n eqn:Hn. assert (Hl : (length l <= n)%nat) by lia. clear Hn. revert l Hl.
    induction n as [|n IH]; intros l Hl V.
    + destruct l; [exists []; split; [constructor|reflexivity]|cbn in Hl; lia].
    + destruct l as [|a l1]; [exists []; split; [constructor|reflexivity]|].
      destruct (valid_first (a :: l1) ltac:(discriminate) V) as (c & l' & Sc & E & V').
      pose proof (encode_len c). destruct (IH l') as (cs & Hs & ->); [|exact V'|].
      { apply (f_equal (@length _)) in E. rewrite app_length in E. lia. }
      exists (c :: cs). split; [constructor; assumption|exact E].
  - intros (cs & Hs & ->). induction Hs as [|c cs Sc Hs IH]; [reflexivity|].
    change (encode_text (c :: cs)) with (encode_char c ++ encode_text cs). rewrite valid_encode by exact Sc. exact IH.
Qed.

Lemma text_app a b : text a -> text b -> text (a ++ b).
Proof. intros (cs & H & ->) (cs' & H' & ->). exists (cs ++ cs'). split; [apply Forall_app; auto|]. unfold encode_text. rewrite map_app, concat_app. reflexivity. Qed.

Lemma encode_tail_cont c x l : scalar c -> encode_char c = x :: l -> Forall (fun y => cont y = true) l.
Proof.
  intros H. unfold encode_char. assert (forall n, n mod 64 < 64) by (intros; apply N.mod_lt; lia).
  destruct (N.ltb_spec c 128); [|destruct (N.ltb_spec c 2048); [|destruct (N.ltb_spec c 65536)]]; intros [= _ <-];
    repeat constructor; apply cont_bits; auto.
Qed.

(** decoding is unique *)
Lemma encode_inj c c' l l' : scalar c -> scalar c' -> (l = [] \/ exists x r, l = x :: r /\ cont x = false) ->
  (l' = [] \/ exists x r, l' = x :: r /\ cont x = false) ->
  encode_char c ++ l = encode_char c' ++ l' -> encode_char c = encode_char c' /\ l = l'.
Proof.
  intros S S' B B'. destruct (encode_first c S) as (x & t & E & Cx). destruct (encode_first c' S') as (x' & t' & E' & Cx').
  pose proof (encode_tail_cont c x t S E) as T. pose proof (encode_tail_cont c' x' t' S' E') as T'. rewrite E, E'. cbn [app].
  intros [= <- Q]. enough (t = t' /\ l = l') as [-> ->] by auto. clear - B B' T T' Q. revert t' T' Q.
  induction T as [|y t Cy T IH]; intros t' T' Q.
  - destruct T' as [|y' t' Cy' T']; [auto|]. cbn in Q. subst l. destruct B as [B|(? & ? & [= <- _] & C)]; [discriminate|congruence].
  - destruct T' as [|y' t' Cy' T'].
    + cbn in Q. subst l'. destruct B' as [B'|(? & ? & [= <- _] & C)]; [discriminate|congruence].
    + injection Q as <- Q. destruct (IH t' T' Q) as [-> ->]. auto.
Qed.
Lemma decode_char c c' : scalar c -> scalar c' -> encode_char c = encode_char c' -> c = c'.
Proof.
  intros S S' E. apply (f_equal (map b2n)) in E. unfold scalar, encode_char in *.
  assert (D : c = 64 * (c / 64) + c mod 64) by (apply N.div_mod; lia).
  assert (D' : c' = 64 * (c' / 64) + c' mod 64) by (apply N.div_mod; lia).
  assert (M : forall n, n mod 64 < 64) by (intros; apply N.mod_lt; lia). pose proof (M c). pose proof (M c').
  change 262144 with (64 * (64 * 64)) in E. change 4096 with (64 * 64) in E. rewrite <- !N.div_div in E by lia.
  set (q := c / 64) in *. set (q' := c' / 64) in *. set (r := c mod 64) in *. set (r' := c' mod 64) in *.
  assert (D2 : q = 64 * (q / 64) + q mod 64) by (apply N.div_mod; lia).
  assert (D2' : q' = 64 * (q' / 64) + q' mod 64) by (apply N.div_mod; lia). pose proof (M q). pose proof (M q').
  clearbody q q' r r'. set (s := q / 64) in *. set (s' := q' / 64) in *. set (t := q mod 64) in *. set (t' := q' mod 64) in *.
  assert (D3 : s = 64 * (s / 64) + s mod 64) by (apply N.div_mod; lia).
  assert (D3' : s' = 64 * (s' / 64) + s' mod 64) by (apply N.div_mod; lia). pose proof (M s). pose proof (M s').
  clearbody s s' t t'. set (u := s / 64) in *. set (u' := s' / 64) in *. set (v := s mod 64) in *. set (v' := s' mod 64) in *. clearbody u u' v v'.
  clear M. subst s s'. subst q q'.
  destruct (N.ltb_spec c 128); [|destruct (N.ltb_spec c 2048); [|destruct (N.ltb_spec c 65536)]];
  (destruct (N.ltb_spec c' 128); [|destruct (N.ltb_spec c' 2048); [|destruct (N.ltb_spec c' 65536)]]); cbn [map] in E; try discriminate;
  rewrite ?eb in E by lia; injection E; intros; lia.
Qed.
Lemma text_start cs : Forall scalar cs -> encode_text cs = [] \/ exists x r, encode_text cs = x :: r /\ cont x = false.
Proof.
  intros H. destruct H as [|c cs S H]; [left; reflexivity|right]. destruct (encode_first c S) as (x & t & E & C).
  exists x, (t ++ encode_text cs). split; [|exact C]. change (encode_text (c :: cs)) with (encode_char c ++ encode_text cs). rewrite E. reflexivity.
Qed.
Theorem text_unique cs : forall cs', Forall scalar cs -> Forall scalar cs' -> encode_text cs = encode_text cs' -> cs = cs'.
Proof.
  intros cs' H. revert cs'. induction H as [|c cs S H IH]; intros cs' H' E.
  - destruct H' as [|c' cs' S' H']; [reflexivity|]. change (encode_text (c' :: cs')) with (encode_char c' ++ encode_text cs') in E.
    destruct (encode_first c' S') as (x & t & E' & _). rewrite E' in E. discriminate.
  - destruct H' as [|c' cs' S' H'].
    + change (encode_text (c :: cs)) with (encode_char c ++ encode_text cs) in E. destruct (encode_first c S) as (x & t & E' & _). rewrite E' in E. discriminate.
    + change (encode_text (c :: cs)) with (encode_char c ++ encode_text cs) in E. change (encode_text (c' :: cs')) with (encode_char c' ++ encode_text cs') in E.
      apply encode_inj in E as [E1 E2]; try assumption; try (apply text_start; assumption).
      rewrite (decode_char c c' S S' E1), (IH cs' H' E2). reflexivity.
Qed.

Lemma boundary_cs cs : Forall scalar cs -> forall i, is_char_boundary (encode_text cs) i = true -> (i <= length (encode_text cs))%nat /\
  exists cs1 cs2, cs = cs1 ++ cs2 /\ i = length (encode_text cs1).
Proof.
  intros H. induction H as [|c cs S H IH]; intros i B.
  - destruct i; [split; [cbn; lia|exists [], []; auto]|]. exfalso. unfold is_char_boundary in B. cbn in B. destruct i; discriminate.
  - destruct i as [|i]; [split; [lia|exists [], (c :: cs); auto]|].
    change (encode_text (c :: cs)) with (encode_char c ++ encode_text cs) in *.
    destruct (le_lt_dec (length (encode_char c)) (Datatypes.S i)) as [L|L].
    + destruct (IH (Datatypes.S i - length (encode_char c))%nat) as (L' & cs1 & cs2 & -> & E).
      { remember (Datatypes.S i - length (encode_char c))%nat as j eqn:Hj. destruct j as [|j]; [reflexivity|].
        cbn [is_char_boundary] in *. rewrite nth_error_app2 in B by exact L. rewrite <- Hj in B.
        destruct (nth_error (encode_text cs) (Datatypes.S j)); [exact B|]. rewrite app_length in B.
        apply Nat.eqb_eq in B. apply Nat.eqb_eq. lia. }
      rewrite app_length. split; [lia|]. exists (c :: cs1), cs2. split; [reflexivity|].
      change (encode_text (c :: cs1)) with (encode_char c ++ encode_text cs1). rewrite app_length. lia.
    + exfalso. destruct (encode_first c S) as (x & t & E & _). pose proof (encode_tail_cont c x t S E) as T. rewrite E in *.
      cbn [is_char_boundary app nth_error] in B. cbn [length] in L. rewrite nth_error_app1 in B by lia.
      destruct (nth_error t i) as [y|] eqn:Q; [|apply nth_error_None in Q; lia].
      apply nth_error_In in Q. rewrite Forall_forall in T. rewrite (T y Q) in B. discriminate.
Qed.
Theorem boundary_text s i : text s -> (is_char_boundary s i = true <-> between_chars s i).
Proof.
  intros (cs & H & ->). split.
  - intros B. destruct (boundary_cs cs H i B) as (L & cs1 & cs2 & -> & ->). split; [exact L|].
    apply Forall_app in H as [H1 H2]. unfold encode_text. rewrite map_app, concat_app.
    rewrite firstn_app, Nat.sub_diag, firstn_O, app_nil_r, firstn_all. rewrite skipn_app, skipn_all, Nat.sub_diag. cbn [app skipn].
    split; [exists cs1|exists cs2]; auto.
  - intros (L & T1 & (cs2 & H2 & E2)). destruct i as [|i]; [reflexivity|]. cbn [is_char_boundary].
    set (s := encode_text cs) in *. assert (E : s = firstn (Datatypes.S i) s ++ encode_text cs2) by (rewrite <- E2; symmetry; apply firstn_skipn).
    assert (Lf : length (firstn (Datatypes.S i) s) = Datatypes.S i) by (rewrite firstn_length; lia).
    destruct (text_start cs2 H2) as [Z|(x & r & Z & C)].
    + rewrite Z, app_nil_r in E. destruct (nth_error s (Datatypes.S i)) eqn:Q.
      * assert (nth_error s (Datatypes.S i) <> None) as Q' by congruence. apply nth_error_Some in Q'. apply (f_equal (@length _)) in E. lia.
      * apply Nat.eqb_eq. apply (f_equal (@length _)) in E. lia.
    + rewrite E, nth_error_app2 by lia. rewrite Lf, Nat.sub_diag, Z. cbn. rewrite C. reflexivity.
Qed.
