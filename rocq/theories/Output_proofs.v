(** * Output_proofs: proofs about the text written to standard output *)
From Coq Require Import Strings.String.
From Coq Require Import Init.Byte.
From Verif Require Import Base Tac Wire Utf8 Cid Pb Dir Walk Programs AdderDebug Output SpecText Text_proofs SpecOutput.

(** ** Numerals *)

Lemma digit_char_ok d : d < 16 -> digit d = digit_char d.
Proof.
  intros L. assert (D : forallb (fun d => byte_eqb (digit d) (digit_char d)) (map N.of_nat (seq 0 16)) = true) by (vm_compute; reflexivity).
  rewrite forallb_forall in D. specialize (D d). apply byte_eqb_eq, D. apply in_map_iff. exists (N.to_nat d). rewrite N2Nat.id. split; [reflexivity|]. apply in_seq. lia.
Qed.
Lemma value_snoc base ds d : value base (ds ++ [d]) = value base ds * base + d.
Proof. unfold value. rewrite fold_left_app. reflexivity. Qed.
Lemma numeral_go_ok base : 2 <= base <= 16 -> forall fuel n acc, n < 2 ^ N.of_nat fuel -> (0 < fuel)%nat ->
  exists ds, Forall (fun d => d < base) ds /\ ds <> [] /\ (hd 0 ds = 0 -> ds = [0]) /\ value base ds = n
  /\ numeral_go fuel base n acc = map digit_char ds ++ acc.
Proof.
  intros B. induction fuel as [|fuel IH]; intros n acc L F; [lia|]. cbn [numeral_go].
  assert (M : n mod base < base) by (apply N.mod_lt; lia).
  assert (E : n = base * (n / base) + n mod base) by (apply N.div_mod; lia).
  destruct (n / base =? 0) eqn:Z.
  - apply N.eqb_eq in Z. exists [n mod base]. rewrite digit_char_ok by lia.
    split; [constructor; [exact M|constructor]|]. split; [discriminate|]. split; [cbn; congruence|]. split; [|reflexivity].
    unfold value. cbn [fold_left]. rewrite Z, N.mul_0_r in E. rewrite N.mul_0_l. symmetry. exact E.
  - apply N.eqb_neq in Z. rewrite digit_char_ok by lia.
    assert (Q : n / base < 2 ^ N.of_nat fuel).
    { rewrite Nat2N.inj_succ, N.pow_succ_r' in L. apply N.div_lt_upper_bound; [lia|]. nia. }
    assert (F' : (0 < fuel)%nat) by (destruct fuel; [change (2 ^ N.of_nat 0) with 1 in Q; clear - Q Z; set (q := n / base) in *; clearbody q; lia|lia]).
    destruct (IH (n / base) (digit_char (n mod base) :: acc) Q F') as (ds & D1 & D2 & D3 & D4 & D5). exists (ds ++ [n mod base]).
    split; [apply Forall_app; split; [exact D1|constructor; [exact M|constructor]]|]. split; [intros Z'; apply app_eq_nil in Z'; tauto|].
    split; [|split].
    + intros H. destruct ds as [|d ds]; [congruence|]. cbn [hd app] in H. specialize (D3 H). injection D3 as -> ->. exfalso. apply Z. rewrite <- D4. reflexivity.
    + rewrite value_snoc, D4, (N.mul_comm (n / base)). symmetry. exact E.
    + rewrite D5, map_app, <- app_assoc. reflexivity.
Qed.
Lemma numeral_ok base n : 2 <= base <= 16 -> numeral_of base n (numeral base n).
Proof.
  intros B. unfold numeral. destruct (numeral_go_ok base B (S (N.size_nat n)) n []) as (ds & D1 & D2 & D3 & D4 & D5); [|lia|].
  - assert (n < 2 ^ N.size n) by (apply N.size_gt). assert (N.of_nat (N.size_nat n) = N.size n) by (destruct n as [|p]; [reflexivity|]; unfold N.size_nat, N.size; clear; induction p as [p IH|p IH|]; cbn [Pos.size_nat Pos.size]; try rewrite Nat2N.inj_succ, IH; reflexivity).
    rewrite Nat2N.inj_succ, N.pow_succ_r'. rewrite H0. lia.
  - exists ds. rewrite app_nil_r in D5. auto 6.
Qed.
Lemma signed_ok z : integer_of z (signed z).
Proof.
  unfold signed. destruct (z <? 0)%Z eqn:Z.
  - apply Z.ltb_lt in Z. right. split; [exact Z|]. exists (numeral 10 (Z.abs_N z)). split; [|reflexivity].
    replace (Z.to_N (- z)) with (Z.abs_N z) by lia. apply numeral_ok. lia.
  - apply Z.ltb_ge in Z. left. split; [exact Z|]. replace (Z.to_N z) with (Z.abs_N z) by lia. apply numeral_ok. lia.
Qed.

Lemma digit_char_inj d d' : d < 16 -> d' < 16 -> digit_char d = digit_char d' -> d = d'.
Proof.
  intros L L'. assert (D : forallb (fun d => forallb (fun d' => negb (byte_eqb (digit_char d) (digit_char d')) || (d =? d')) (map N.of_nat (seq 0 16))) (map N.of_nat (seq 0 16)) = true)
    by (vm_compute; reflexivity).
  assert (R : forall d, d < 16 -> In d (map N.of_nat (seq 0 16))).
  { intros x Lx. apply in_map_iff. exists (N.to_nat x). rewrite N2Nat.id. split; [reflexivity|]. apply in_seq. lia. }
  rewrite forallb_forall in D. specialize (D d (R d L)). rewrite forallb_forall in D. specialize (D d' (R d' L')).
  intros E. rewrite E in D. destruct (d =? d') eqn:Q; [apply N.eqb_eq, Q|]. rewrite orb_false_r in D.
  assert (byte_eqb (digit_char d') (digit_char d') = true) by (apply byte_eqb_eq; reflexivity). rewrite H in D. discriminate.
Qed.
Lemma numeral_unique base n n' t : base <= 16 -> numeral_of base n t -> numeral_of base n' t -> n = n'.
Proof.
  intros B (ds & D1 & _ & _ & <- & ->) (ds' & D1' & _ & _ & <- & E). f_equal. revert ds' D1' E.
  induction ds as [|d ds IH]; intros [|d' ds'] D' E; try discriminate; [reflexivity|]. cbn [map] in E. injection E as E1 E2.
  apply Forall_cons_iff in D1 as [A1 A2], D' as [A1' A2']. f_equal; [apply digit_char_inj; [lia|lia|exact E1]|apply IH; assumption].
Qed.
(** digits and letters *)
Definition wordy (x : byte) : Prop := 48 <= b2n x <= 102.
Lemma digit_wordy d : d < 16 -> wordy (digit_char d).
Proof.
  intros L. assert (D : forallb (fun d => (48 <=? b2n (digit_char d)) && (b2n (digit_char d) <=? 102)) (map N.of_nat (seq 0 16)) = true) by (vm_compute; reflexivity).
  rewrite forallb_forall in D. specialize (D d). unfold wordy. rewrite andb_true_iff, !N.leb_le in D. apply D.
  apply in_map_iff. exists (N.to_nat d). rewrite N2Nat.id. split; [reflexivity|]. apply in_seq. lia.
Qed.
Lemma numeral_wordy base n t : base <= 16 -> numeral_of base n t -> t <> [] /\ Forall wordy t.
Proof.
  intros B (ds & D1 & D2 & _ & _ & ->). split; [destruct ds; [congruence|discriminate]|]. apply Forall_map.
  eapply Forall_impl; [|exact D1]. intros d L. apply digit_wordy. cbn in L. lia.
Qed.
Lemma integer_unique z z' t : integer_of z t -> integer_of z' t -> z = z'.
Proof.
  assert (M : forall n u, numeral_of 10 n (x2d :: u) -> False).
  { intros n u Q. apply numeral_wordy in Q as [_ Q]; [|lia]. apply Forall_cons_iff in Q as [Q _]. unfold wordy in Q. vm_compute in Q. destruct Q as [Q _]. apply Q. reflexivity. }
  intros [(L & Q)|(L & u & Q & ->)] [(L' & Q')|(L' & u' & Q' & E)].
  - pose proof (numeral_unique 10 _ _ _ ltac:(lia) Q Q'). lia.
  - subst t. destruct (M _ _ Q).
  - destruct (M _ _ Q').
  - injection E as ->. pose proof (numeral_unique 10 _ _ _ ltac:(lia) Q Q'). lia.
Qed.

(** ** Words *)

Definition no_space (w : bytes) : Prop := Forall (fun x => x <> x20) w.
Lemma wordy_no_space x : wordy x -> x <> x20.
Proof. intros W ->. unfold wordy in W. vm_compute in W. destruct W as [W _]. apply W. reflexivity. Qed.
Lemma numeral_no_space base n t : base <= 16 -> numeral_of base n t -> t <> [] /\ no_space t.
Proof. intros B Q. apply numeral_wordy in Q as [Q1 Q2]; [|exact B]. split; [exact Q1|]. eapply Forall_impl; [|exact Q2]. exact wordy_no_space. Qed.
Lemma integer_no_space z t : integer_of z t -> t <> [] /\ no_space t.
Proof.
  intros [(_ & Q)|(_ & u & Q & ->)]; apply numeral_no_space in Q as [Q1 Q2]; try lia; [auto|]. split; [discriminate|]. constructor; [discriminate|exact Q2].
Qed.
Lemma word_split w : no_space w -> forall w' r r', no_space w' -> w ++ x20 :: r = w' ++ x20 :: r' -> w = w' /\ r = r'.
Proof.
  induction 1 as [|x w N F IH]; intros [|y w'] r r' F' E; cbn [app] in E.
  - injection E as E. auto.
  - injection E as E1 E2. apply Forall_cons_iff in F' as [Q _]. congruence.
  - injection E as E1 E2. congruence.
  - injection E as E1 E2. apply Forall_cons_iff in F' as [Q F']. destruct (IH w' r r' F' E2). split; congruence.
Qed.
Lemma aligned_split n n' w w' r r' : w <> [] -> w' <> [] -> no_space w -> no_space w' ->
  repeat x20 n ++ w ++ x20 :: r = repeat x20 n' ++ w' ++ x20 :: r' -> w = w' /\ r = r'.
Proof.
  intros N N' F F'. revert n'. induction n as [|n IH]; intros [|n'] E; cbn [repeat app] in E.
  - apply word_split; assumption.
  - destruct w as [|x w]; [congruence|]. cbn [app] in E. injection E as E _. apply Forall_cons_iff in F as [Q _]. congruence.
  - destruct w' as [|x w']; [congruence|]. cbn [app] in E. injection E as E _. apply Forall_cons_iff in F' as [Q _]. congruence.
  - injection E as E. apply (IH n'), E.
Qed.

(** ** Quotes *)

(** what follows a character: never a continuation byte *)
Definition fresh (l : bytes) : Prop := l = [] \/ exists x r, l = x :: r /\ cont x = false.
Lemma shown_fresh c t r : scalar c -> shown c t -> fresh (t ++ r).
Proof.
  intros S Q. right. destruct Q; try (do 2 eexists; split; [reflexivity|vm_compute; reflexivity]).
  destruct (encode_first c S) as (x & l & -> & E). cbn [app]. eauto.
Qed.
(** a character shown as itself does not begin like an escape or a quote *)
Lemma encode_byte c x l : scalar c -> encode_char c = x :: l -> (c < 128 /\ b2n x = c) \/ (128 <= c /\ 192 <= b2n x).
Proof.
  intros S. unfold encode_char, scalar in *.
  destruct (N.ltb_spec c 128); [|destruct (N.ltb_spec c 2048); [|destruct (N.ltb_spec c 65536)]]; intros [= <- _].
  - left. rewrite eb by lia. auto.
  - right. assert (c / 64 < 32) by (apply N.div_lt_upper_bound; lia). rewrite eb by lia. lia.
  - right. assert (c / 4096 < 16) by (apply N.div_lt_upper_bound; lia). rewrite eb by lia. lia.
  - right. assert (c / 262144 < 5) by (apply N.div_lt_upper_bound; lia). rewrite eb by lia. lia.
Qed.
Lemma itself_first c x l : c <> 34 -> c <> 92 -> scalar c -> encode_char c = x :: l -> x <> x5c /\ x <> x22.
Proof.
  intros N1 N2 S E. apply encode_byte in E; [|exact S].
  split; intros ->; [change (b2n x5c) with 92 in E|change (b2n x22) with 34 in E]; lia.
Qed.

(** an escape tells its character *)
Lemma code_split t t' r r' : Forall wordy t -> Forall wordy t' -> t ++ x7d :: r = t' ++ x7d :: r' -> t = t' /\ r = r'.
Proof.
  assert (B : ~ wordy x7d) by (intros [_ W]; vm_compute in W; apply W; reflexivity).
  intros F. revert t'. induction F as [|x t W F IH]; intros [|y t'] F' E; cbn [app] in E.
  - injection E as E. auto.
  - injection E as E1 E2. apply Forall_cons_iff in F' as [Q _]. subst y. contradiction.
  - injection E as E1 E2. subst x. contradiction.
  - injection E as E1 E2. apply Forall_cons_iff in F' as [Q F']. destruct (IH t' F' E2). split; congruence.
Qed.
Lemma shown_split c c' t t' r r' : scalar c -> scalar c' -> shown c t -> shown c' t' -> fresh r -> fresh r' ->
  t ++ r = t' ++ r' -> c = c' /\ r = r'.
Proof.
  intros S S' Q Q' F F'.
  assert (It : forall c t r l, scalar c -> shown c t -> x5c :: l = t ++ r -> t <> [] /\ hd x00 t = x5c).
  { clear. intros c t r l S Q E. destruct Q; try (split; [discriminate|reflexivity]). destruct (encode_first c S) as (x & u & Ec & _). rewrite Ec in *.
    destruct (itself_first c x u H0 H1 S Ec) as [N _]. cbn [app] in E. congruence. }
  destruct Q as [c N1 N2 N3 N4| | | | | | | |c u Nc Hu].
  1:{ destruct (encode_first c S) as (x & u & Ec & _). destruct (itself_first c x u N2 N3 S Ec) as [NB _].
      destruct Q' as [c' N1' N2' N3' N4'| | | | | | | |c' u' Nc' Hu']; intros E.
      1:{ apply encode_inj in E as [E1 E2]; try assumption. split; [apply decode_char; assumption|exact E2]. }
      all: rewrite Ec in E; cbn [app] in E; injection E as E _; congruence. }
  all: destruct Q' as [c' N1' N2' N3' N4'| | | | | | | |c' u' Nc' Hu']; intros E.
  all: try (destruct (encode_first c' S') as (x' & v & Ec & _); destruct (itself_first c' x' v N2' N3' S' Ec) as [NB _]; rewrite Ec in E; cbn [app] in E; injection E as E _; congruence).
  all: try (cbn [app] in E; injection E as E; split; [reflexivity|exact E]).
  all: try (exfalso; cbn [app] in E; discriminate E).
  rewrite <- !app_assoc in E. change (ascii "\u{") with [x5c; x75; x7b] in E. change (ascii "}") with [x7d] in E. cbn [app] in E. injection E as E.
  apply numeral_wordy in Hu as Wu; [|lia]. apply numeral_wordy in Hu' as Wu'; [|lia].
  apply code_split in E as [-> ->]; [|tauto|tauto]. split; [|reflexivity]. exact (numeral_unique 16 c c' u' ltac:(lia) Hu Hu').
Qed.

Lemma fresh_quote r : fresh (x22 :: r).
Proof. right. exists x22, r. split; reflexivity. Qed.
Lemma concat_fresh cs ts r : Forall scalar cs -> Forall2 shown cs ts -> fresh (concat ts ++ x22 :: r).
Proof.
  intros S F. destruct F as [|c t cs ts Q F]; [apply fresh_quote|]. apply Forall_cons_iff in S as [S _]. cbn [concat]. rewrite <- app_assoc.
  apply (shown_fresh c t _ S Q).
Qed.
Lemma shown_no_quote c t r r' : scalar c -> shown c t -> x22 :: r <> t ++ r'.
Proof.
  intros S Q E. destruct Q as [c N1 N2 N3 N4| | | | | | | |c u Nc Hu]; try discriminate E.
  destruct (encode_first c S) as (x & u & Ec & _). destruct (itself_first c x u N2 N3 S Ec) as [_ NB]. rewrite Ec in E. cbn [app] in E. congruence.
Qed.
Lemma quoted_split s s' t t' r r' : quoted s t -> quoted s' t' -> t ++ r = t' ++ r' -> s = s' /\ r = r'.
Proof.
  intros (cs & ts & S & -> & F & ->) (cs' & ts' & S' & -> & F' & ->) E. cbn [app] in E. injection E as E. rewrite <- !app_assoc in E. cbn [app] in E.
  enough (cs = cs' /\ r = r') as [-> ->] by auto. revert cs' ts' S' F' E. induction F as [|c t cs ts Q F IH]; intros cs' ts' S' F' E.
  - destruct F' as [|c' t' cs' ts' Q' F']; [injection E as E; auto|]. apply Forall_cons_iff in S' as [S' _]. cbn [concat app] in E. rewrite <- app_assoc in E.
    destruct (shown_no_quote c' t' _ _ S' Q' E).
  - apply Forall_cons_iff in S as [Sc S]. cbn [concat] in E. rewrite <- app_assoc in E. destruct F' as [|c' t' cs' ts' Q' F'].
    + cbn [concat app] in E. symmetry in E. destruct (shown_no_quote c t _ _ Sc Q E).
    + apply Forall_cons_iff in S' as [Sc' S']. cbn [concat] in E. rewrite <- app_assoc in E.
      destruct (shown_split c c' t t' _ _ Sc Sc' Q Q' (concat_fresh cs ts _ S F) (concat_fresh cs' ts' _ S' F') E) as [-> E2].
      destruct (IH S cs' ts' S' F' E2) as [-> ->]. auto.
Qed.

(** ** Lines *)

Lemma columns_split k k' mode mode' sec sec' size size' path path' t t' r r' :
  size <> [] -> no_space size -> size' <> [] -> no_space size' ->
  columns k mode sec size path t -> columns k' mode' sec' size' path' t' -> t ++ r = t' ++ r' ->
  k = k' /\ mode = mode' /\ sec = sec' /\ size = size' /\ path = path' /\ r = r'.
Proof.
  intros Z1 Z2 Z1' Z2' (m & s & a & z & q & Hm & Hs & Ha & Hz & Hq & ->) (m' & s' & a' & z' & q' & Hm' & Hs' & Ha' & Hz' & Hq' & ->) E.
  unfold aligned in *. subst a a' z z'. cbn [app] in E. injection E as Ek E. repeat (rewrite <- app_assoc in E; cbn [app] in E).
  apply word_split in E as [<- E]; [|apply (numeral_no_space 8 mode m ltac:(lia) Hm)|apply (numeral_no_space 8 mode' m' ltac:(lia) Hm')].
  destruct (integer_no_space _ _ Hs) as [A1 A2], (integer_no_space _ _ Hs') as [A1' A2'].
  apply aligned_split in E as [<- E]; try assumption. apply aligned_split in E as [<- E]; try assumption.
  destruct (quoted_split _ _ _ _ _ _ Hq Hq' E) as [<- <-].
  split; [exact Ek|]. split; [exact (numeral_unique 8 _ _ _ ltac:(lia) Hm Hm')|]. split; [exact (integer_unique _ _ _ Hs Hs')|]. auto.
Qed.
Lemma dash_word : ascii "-" <> [] /\ no_space (ascii "-").
Proof. split; [discriminate|]. repeat constructor; discriminate. Qed.
Lemma columns_kind k mode sec size path t : columns k mode sec size path t -> exists u, t = k :: u.
Proof. intros (m & s & a & z & q & _ & _ & _ & _ & _ & ->). eauto. Qed.
Lemma line_unique l l' t : line_text l t -> line_text l' t -> l = l'.
Proof.
  destruct dash_word as [D1 D2]. intros Q Q'. destruct Q as [mode sec size path z t Hz C|mode sec path t C|mode sec path target t q C Hq].
  - destruct (numeral_no_space 10 size z ltac:(lia) Hz) as [A1 A2].
    destruct (columns_kind _ _ _ _ _ _ C) as (u & Eu). inversion Q' as [mode' sec' size' path' z' t' Hz' C'|mode' sec' path' t' C'|mode' sec' path' target' t' q' C' Hq']; subst l'.
    + destruct (numeral_no_space 10 size' z' ltac:(lia) Hz') as [A1' A2'].
      destruct (columns_split _ _ _ _ _ _ _ _ _ _ t t [] [] A1 A2 A1' A2' C C' eq_refl) as (_ & <- & <- & <- & <- & _).
      rewrite (numeral_unique 10 size size' z ltac:(lia) Hz Hz'). reflexivity.
    + destruct (columns_kind _ _ _ _ _ _ C') as (u' & Eu'). congruence.
    + destruct (columns_kind _ _ _ _ _ _ C') as (u' & Eu'). subst t'. cbn [app] in *. congruence.
  - destruct (columns_kind _ _ _ _ _ _ C) as (u & Eu). inversion Q' as [mode' sec' size' path' z' t' Hz' C'|mode' sec' path' t' C'|mode' sec' path' target' t' q' C' Hq']; subst l'.
    + destruct (columns_kind _ _ _ _ _ _ C') as (u' & Eu'). congruence.
    + destruct (columns_split _ _ _ _ _ _ _ _ _ _ t t [] [] D1 D2 D1 D2 C C' eq_refl) as (_ & <- & <- & _ & <- & _). reflexivity.
    + destruct (columns_kind _ _ _ _ _ _ C') as (u' & Eu'). subst t'. cbn [app] in *. congruence.
  - destruct (columns_kind _ _ _ _ _ _ C) as (u & Eu). inversion Q' as [mode' sec' size' path' z' t' Hz' C' E'|mode' sec' path' t' C' E'|mode' sec' path' target' t' q' C' Hq' E' E2]; subst l'.
    + destruct (columns_kind _ _ _ _ _ _ C') as (u' & Eu'). subst t. cbn [app] in *. congruence.
    + destruct (columns_kind _ _ _ _ _ _ C') as (u' & Eu'). subst t. cbn [app] in *. congruence.
    + destruct (columns_split _ _ _ _ _ _ _ _ _ _ t t' (ascii " -> " ++ q) (ascii " -> " ++ q') D1 D2 D1 D2 C C' (eq_sym E2)) as (_ & <- & <- & _ & <- & E3).
      apply app_inv_head in E3. subst q'. destruct (quoted_split _ _ q q [] [] Hq Hq' eq_refl) as [<- _]. reflexivity.
Qed.

Ltac visibly := repeat constructor; vm_compute; congruence.
Lemma wordy_visible x : wordy x -> visible x.
Proof. unfold wordy, visible. lia. Qed.
Lemma numeral_visible base n t : base <= 16 -> numeral_of base n t -> Forall visible t.
Proof. intros B Q. apply numeral_wordy in Q as [_ Q]; [|exact B]. eapply Forall_impl; [|exact Q]. exact wordy_visible. Qed.
Lemma shown_visible c t : scalar c -> shown c t -> Forall visible t.
Proof.
  intros S Q. destruct Q as [c N1 N2 N3 N4| | | | | | | |c u Nc Hu]; try visibly.
  - destruct (encode_first c S) as (x & l & E & _). pose proof (encode_tail_cont c x l S E) as T. rewrite E. constructor.
    + apply encode_byte in E; [|exact S]. unfold visible. lia.
    + eapply Forall_impl; [|exact T]. intros y Y. apply cont_range in Y. unfold visible. lia.
  - apply Forall_app. split; [visibly|]. apply Forall_app. split; [exact (numeral_visible 16 c u ltac:(lia) Hu)|visibly].
Qed.
Lemma quoted_visible s t : quoted s t -> Forall visible t.
Proof.
  intros (cs & ts & S & _ & F & ->). apply Forall_app. split; [visibly|]. apply Forall_app. split; [|visibly].
  apply Forall_concat. induction F as [|c t cs ts Q F IH]; [constructor|]. apply Forall_cons_iff in S as [S1 S2]. constructor; [exact (shown_visible c t S1 Q)|auto].
Qed.
Lemma integer_visible z t : integer_of z t -> Forall visible t.
Proof. intros [(_ & Q)|(_ & u & Q & ->)]; [|constructor; [vm_compute; split; congruence|]]; exact (numeral_visible 10 _ _ ltac:(lia) Q). Qed.
Lemma spaces_visible n : Forall visible (repeat x20 n).
Proof. apply Forall_forall. intros x I. apply repeat_spec in I. subst x. vm_compute. split; congruence. Qed.
Lemma columns_visible k mode sec size path t : visible k -> Forall visible size -> columns k mode sec size path t -> Forall visible t.
Proof.
  intros K Z (m & s & a & z & q & Hm & Hs & -> & -> & Hq & ->).
  assert (Sp : visible x20) by (vm_compute; split; congruence).
  constructor; [exact K|]. constructor; [exact Sp|]. apply Forall_app. split; [exact (numeral_visible 8 _ _ ltac:(lia) Hm)|]. constructor; [exact Sp|].
  apply Forall_app. split; [apply Forall_app; split; [apply spaces_visible|exact (integer_visible _ _ Hs)]|]. constructor; [exact Sp|].
  apply Forall_app. split; [apply Forall_app; split; [apply spaces_visible|exact Z]|]. constructor; [exact Sp|]. exact (quoted_visible _ _ Hq).
Qed.
Lemma line_visible l t : line_text l t -> Forall visible t.
Proof.
  intros Q. destruct Q as [mode sec size path z t Hz C|mode sec path t C|mode sec path target t q C Hq].
  - eapply columns_visible; [|exact (numeral_visible 10 _ _ ltac:(lia) Hz)|exact C]. vm_compute; split; congruence.
  - eapply columns_visible; [| |exact C]; visibly.
  - apply Forall_app. split; [eapply columns_visible; [| |exact C]; visibly|]. apply Forall_app. split; [visibly|exact (quoted_visible _ _ Hq)].
Qed.

Lemma newline_split w : Forall visible w -> forall w' r r', Forall visible w' -> w ++ x0a :: r = w' ++ x0a :: r' -> w = w' /\ r = r'.
Proof.
  assert (N : ~ visible x0a) by (intros [Q _]; vm_compute in Q; apply Q; reflexivity).
  induction 1 as [|x w V F IH]; intros [|y w'] r r' F' E; cbn [app] in E.
  - injection E as E. auto.
  - injection E as E1 E2. apply Forall_cons_iff in F' as [Q _]. subst y. contradiction.
  - injection E as E1 E2. subst x. contradiction.
  - injection E as E1 E2. apply Forall_cons_iff in F' as [Q F']. destruct (IH w' r r' F' E2). split; congruence.
Qed.
Lemma output_unique ls ls' out : output_text ls out -> output_text ls' out -> ls = ls'.
Proof.
  intros (ts & F & ->) (ts' & F' & E). revert ls' ts' F' E. induction F as [|l t ls ts Q F IH]; intros ls' ts' F' E.
  - destruct F' as [|l' t' ls' ts' Q' F']; [reflexivity|]. unfold lines_text in E. cbn [map concat] in E. rewrite <- app_assoc in E. destruct t'; discriminate E.
  - unfold lines_text in E. cbn [map concat] in E. rewrite <- app_assoc in E. destruct F' as [|l' t' ls' ts' Q' F']; [destruct t; discriminate E|].
    cbn [map concat] in E. rewrite <- app_assoc in E. cbn [app] in E.
    apply newline_split in E as [<- E]; [|exact (line_visible _ _ Q)|exact (line_visible _ _ Q')].
    rewrite (line_unique l l' t Q Q'), (IH ls' ts' F' E). reflexivity.
Qed.

(** ** The model prints that *)

Lemma char_code_ok c : scalar c -> char_code (encode_char c) = c.
Proof.
  intros S. unfold scalar in S. assert (M : forall n, n mod 64 < 64) by (intros; apply N.mod_lt; lia).
  assert (D : c = 64 * (c / 64) + c mod 64) by (apply N.div_mod; lia).
  unfold encode_char. destruct (N.ltb_spec c 128); [|destruct (N.ltb_spec c 2048); [|destruct (N.ltb_spec c 65536)]]; cbn [char_code fold_left].
  - rewrite eb by lia. destruct (N.ltb_spec c 128); [reflexivity|lia].
  - assert (c / 64 < 32) by (apply N.div_lt_upper_bound; lia). pose proof (M c). rewrite !eb by lia.
    destruct (N.ltb_spec (192 + c / 64) 128); [lia|]. destruct (N.ltb_spec (192 + c / 64) 224); [|lia]. lia.
  - pose proof (M c). pose proof (M (c / 64)). assert (D2 : c / 64 = 64 * (c / 64 / 64) + (c / 64) mod 64) by (apply N.div_mod; lia).
    assert (E4 : c / 4096 = c / 64 / 64) by (change 4096 with (64 * 64); rewrite N.div_div by lia; reflexivity). rewrite E4.
    assert (c / 64 / 64 < 16) by (rewrite <- E4; apply N.div_lt_upper_bound; lia). rewrite !eb by lia.
    destruct (N.ltb_spec (224 + c / 64 / 64) 128); [lia|]. destruct (N.ltb_spec (224 + c / 64 / 64) 224); [lia|]. destruct (N.ltb_spec (224 + c / 64 / 64) 240); [|lia]. lia.
  - pose proof (M c). pose proof (M (c / 64)). pose proof (M (c / 64 / 64)).
    assert (D2 : c / 64 = 64 * (c / 64 / 64) + (c / 64) mod 64) by (apply N.div_mod; lia).
    assert (D3 : c / 64 / 64 = 64 * (c / 64 / 64 / 64) + (c / 64 / 64) mod 64) by (apply N.div_mod; lia).
    assert (E4 : c / 4096 = c / 64 / 64) by (change 4096 with (64 * 64); rewrite N.div_div by lia; reflexivity).
    assert (E5 : c / 262144 = c / 64 / 64 / 64) by (change 262144 with (64 * 64 * 64); rewrite !N.div_div by lia; reflexivity). rewrite E4, E5.
    assert (c / 64 / 64 / 64 < 5) by (rewrite <- E5; apply N.div_lt_upper_bound; lia). rewrite !eb by lia.
    set (q := c / 64 / 64 / 64) in *. destruct (N.ltb_spec (240 + q) 128); [lia|]. destruct (N.ltb_spec (240 + q) 224); [lia|]. destruct (N.ltb_spec (240 + q) 240); [lia|]. lia.
Qed.
Lemma char_len_ok c x l : scalar c -> encode_char c = x :: l -> char_len x = length (encode_char c).
Proof.
  intros S. unfold char_len, encode_char, scalar in *.
  destruct (N.ltb_spec c 128); [|destruct (N.ltb_spec c 2048); [|destruct (N.ltb_spec c 65536)]]; intros [= <- _]; cbn [length].
  - rewrite eb by lia. destruct (N.ltb_spec c 128); [reflexivity|lia].
  - assert (c / 64 < 32) by (apply N.div_lt_upper_bound; lia). rewrite eb by lia. repeat match goal with |- context [?a <? ?b] => destruct (N.ltb_spec a b); try lia end; reflexivity.
  - assert (c / 4096 < 16) by (apply N.div_lt_upper_bound; lia). rewrite eb by lia. repeat match goal with |- context [?a <? ?b] => destruct (N.ltb_spec a b); try lia end; reflexivity.
  - assert (c / 262144 < 5) by (apply N.div_lt_upper_bound; lia). rewrite eb by lia. repeat match goal with |- context [?a <? ?b] => destruct (N.ltb_spec a b); try lia end; reflexivity.
Qed.

Section printing.
Context (plain : N -> bool) (Hp : forall c, plain c = true -> 32 <= c /\ c <> 127).

Lemma escape_ok c : scalar c -> shown c (escape plain (encode_char c)).
Proof.
  intros S. unfold escape. rewrite char_code_ok by exact S.
  destruct (N.eqb_spec c 0) as [->|N0]; [exact shown_nul|]. destruct (N.eqb_spec c 9) as [->|N9]; [exact shown_tab|].
  destruct (N.eqb_spec c 10) as [->|N10]; [exact shown_newline|]. destruct (N.eqb_spec c 13) as [->|N13]; [exact shown_return|].
  destruct (N.eqb_spec c 34) as [->|N34]; [exact shown_quote|]. destruct (N.eqb_spec c 92) as [->|N92]; [exact shown_backslash|].
  destruct (plain c) eqn:P; [apply Hp in P as [P1 P2]; apply shown_itself; assumption|].
  destruct (N.eqb_spec c 39) as [->|N39]; [exact shown_apostrophe|]. apply shown_code; [cbn; intuition congruence|]. apply numeral_ok. lia.
Qed.
Lemma escapes_ok cs : Forall scalar cs -> forall fuel, (length (encode_text cs) <= fuel)%nat ->
  exists ts, Forall2 shown cs ts /\ escapes fuel plain (encode_text cs) = concat ts.
Proof.
  induction 1 as [|c cs S F IH]; intros fuel L; [exists []; split; [constructor|destruct fuel; reflexivity]|].
  change (encode_text (c :: cs)) with (encode_char c ++ encode_text cs) in *.
  destruct (encode_first c S) as (x & l & E & _). pose proof (char_len_ok c x l S E) as Lx.
  assert (Hx : exists t, encode_char c ++ encode_text cs = x :: t) by (rewrite E; eexists; reflexivity). destruct Hx as (t & Et).
  destruct fuel as [|fuel]; [rewrite Et in L; cbn in L; lia|].
  assert (G : escapes (Datatypes.S fuel) plain (encode_char c ++ encode_text cs)
    = escape plain (firstn (char_len x) (encode_char c ++ encode_text cs)) ++ escapes fuel plain (skipn (char_len x) (encode_char c ++ encode_text cs))) by (rewrite Et; reflexivity).
  rewrite G, Lx, firstn_app, skipn_app, firstn_all, skipn_all, Nat.sub_diag. cbn [firstn skipn app]. rewrite app_nil_r.
  destruct (IH fuel) as (ts & F2 & Q); [rewrite app_length in L; pose proof (encode_len c); lia|].
  exists (escape plain (encode_char c) :: ts). split; [constructor; [apply escape_ok, S|exact F2]|]. rewrite Q. reflexivity.
Qed.
Lemma debug_ok s : text s -> quoted s (debug_str plain s).
Proof.
  intros (cs & S & ->). destruct (escapes_ok cs S (length (encode_text cs)) (le_n _)) as (ts & F & E).
  exists cs, ts. unfold debug_str. rewrite E. auto.
Qed.
Definition line_is_text (l : line) : Prop :=
  match l with
  | LineFile _ _ _ path | LineDir _ _ path => text path
  | LineLink _ _ path target => text path /\ text target
  end.
Lemma columns_ok k mode sec size path : text path ->
  columns k mode sec size path (k :: x20 :: numeral 8 mode ++ lit " " ++ align_right 12 (signed sec) ++ lit " " ++ align_right 16 size ++ lit " " ++ debug_str plain path).
Proof.
  intros T. exists (numeral 8 mode), (signed sec), (align_right 12 (signed sec)), (align_right 16 size), (debug_str plain path).
  split; [apply numeral_ok; lia|]. split; [apply signed_ok|]. split; [reflexivity|]. split; [reflexivity|]. split; [apply debug_ok, T|]. reflexivity.
Qed.
Lemma line_ok l : line_is_text l -> line_text l (line_out plain l).
Proof.
  destruct l as [mode sec size path|mode sec path|mode sec path target]; cbn [line_is_text line_out]; intros T.
  - apply (file_text mode sec size path (numeral 10 size)); [apply numeral_ok; lia|]. exact (columns_ok x66 mode sec _ path T).
  - apply dir_text. exact (columns_ok x64 mode sec _ path T).
  - destruct T as [T1 T2].
    pose proof (link_text mode sec path target _ _ (columns_ok x73 mode sec (lit "-") path T1) (debug_ok target T2)) as Q.
    cbn [app] in Q. repeat (rewrite <- app_assoc in Q; cbn [app] in Q). exact Q.
Qed.
Lemma lines_ok ls : Forall line_is_text ls -> output_text ls (println (map (line_out plain) ls)).
Proof.
  intros F. exists (map (line_out plain) ls). split; [|reflexivity]. induction F as [|l ls T F IH]; [constructor|]. cbn [map]. constructor; [apply line_ok, T|exact IH].
Qed.
End printing.
