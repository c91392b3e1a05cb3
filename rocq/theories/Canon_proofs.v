(** * Canon_proofs: serialised messages are in canonical form. *)
From Verif Require Import Base Tac Wire Utf8 Cid Pb SpecWire Wire_proofs Pb_proofs Codec_proofs SpecCanon.

(** ** Varints *)

Lemma varint_value_lt bs v : is_varint bs v -> v < 128 ^ N.of_nat (length bs).
Proof.
  induction 1 as [x Hx|x bs v Hx _ IH]; cbn [length].
  - change (128 ^ N.of_nat 1) with 128. exact Hx.
  - rewrite Nat2N.inj_succ, N.pow_succ_r'. pose proof (b2n_lt x). lia.
Qed.

Lemma varint_go_min f : forall v, v < 128 ^ N.of_nat f -> (0 < f)%nat ->
  forall bs, is_varint bs v -> (length (varint_go f v) <= length bs)%nat.
Proof.
  induction f as [|f IH]; intros v Hv Hf bs Hb; [lia|].
  cbn [varint_go]. destruct (N.ltb_spec 127 v) as [Hgt|Hle].
  - inversion Hb as [x Hx E1 E2|x bs' v' Hx Hb' E1 E2]; subst; [lia|].
    cbn [length]. apply le_n_S.
    assert (E : (b2n x - 128 + 128 * v') / 128 = v').
    { pose proof (b2n_lt x). symmetry. apply N.div_unique with (b2n x - 128); lia. }
    rewrite E. rewrite Nat2N.inj_succ, N.pow_succ_r' in Hv.
    destruct f as [|f].
    + change (128 ^ N.of_nat 0) with 1 in Hv. lia.
    + apply IH; [lia | lia | exact Hb'].
  - apply is_varint_pos in Hb. exact Hb.
Qed.

Lemma two64_pow10 : two64 <= 128 ^ 10. Proof. vm_compute. congruence. Qed.

Lemma short_write v : v < two64 -> short_varint (write_varint v) v.
Proof.
  intros H. split; [apply write_varint_varint; exact H|].
  apply varint_go_min; [|lia]. pose proof two64_pow10. change (N.of_nat 10) with 10. lia.
Qed.

Lemma short_unique_aux n : forall a b v, is_varint a v -> is_varint b v -> length a = n -> length b = n -> a = b.
Proof.
  induction n as [|n IH]; intros a b v Ha Hb La Lb.
  - apply is_varint_pos in Ha. lia.
  - inversion Ha as [x Hx E1 E2|x bs v' Hx Ha' E1 E2]; subst;
    inversion Hb as [y Hy F1 F2|y bs' v'' Hy Hb' F1 F2]; subst; cbn [length] in *.
    + f_equal. apply b2n_inj. congruence.
    + apply is_varint_pos in Hb'. lia.
    + apply is_varint_pos in Ha'. lia.
    + pose proof (b2n_lt x). pose proof (b2n_lt y).
      assert (v' = v'') by lia. subst v''.
      assert (b2n x = b2n y) as E by lia. apply b2n_inj in E. subst y.
      f_equal. eapply IH; [exact Ha' | exact Hb' | lia | lia].
Qed.

Lemma short_unique a b v : short_varint a v -> short_varint b v -> a = b.
Proof.
  intros [A1 A2] [B1 B2]. eapply short_unique_aux; [exact A1 | exact B1 | reflexivity|].
  specialize (A2 _ B1). specialize (B2 _ A1). lia.
Qed.

(** ** Uniqueness *)
Lemma short_payload_unique v a b : short_payload v a -> short_payload v b -> a = b.
Proof.
  destruct v; cbn [short_payload].
  - apply short_unique.
  - intros [-> _] [-> _]. reflexivity.
  - intros (l1 & H1 & ->) (l2 & H2 & ->). f_equal. eapply short_unique; eassumption.
  - intros [-> _] [-> _]. reflexivity.
Qed.
Lemma short_field_unique f a b : short_field f a -> short_field f b -> a = b.
Proof.
  intros (t1 & p1 & H1 & H2 & ->) (t2 & p2 & H3 & H4 & ->).
  f_equal; [eapply short_unique; eassumption | eapply short_payload_unique; eassumption].
Qed.
Lemma canon_unique fs a : canon fs a -> forall b, canon fs b -> a = b.
Proof.
  induction 1 as [|f fs a1 a2 Hf Hfs IH]; intros b Hb; inversion Hb; subst; [reflexivity|].
  f_equal; [eapply short_field_unique; eassumption | apply IH; assumption].
Qed.
Lemma canon_unixfs_unique u a b : canon_unixfs u a -> canon_unixfs u b -> a = b.
Proof.
  intros (t1 & A1 & A2) (t2 & B1 & B2).
  assert (t1 = t2).
  { unfold canon_time in *. destruct (u_mtime u), t1, t2; try contradiction; try reflexivity.
    f_equal. eapply canon_unique; eassumption. }
  subst. eapply canon_unique; eassumption.
Qed.
Lemma canon_block_unique m a b : canon_block m a -> canon_block m b -> a = b.
Proof.
  intros (l1 & d1 & A1 & A2 & A3) (l2 & d2 & B1 & B2 & B3).
  assert (d1 = d2) by (eapply canon_unixfs_unique; eassumption). subst d2.
  assert (l1 = l2).
  { clear -A1 B1. revert l2 B1. induction A1 as [|l b ls bs H _ IH]; intros l2 B1; inversion B1; subst; [reflexivity|].
    f_equal; [eapply canon_unique; eassumption | apply IH; assumption]. }
  subst. eapply canon_unique; eassumption.
Qed.

(** ** The writers *)
Lemma canon_app f1 f2 b1 b2 : canon f1 b1 -> canon f2 b2 -> canon (f1 ++ f2) (b1 ++ b2).
Proof.
  induction 1 as [|f fs a b Hf Hfs IH]; intros H2; cbn [app]; [exact H2|].
  rewrite <- app_assoc. apply canon_cons; [exact Hf | apply IH; exact H2].
Qed.
Lemma canon_one f a : short_field f a -> canon [f] a.
Proof. intros H. rewrite <- (app_nil_r a). apply canon_cons; [exact H | apply canon_nil]. Qed.

Lemma short_len n x : n <= 15 -> blen x < two64 -> short_field (WField n (WLen x)) (write_with_tag (n * 8 + 2) (write_bytes x)).
Proof.
  intros Hn Hx. exists (write_varint (n * 8 + 2)), (write_bytes x). cbn [w_num w_val wire_type].
  split; [apply short_write; unfold two64; lia|]. split; [|reflexivity].
  exists (write_varint (blen x)). split; [apply short_write; exact Hx | reflexivity].
Qed.
Lemma short_var n v : n <= 15 -> v < two64 -> short_field (WField n (WVarint v)) (write_with_tag (n * 8) (write_varint v)).
Proof.
  intros Hn Hx. exists (write_varint (n * 8)), (write_varint v). cbn [w_num w_val wire_type]. rewrite N.add_0_r.
  split; [apply short_write; unfold two64; lia|]. split; [|reflexivity]. apply short_write. exact Hx.
Qed.
Lemma n2b_mod v : n2b (v mod 256) = n2b v.
Proof. apply b2n_inj. rewrite !b2n_n2b, N.mod_mod by lia. reflexivity. Qed.
Lemma short_f32 n v : n <= 15 -> short_field (WField n (WFixed32 (bytes32 v))) (write_with_tag (n * 8 + 5) (write_fixed32 v)).
Proof.
  intros Hn. exists (write_varint (n * 8 + 5)), (write_fixed32 v). cbn [w_num w_val wire_type].
  split; [apply short_write; unfold two64; lia|]. split; [|reflexivity].
  split; [|reflexivity]. unfold bytes32, write_fixed32. rewrite !n2b_mod. reflexivity.
Qed.

Lemma canon_opt {A} num (val : A -> wval) (wr : A -> bytes) o :
  (forall a, o = Some a -> short_field (WField num (val a)) (wr a)) ->
  canon (field num val o) (opt o [] wr).
Proof. intros H. destruct o; cbn [field opt]; [apply canon_one; apply H; reflexivity | apply canon_nil]. Qed.

Lemma blen_tag_bytes t x : blen x <= blen (write_with_tag t (write_bytes x)).
Proof. unfold write_with_tag, write_bytes. rewrite !blen_app. lia. Qed.

Lemma canon_link l : link_fits l -> blen (pblink_write l) < two64 -> canon (link_fields l) (pblink_write l).
Proof.
  intros [_ Ht] Hl. unfold pblink_write in Hl. rewrite !blen_app in Hl.
  unfold link_fields, pblink_write. apply canon_app; [|apply canon_app]; apply canon_opt; intros a E.
  - apply (short_len 1); [lia|]. rewrite E in Hl. cbn [opt] in Hl. pose proof (blen_tag_bytes 10 a). lia.
  - apply (short_len 2); [lia|]. rewrite E in Hl. cbn [opt] in Hl. pose proof (blen_tag_bytes 18 a). lia.
  - apply (short_var 3); [lia|]. rewrite E in Ht. exact Ht.
Qed.

Lemma as_u64_ok z : (- 2 ^ 63 <= z < 2 ^ 63)%Z -> as_u64 z = u64_of_i64 z /\ u64_of_i64 z < two64.
Proof.
  intros Hz. unfold as_u64, u64_of_i64. change (18446744073709551616)%Z with (2 ^ 64)%Z.
  pose proof (Z.mod_pos_bound z (2 ^ 64) ltac:(lia)) as B. split.
  - destruct (Z.leb_spec 0 z).
    + rewrite Z.mod_small by lia. reflexivity.
    + f_equal. apply Z.mod_unique_pos with (-1)%Z; lia.
  - unfold two64. lia.
Qed.

Lemma canon_time_write t : time_fits t -> canon (time_fields t) (unixtime_write t).
Proof.
  intros [Hs Hn]. destruct (as_u64_ok _ Hs) as [E Hb]. unfold time_fields, unixtime_write. rewrite E.
  apply (canon_app [_]).
  - apply canon_one. apply (short_var 1); [lia | exact Hb].
  - apply canon_opt. intros a _. apply (short_f32 2). lia.
Qed.

Lemma blen_le_app_l (a b : bytes) : blen a <= blen (a ++ b).
Proof. rewrite blen_app. lia. Qed.
Lemma blen_le_app_r (a b : bytes) : blen b <= blen (a ++ b).
Proof. rewrite blen_app. lia. Qed.

Lemma type_num_eq t : type_num t = ftype_num t.
Proof. destruct t; reflexivity. Qed.

Lemma canon_unixfs_write u : unixfs_fits u -> blen (unixfs_write u) < two64 -> canon_unixfs u (unixfs_write u).
Proof.
  intros (F1 & F2 & F3 & F4 & F5 & F6) Hl. unfold unixfs_write in Hl. rewrite !blen_app in Hl.
  exists (option_map unixtime_write (u_mtime u)). split.
  - unfold canon_time. destruct (u_mtime u) as [t|]; cbn; [|trivial]. apply canon_time_write. exact F6.
  - unfold unixfs_fields, unixfs_write. rewrite type_num_eq.
    apply (canon_app [_]); [|repeat apply canon_app].
    + apply canon_one. apply (short_var 1); [lia|]. destruct (u_type u); vm_compute; congruence.
    + apply canon_opt. intros a E. apply (short_len 2); [lia|]. rewrite E in Hl. cbn [opt] in Hl.
      pose proof (blen_tag_bytes 18 a). lia.
    + apply canon_opt. intros a E. apply (short_var 3); [lia|]. rewrite E in F1. exact F1.
    + clear Hl. induction F2 as [|v vs Hv _ IH]; cbn [map concat]; [apply canon_nil|].
      apply canon_cons; [apply (short_var 4); [lia | exact Hv] | exact IH].
    + apply canon_opt. intros a E. apply (short_var 5); [lia|]. rewrite E in F3. exact F3.
    + apply canon_opt. intros a E. apply (short_var 6); [lia|]. rewrite E in F4. exact F4.
    + apply canon_opt. intros a E. apply (short_var 7); [lia|]. rewrite E in F5. unfold ok_opt, two32, two64 in *. lia.
    + destruct (u_mtime u) as [t|]; cbn [option_map field opt] in *; [|apply canon_nil].
      apply canon_one. unfold write_message. rewrite unixtime_size_ok. apply (short_len 8); [lia|].
      unfold write_message in Hl. rewrite unixtime_size_ok in Hl. fold (write_bytes (unixtime_write t)) in Hl.
      pose proof (blen_tag_bytes 66 (unixtime_write t)). lia.
Qed.

Lemma canon_flat_write m : Forall link_fits (f_links m) -> unixfs_fits (f_data m) -> blen (flat_write m) < two64 ->
  canon_block m (flat_write m).
Proof.
  intros HL HU Hb. unfold flat_write, write_message in Hb.
  rewrite unixfs_size_ok in Hb. fold (write_bytes (unixfs_write (f_data m))) in Hb.
  exists (map pblink_write (f_links m)), (unixfs_write (f_data m)). rewrite blen_app in Hb.
  assert (Hd : blen (unixfs_write (f_data m)) < two64)
    by (pose proof (blen_tag_bytes 10 (unixfs_write (f_data m))); lia).
  split; [|split].
  - assert (Hb' : blen (concat (map (fun l => write_with_tag 18 (write_varint (pblink_size l) ++ pblink_write l)) (f_links m))) < two64) by lia.
    clear Hb. induction HL as [|l ls Hl _ IH]; cbn [map] in *; [constructor|].
    cbn [concat] in Hb'. rewrite blen_app in Hb'. rewrite pblink_size_ok in Hb'.
    fold (write_bytes (pblink_write l)) in Hb'. pose proof (blen_tag_bytes 18 (pblink_write l)).
    constructor; [apply canon_link; [exact Hl | lia] | apply IH; lia].
  - apply canon_unixfs_write; assumption.
  - unfold flat_write, write_message. rewrite unixfs_size_ok. fold (write_bytes (unixfs_write (f_data m))).
    apply canon_app; [|apply canon_one; apply (short_len 1); [lia | exact Hd]].
    assert (Hb' : blen (concat (map (fun l => write_with_tag 18 (write_varint (pblink_size l) ++ pblink_write l)) (f_links m))) < two64) by lia.
    clear Hb HL. induction (f_links m) as [|l ls IH]; cbn [map concat] in *; [apply canon_nil|].
    rewrite blen_app in Hb'. rewrite pblink_size_ok in *.
    fold (write_bytes (pblink_write l)) in *. pose proof (blen_tag_bytes 18 (pblink_write l)).
    apply canon_cons; [apply (short_len 2); lia | apply IH; lia].
Qed.
