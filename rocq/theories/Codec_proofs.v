From Verif Require Import Base Tac Wire Utf8 Cid Pb SpecWire Wire_proofs Pb_proofs.

(** ** C02: announced sizes *)
Lemma varint_go_full f : forall v, 128 ^ N.of_nat f <= v -> length (varint_go (S f) v) = S f.
Proof.
  induction f as [|f IH]; intros v Hv.
  - cbn [varint_go]. destruct (127 <? v); reflexivity.
  - rewrite Nat2N.inj_succ, N.pow_succ_r' in Hv. pose proof (pow_pos (N.of_nat f)).
    change (varint_go (S (S f)) v) with
      (if 127 <? v then n2b (v mod 128 + 128) :: varint_go (S f) (v / 128) else [n2b v]).
    destruct (N.ltb_spec 127 v) as [Hg|Hg]; [|lia].
    cbn [length]. f_equal. apply IH. apply N.div_le_lower_bound; lia.
Qed.

Lemma sizeof_write v : sizeof_varint v = blen (write_varint v).
Proof.
  destruct (N.lt_ge_cases v two64) as [H|H].
  - symmetry. apply write_varint_size. exact H.
  - unfold blen, write_varint. rewrite varint_go_full.
    + unfold two64 in H. unfold sizeof_varint.
      repeat match goal with |- context [?a <=? ?b] => destruct (N.leb_spec a b); [lia|] end.
      reflexivity.
    + change (128 ^ N.of_nat 9) with two63. unfold two63, two64 in *. lia.
Qed.

Lemma sizeof_len_write x : sizeof_len (blen x) = blen (write_bytes x).
Proof. unfold sizeof_len, write_bytes. rewrite blen_app, sizeof_write. reflexivity. Qed.

Lemma tag_size t bs : t <= 127 -> blen (write_with_tag t bs) = 1 + blen bs.
Proof.
  intros H. unfold write_with_tag. rewrite blen_app, <- sizeof_write.
  unfold sizeof_varint. destruct (N.leb_spec t 0x7f); lia.
Qed.

Lemma opt_size {A} (o : option A) (f : A -> N) (g : A -> bytes) :
  (forall a, f a = blen (g a)) -> opt o 0 f = blen (opt o [] g).
Proof. intros H. destruct o; cbn [opt]; [apply H | reflexivity]. Qed.

Lemma sum_size {A} (l : list A) (f : A -> N) (g : A -> bytes) :
  (forall a, f a = blen (g a)) -> sumN (map f l) = blen (concat (map g l)).
Proof.
  intros H. induction l as [|a l IH]; [reflexivity|].
  cbn [map concat]. rewrite sumN_cons, blen_app, IH, H. reflexivity.
Qed.

Lemma write_message_size sz body : sz = blen body -> sizeof_len sz = blen (write_message sz body).
Proof. intros ->. apply sizeof_len_write. Qed.

Lemma pblink_size_ok m : pblink_size m = blen (pblink_write m).
Proof.
  unfold pblink_size, pblink_write. rewrite !blen_app, N.add_assoc.
  f_equal; [f_equal|]; apply opt_size; intros a; rewrite tag_size by lia.
  - rewrite sizeof_len_write. reflexivity.
  - rewrite sizeof_len_write. reflexivity.
  - rewrite sizeof_write. reflexivity.
Qed.

Lemma link_msg_size l :
  1 + sizeof_len (pblink_size l) = blen (write_with_tag 18 (write_message (pblink_size l) (pblink_write l))).
Proof.
  rewrite tag_size by lia. f_equal. apply write_message_size. apply pblink_size_ok.
Qed.

Lemma pbnode_size_ok m : pbnode_size m = blen (pbnode_write m).
Proof.
  unfold pbnode_size, pbnode_write. rewrite blen_app. f_equal.
  - apply sum_size. exact link_msg_size.
  - apply opt_size. intros s. rewrite tag_size by lia. rewrite sizeof_len_write. reflexivity.
Qed.

Lemma unixtime_size_ok m : unixtime_size m = blen (unixtime_write m).
Proof.
  unfold unixtime_size, unixtime_write. rewrite blen_app, tag_size, sizeof_write by lia.
  f_equal. apply opt_size. intros a. rewrite tag_size by lia. reflexivity.
Qed.

Lemma unixfs_size_ok m : unixfs_size m = blen (unixfs_write m).
Proof.
  unfold unixfs_size, unixfs_write. rewrite !blen_app, !N.add_assoc.
  repeat f_equal.
  - rewrite tag_size, sizeof_write by lia. reflexivity.
  - apply opt_size; intros a; rewrite tag_size by lia. rewrite sizeof_len_write. reflexivity.
  - apply opt_size; intros a; rewrite tag_size by lia. rewrite sizeof_write. reflexivity.
  - apply sum_size; intros a; rewrite tag_size by lia. rewrite sizeof_write. reflexivity.
  - apply opt_size; intros a; rewrite tag_size by lia. rewrite sizeof_write. reflexivity.
  - apply opt_size; intros a; rewrite tag_size by lia. rewrite sizeof_write. reflexivity.
  - apply opt_size; intros a; rewrite tag_size by lia. rewrite sizeof_write. reflexivity.
  - apply opt_size; intros a; rewrite tag_size by lia. f_equal.
    apply write_message_size. apply unixtime_size_ok.
Qed.

Lemma unixfs_msg_size d :
  1 + sizeof_len (unixfs_size d) = blen (write_with_tag 10 (write_message (unixfs_size d) (unixfs_write d))).
Proof.
  rewrite tag_size by lia. f_equal. apply write_message_size. apply unixfs_size_ok.
Qed.

Lemma flat_size_ok m : flat_size m = blen (flat_write m).
Proof.
  unfold flat_size, flat_write. rewrite blen_app. f_equal.
  - apply sum_size. exact link_msg_size.
  - apply unixfs_msg_size.
Qed.

Lemma wcid_size_ok c : wcid_size c = blen (wcid_write c).
Proof.
  unfold wcid_size, wcid_write. destruct (cid_v1 c).
  - rewrite !blen_app, sizeof_write. reflexivity.
  - reflexivity.
Qed.

Lemma leaf_size_ok l : leaf_size l = blen (leaf_write l).
Proof.
  destruct l as [[name c] ts]. unfold leaf_size, leaf_write.
  rewrite 2 blen_app. rewrite (tag_size 10), (tag_size 18), (tag_size 24) by lia.
  rewrite <- (write_message_size _ _ (wcid_size_ok c)). rewrite <- sizeof_len_write, <- sizeof_write. lia.
Qed.

Lemma custom_size_ok links d : custom_size links d = blen (custom_write links d).
Proof.
  unfold custom_size, custom_write. rewrite blen_app, <- N.add_assoc. f_equal.
  - apply sum_size. intros l. rewrite tag_size by lia. f_equal.
    apply write_message_size. apply leaf_size_ok.
  - apply unixfs_msg_size.
Qed.

(** ** The builder's adapter writes the same bytes as an ordinary PBLink *)
Definition leaf_link (l : named_leaf) : pblink :=
  let '(name, c, ts) := l in PBLink (Some (cid_bytes c)) (Some name) (Some ts).

Lemma wcid_write_bytes c : wcid_write c = cid_bytes c.
Proof.
  unfold wcid_write, cid_bytes. destruct (cid_v1 c); [|reflexivity].
  change (write_varint 1) with [n2b 1]. app_assoc.
Qed.

Lemma leaf_write_link l : leaf_write l = pblink_write (leaf_link l).
Proof.
  destruct l as [[name c] ts]. unfold leaf_write, pblink_write, leaf_link.
  cbn [l_hash l_name l_tsize opt]. unfold write_message, write_bytes.
  rewrite wcid_size_ok, wcid_write_bytes. app_assoc.
Qed.

Lemma leaf_size_link l : leaf_size l = pblink_size (leaf_link l).
Proof. rewrite leaf_size_ok, pblink_size_ok, leaf_write_link. reflexivity. Qed.

Lemma custom_write_flat links d :
  custom_write links d = flat_write (Flat (map leaf_link links) d).
Proof.
  unfold custom_write, flat_write. cbn [f_links f_data]. f_equal.
  rewrite map_map. f_equal. apply map_ext. intros l.
  rewrite leaf_size_link, leaf_write_link. reflexivity.
Qed.

(** ** C01: canonical field lists *)
Definition len_field (n : N) (o : option bytes) : list wfield :=
  match o with Some x => [WField n (WLen x)] | None => [] end.
Definition var_field (n : N) (o : option N) : list wfield :=
  match o with Some x => [WField n (WVarint x)] | None => [] end.

Lemma encodes_app f1 f2 b1 b2 : encodes f1 b1 -> encodes f2 b2 -> encodes (f1 ++ f2) (b1 ++ b2).
Proof.
  induction 1 as [|f fs a b Hf Hfs IH]; intros H2; cbn [app]; [exact H2|].
  rewrite <- app_assoc. apply enc_cons; [exact Hf | apply IH; exact H2].
Qed.

Lemma encodes_one f a : enc_field f a -> encodes [f] a.
Proof.
  intros H. rewrite <- (app_nil_r a). apply enc_cons; [exact H | apply enc_nil].
Qed.

Lemma enc_len n x : n <= 15 -> blen x < two64 -> enc_field (WField n (WLen x)) (write_with_tag (n * 8 + 2) (write_bytes x)).
Proof.
  intros Hn Hx. exists (write_varint (n * 8 + 2)), (write_bytes x).
  cbn [w_num w_val wire_type]. split; [apply write_varint_varint; unfold two64; lia|].
  split; [unfold two32; lia|]. split; [|reflexivity].
  exists (write_varint (blen x)). split; [apply write_varint_varint; exact Hx | reflexivity].
Qed.

Lemma enc_var n v : n <= 15 -> v < two64 -> enc_field (WField n (WVarint v)) (write_with_tag (n * 8) (write_varint v)).
Proof.
  intros Hn Hx. exists (write_varint (n * 8)), (write_varint v).
  cbn [w_num w_val wire_type]. rewrite N.add_0_r.
  split; [apply write_varint_varint; unfold two64; lia|].
  split; [unfold two32; lia|]. split; [|reflexivity].
  split; [apply write_varint_varint; exact Hx | exact Hx].
Qed.

Lemma enc_f32 n v : n <= 15 -> enc_field (WField n (WFixed32 (write_fixed32 v))) (write_with_tag (n * 8 + 5) (write_fixed32 v)).
Proof.
  intros Hn. exists (write_varint (n * 8 + 5)), (write_fixed32 v).
  cbn [w_num w_val wire_type]. split; [apply write_varint_varint; unfold two64; lia|].
  split; [unfold two32; lia|]. split; [|reflexivity]. split; reflexivity.
Qed.

Definition link_fields (l : pblink) : list wfield :=
  len_field 1 (l_hash l) ++ len_field 2 (l_name l) ++ var_field 3 (l_tsize l).

Lemma encodes_len n o : n <= 15 -> blen (opt o [] (fun x => write_with_tag (n * 8 + 2) (write_bytes x))) < two64 ->
  encodes (len_field n o) (opt o [] (fun x => write_with_tag (n * 8 + 2) (write_bytes x))).
Proof.
  intros Hn Hx. destruct o as [x|]; cbn [len_field opt] in *; [|apply enc_nil].
  apply encodes_one. apply enc_len; [exact Hn|].
  unfold write_with_tag, write_bytes in Hx. rewrite !blen_app in Hx. lia.
Qed.

Lemma encodes_var n o : n <= 15 -> ok_opt (fun v => v < two64) o ->
  encodes (var_field n o) (opt o [] (fun x => write_with_tag (n * 8) (write_varint x))).
Proof.
  intros Hn Hx. destruct o as [x|]; cbn [var_field opt ok_opt] in *; [|apply enc_nil].
  apply encodes_one. apply enc_var; assumption.
Qed.

Lemma link_write_encodes l : link_fits l -> blen (pblink_write l) < two64 ->
  encodes (link_fields l) (pblink_write l).
Proof.
  intros [Hn Ht] Hl. unfold link_fields. unfold pblink_write in *. rewrite !blen_app in Hl.
  apply encodes_app; [|apply encodes_app].
  - apply (encodes_len 1); [lia|]. eapply N.le_lt_trans; [|exact Hl].
    change (1 * 8 + 2) with 10. lia.
  - apply (encodes_len 2); [lia|]. eapply N.le_lt_trans; [|exact Hl].
    change (2 * 8 + 2) with 18. lia.
  - apply (encodes_var 3); [lia | exact Ht].
Qed.

Lemma link_write_sem l : link_fits l -> link_sem (PBLink None None None) (link_fields l) l.
Proof.
  intros [Hn Ht]. destruct l as [h n t]; cbn [l_hash l_name l_tsize] in *.
  unfold link_fields. cbn [l_hash l_name l_tsize].
  destruct h as [h|], n as [n|], t as [t|]; cbn [len_field var_field app ok_opt] in *;
    repeat (first [apply ls_nil | apply ls_hash | apply ls_name; [exact Hn|] | apply ls_tsize]).
Qed.

Lemma le32_fixed v : v < two32 -> le32 (write_fixed32 v) = v.
Proof.
  intros H. unfold le32, write_fixed32. rewrite !b2n_n2b. unfold two32 in H.
  pose proof (N.div_mod v 256 ltac:(lia)).
  replace (v / 65536) with (v / 256 / 256) by (rewrite N.div_div by lia; reflexivity).
  replace (v / 16777216) with (v / 256 / 256 / 256) by (rewrite !N.div_div by lia; reflexivity).
  pose proof (N.div_mod (v / 256) 256 ltac:(lia)).
  pose proof (N.div_mod (v / 256 / 256) 256 ltac:(lia)).
  assert (v / 256 / 256 / 256 < 256) by (rewrite !N.div_div by lia; apply N.div_lt_upper_bound; lia).
  rewrite (N.mod_small (v / 256 / 256 / 256)) by lia. lia.
Qed.

Lemma i64_round z : (- 2 ^ 63 <= z < 2 ^ 63)%Z -> i64_value (u64_of_i64 z) = z.
Proof.
  intros H. unfold i64_value, u64_of_i64. change (2 ^ 63) with 9223372036854775808.
  change (2 ^ 63)%Z with 9223372036854775808%Z in H. change (2 ^ 64)%Z with 18446744073709551616%Z.
  destruct (N.ltb_spec (Z.to_N (z mod 18446744073709551616)) 9223372036854775808);
  rewrite Z2N.id in * by (apply Z.mod_pos_bound; lia).
  - destruct (Z.lt_ge_cases z 0).
    + exfalso. assert (E : (z mod 18446744073709551616 = z + 18446744073709551616)%Z)
        by (symmetry; apply Z.mod_unique with (q := (-1)%Z); lia).
      rewrite E in H0. lia.
    + apply Z.mod_small. lia.
  - destruct (Z.lt_ge_cases z 0).
    + assert (E : (z mod 18446744073709551616 = z + 18446744073709551616)%Z)
        by (symmetry; apply Z.mod_unique with (q := (-1)%Z); lia).
      lia.
    + exfalso. rewrite Z.mod_small in H0 by lia. lia.
Qed.

Lemma u64_of_i64_lt z : u64_of_i64 z < two64.
Proof.
  unfold u64_of_i64, two64.
  pose proof (Z.mod_pos_bound z 18446744073709551616 ltac:(lia)). lia.
Qed.

Definition time_fields (t : unixtime) : list wfield :=
  [WField 1 (WVarint (u64_of_i64 (t_secs t)))]
  ++ match t_nanos t with Some v => [WField 2 (WFixed32 (write_fixed32 v))] | None => [] end.

Lemma time_write_encodes t : encodes (time_fields t) (unixtime_write t).
Proof.
  unfold time_fields, unixtime_write. apply encodes_app.
  - apply encodes_one. apply (enc_var 1); [lia | apply u64_of_i64_lt].
  - destruct (t_nanos t) as [v|]; cbn [opt]; [|apply enc_nil].
    apply encodes_one. apply (enc_f32 2). lia.
Qed.

Lemma time_write_sem t : time_fits t -> time_sem (UnixTime 0 None) (time_fields t) t.
Proof.
  intros [Hs Hn]. destruct t as [s n]; cbn [t_secs t_nanos] in *.
  unfold time_fields. cbn [t_secs t_nanos app].
  apply ts_secs. rewrite i64_round by exact Hs.
  destruct n as [v|]; [|apply ts_nil]. apply ts_nanos. rewrite le32_fixed by exact Hn. apply ts_nil.
Qed.

Definition unixfs_fields (u : unixfs) : list wfield :=
  [WField 1 (WVarint (ftype_num (u_type u)))]
  ++ len_field 2 (u_data u)
  ++ var_field 3 (u_filesize u)
  ++ map (fun v => WField 4 (WVarint v)) (u_blocksizes u)
  ++ var_field 5 (u_hashtype u)
  ++ var_field 6 (u_fanout u)
  ++ var_field 7 (u_mode u)
  ++ len_field 8 (option_map unixtime_write (u_mtime u)).

Lemma ok_opt_impl {A} (p q : A -> Prop) o : (forall a, p a -> q a) -> ok_opt p o -> ok_opt q o.
Proof. destruct o; cbn; auto. Qed.

Lemma unixfs_write_encodes u : unixfs_fits u -> blen (unixfs_write u) < two64 ->
  encodes (unixfs_fields u) (unixfs_write u).
Proof.
  intros [H1 [H2 [H3 [H4 [H5 H6]]]]] Hl. unfold unixfs_fields. unfold unixfs_write in *.
  rewrite !blen_app in Hl.
  apply encodes_app; [|apply encodes_app; [|apply encodes_app; [|apply encodes_app;
    [|apply encodes_app; [|apply encodes_app; [|apply encodes_app]]]]]].
  - apply encodes_one. apply (enc_var 1); [lia | destruct (u_type u); cbn; unfold two64; lia].
  - apply (encodes_len 2); [lia|]. eapply N.le_lt_trans; [|exact Hl].
    change (2 * 8 + 2) with 18. lia.
  - apply (encodes_var 3); [lia | exact H1].
  - clear -H2. induction H2 as [|v l Hv Hl IH]; cbn [map concat]; [apply enc_nil|].
    apply enc_cons; [apply (enc_var 4); [lia | exact Hv] | exact IH].
  - apply (encodes_var 5); [lia | exact H3].
  - apply (encodes_var 6); [lia | exact H4].
  - apply (encodes_var 7); [lia|]. eapply ok_opt_impl; [|exact H5].
    intros a Ha. unfold two32, two64 in *. lia.
  - destruct (u_mtime u) as [t|]; cbn [option_map opt len_field] in *; [|apply enc_nil].
    apply encodes_one. unfold write_message in *. rewrite unixtime_size_ok in *.
    apply (enc_len 8); [lia|].
    unfold write_with_tag in Hl. rewrite !blen_app in Hl. lia.
Qed.

Lemma type_value_num t : type_value (ftype_num t mod 2 ^ 32) = t.
Proof. destruct t; reflexivity. Qed.

Lemma unixfs_write_sem u : unixfs_fits u -> unixfs_sem encodes unixfs_default (unixfs_fields u) u.
Proof.
  intros [H1 [H2 [H3 [H4 [H5 H6]]]]].
  destruct u as [ty d s bs h fa mo t];
    cbn [u_type u_data u_filesize u_blocksizes u_hashtype u_fanout u_mode u_mtime] in *.
  unfold unixfs_fields.
  cbn [u_type u_data u_filesize u_blocksizes u_hashtype u_fanout u_mode u_mtime app].
  unfold unixfs_default. apply us_type. rewrite type_value_num.
  assert (Hd : forall fs m', unixfs_sem encodes (UnixFs ty d None [] None None None None) fs m' ->
    unixfs_sem encodes (UnixFs ty None None [] None None None None) (len_field 2 d ++ fs) m').
  { intros fs m' H. destruct d; cbn [len_field app]; [apply us_data|]; exact H. }
  apply Hd. clear Hd.
  assert (Hd : forall fs m', unixfs_sem encodes (UnixFs ty d s [] None None None None) fs m' ->
    unixfs_sem encodes (UnixFs ty d None [] None None None None) (var_field 3 s ++ fs) m').
  { intros fs m' H. destruct s; cbn [var_field app]; [apply us_filesize|]; exact H. }
  apply Hd. clear Hd.
  assert (Hd : forall fs m' bs0, unixfs_sem encodes (UnixFs ty d s (bs0 ++ bs) None None None None) fs m' ->
    unixfs_sem encodes (UnixFs ty d s bs0 None None None None) (map (fun v => WField 4 (WVarint v)) bs ++ fs) m').
  { intros fs m'. clear H2. induction bs as [|v bs IH]; intros bs0 H; cbn [map app].
    - rewrite app_nil_r in H. exact H.
    - apply us_blocksize. apply IH. rewrite <- app_assoc. exact H. }
  apply Hd. cbn [app]. clear Hd.
  assert (Hd : forall fs m', unixfs_sem encodes (UnixFs ty d s bs h None None None) fs m' ->
    unixfs_sem encodes (UnixFs ty d s bs None None None None) (var_field 5 h ++ fs) m').
  { intros fs m' H. destruct h; cbn [var_field app]; [apply us_hashtype|]; exact H. }
  apply Hd. clear Hd.
  assert (Hd : forall fs m', unixfs_sem encodes (UnixFs ty d s bs h fa None None) fs m' ->
    unixfs_sem encodes (UnixFs ty d s bs h None None None) (var_field 6 fa ++ fs) m').
  { intros fs m' H. destruct fa; cbn [var_field app]; [apply us_fanout|]; exact H. }
  apply Hd. clear Hd.
  assert (Hd : forall fs m', unixfs_sem encodes (UnixFs ty d s bs h fa mo None) fs m' ->
    unixfs_sem encodes (UnixFs ty d s bs h fa None None) (var_field 7 mo ++ fs) m').
  { intros fs m' H. destruct mo as [v|]; cbn [var_field app]; [apply us_mode|]; [|exact H].
    cbn [ok_opt] in H5. rewrite N.mod_small by exact H5. exact H. }
  apply Hd. clear Hd.
  destruct t as [t|]; cbn [option_map len_field ok_opt] in *; [|apply us_nil].
  eapply us_mtime; [apply time_write_encodes | apply time_write_sem; exact H6 | apply us_nil].
Qed.

Definition flat_fields (m : flat) : list wfield :=
  map (fun l => WField 2 (WLen (pblink_write l))) (f_links m)
  ++ [WField 1 (WLen (unixfs_write (f_data m)))].

Lemma flat_write_encodes m : blen (flat_write m) < two64 -> encodes (flat_fields m) (flat_write m).
Proof.
  intros Hl. unfold flat_fields. unfold flat_write in *. rewrite blen_app in Hl.
  apply encodes_app.
  - assert (Hc : blen (concat (map (fun l => write_with_tag 18 (write_message (pblink_size l) (pblink_write l))) (f_links m))) < two64) by lia.
    clear Hl. induction (f_links m) as [|l ls IH]; cbn [map concat] in *; [apply enc_nil|].
    rewrite blen_app in Hc. apply enc_cons; [|apply IH; lia].
    unfold write_message in *. rewrite pblink_size_ok in *.
    apply (enc_len 2); [lia|]. unfold write_with_tag in Hc. rewrite !blen_app in Hc. lia.
  - apply encodes_one. unfold write_message in *. rewrite unixfs_size_ok in *.
    apply (enc_len 1); [lia|]. unfold write_with_tag in Hl. rewrite !blen_app in Hl. lia.
Qed.

Lemma flat_write_sem m ls0 : Forall link_fits (f_links m) -> blen (flat_write m) < two64 ->
  node_sem encodes ls0 None (flat_fields m) (ls0 ++ f_links m) (Some (unixfs_write (f_data m))).
Proof.
  intros Hf Hl. unfold flat_fields. unfold flat_write in Hl. rewrite blen_app in Hl.
  assert (Hc : blen (concat (map (fun l => write_with_tag 18 (write_message (pblink_size l) (pblink_write l))) (f_links m))) < two64) by lia.
  clear Hl. revert ls0 Hc. induction Hf as [|l ls Hlf Hf IH]; intros ls0 Hc; cbn [map concat app] in *.
  - rewrite app_nil_r. apply ns_data. apply ns_nil.
  - rewrite blen_app in Hc.
    eapply ns_link with (lfs := link_fields l) (l := l).
    + apply link_write_encodes; [exact Hlf|].
      unfold write_message, write_with_tag in Hc. rewrite !blen_app in Hc. lia.
    + apply link_write_sem. exact Hlf.
    + replace (ls0 ++ l :: ls) with ((ls0 ++ [l]) ++ ls) by app_assoc. apply IH. lia.
Qed.

Lemma unixfs_write_nonempty u : unixfs_write u <> [].
Proof.
  unfold unixfs_write. intros E. apply app_eq_nil in E as [E _].
  unfold write_with_tag in E. apply app_eq_nil in E as [E _]. discriminate E.
Qed.

Lemma flat_data_lt m : blen (flat_write m) < two32 -> blen (unixfs_write (f_data m)) < two32.
Proof.
  intros H. unfold flat_write, write_with_tag, write_message in H. rewrite !blen_app in H. lia.
Qed.

Lemma round_trip dbg m :
  Forall link_fits (f_links m) -> unixfs_fits (f_data m) -> blen (flat_write m) < two32 ->
  try_parse dbg (flat_write m) = Ok m.
Proof.
  intros Hf Hu Hl. pose proof (two32_lt_two64 _ Hl) as Hl'.
  pose proof (flat_data_lt m Hl) as Hd.
  rewrite (try_parse_fields dbg (flat_fields m) (flat_write m) (f_links m)
             (unixfs_write (f_data m)) (unixfs_fields (f_data m)) (f_data m)).
  - destruct m; reflexivity.
  - apply flat_write_encodes. exact Hl'.
  - exact Hl.
  - apply (flat_write_sem m []); assumption.
  - apply unixfs_write_nonempty.
  - apply unixfs_write_encodes; [exact Hu | apply two32_lt_two64; exact Hd].
  - apply unixfs_write_sem. exact Hu.
Qed.

(** the offset of Data as well *)
Lemma node_parse_flat dbg m :
  Forall link_fits (f_links m) -> blen (flat_write m) < two32 ->
  exists s, pbnode_parse dbg (flat_write m) = Ok (PBNode (f_links m) s)
            /\ data_at (flat_write m) (Some (unixfs_write (f_data m))) s.
Proof.
  intros Hf Hl. pose proof (two32_lt_two64 _ Hl) as Hl'.
  apply (node_parse_fields dbg (flat_fields m)); [apply flat_write_encodes; exact Hl' | exact Hl |].
  apply (flat_write_sem m []); assumption.
Qed.
