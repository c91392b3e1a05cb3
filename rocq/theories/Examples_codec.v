(** Concrete witnesses used by PropertiesCodec.v *)
From Verif Require Import Base Tac Wire Utf8 Cid Sha256 Pb Dagpb SpecWire Wire_proofs Pb_proofs Codec_proofs Parse_safety.

Definition ex_link : pblink := PBLink (Some [x12; x20; x01]) (Some [x68; xc3; xa9]) (Some 300).
Definition ex_flat : flat :=
  Flat [ex_link; PBLink None None None]
       (UnixFs File (Some [x61; x62]) (Some 18446744073709551615) [1; 2] None (Some 256) (Some 511)
               (Some (UnixTime (-5) (Some 4294967295)))).

Lemma ex_flat_ok : Forall link_fits (f_links ex_flat) /\ unixfs_fits (f_data ex_flat) /\ blen (flat_write ex_flat) < two32.
Proof.
  split; [|split].
  - repeat constructor.
  - unfold unixfs_fits, time_fits; cbn. repeat split; try lia; try reflexivity; repeat constructor.
  - vm_compute. reflexivity.
Qed.

(** Data first, unknown fields in between, link last with its fields reversed *)
Definition ex_ufs : list wfield :=
  [WField 3 (WVarint 2); WField 99 (WFixed64 (repeat x07 8)); WField 1 (WVarint 2); WField 2 (WLen [x68; x69])].
Definition ex_udata : bytes := [x18; x02] ++ [x99; x06] ++ repeat x07 8 ++ [x08; x02] ++ [x12; x02; x68; x69].
Definition ex_lfs : list wfield := [WField 3 (WVarint 5); WField 2 (WLen [x61]); WField 15 (WLen [x00; x01])].
Definition ex_ldata : bytes := [x18; x05] ++ [x12; x01; x61] ++ [x7a; x02; x00; x01].
Definition ex_nfs : list wfield :=
  [WField 1 (WLen ex_udata); WField 7 (WVarint 1000); WField 2 (WLen ex_ldata); WField 3 (WFixed32 (repeat x01 4))].
Definition ex_ndata : bytes :=
  ([x0a; x12] ++ ex_udata) ++ [x38; xe8; x07] ++ ([x12; x09] ++ ex_ldata) ++ [x1d; x01; x01; x01; x01].

Lemma vi1 x : (b2n x <? 128) = true -> varint [x] (b2n x).
Proof. intros H. apply N.ltb_lt in H. split; [constructor; exact H | cbn; lia]. Qed.
Lemma vi2 x y : (128 <=? b2n x) = true -> (b2n y <? 128) = true -> varint [x; y] (b2n x - 128 + 128 * b2n y).
Proof.
  intros H1 H2. apply N.ltb_lt in H2. apply N.leb_le in H1.
  split; [constructor; [exact H1 | constructor; exact H2] | cbn; lia].
Qed.

Ltac fld tb pb := exists tb, pb; cbn [w_num w_val wire_type payload]; split; [|split; [reflexivity|split; [|reflexivity]]].

Lemma ex_fields : exists fs block links data ufs u,
  encodes fs block /\ blen block < two32 /\ node_sem encodes [] None fs links (Some data)
  /\ data <> [] /\ encodes ufs data /\ unixfs_sem encodes unixfs_default ufs u
  /\ length fs = 4%nat /\ length ufs = 4%nat /\ u_type u = File /\ length links = 1%nat.
Proof.
  exists ex_nfs, (ex_ndata), [PBLink None (Some [x61]) (Some 5)], ex_udata, ex_ufs,
    (UnixFs File (Some [x68; x69]) (Some 2) [] None None None None).
  split; [|split; [reflexivity|split; [|split; [discriminate|split; [|split]]]]].
  - unfold ex_nfs, ex_ndata. rewrite <- (app_nil_r [x1d; x01; x01; x01; x01]).
    apply enc_cons; [|apply enc_cons; [|apply enc_cons; [|apply enc_cons; [|apply enc_nil]]]].
    + fld [x0a] (x12 :: ex_udata); [exact (vi1 x0a eq_refl)|].
      exists [x12]. split; [exact (vi1 x12 eq_refl) | reflexivity].
    + fld [x38] [xe8; x07]; [exact (vi1 x38 eq_refl)|]. split; [exact (vi2 xe8 x07 eq_refl eq_refl) | reflexivity].
    + fld [x12] (x09 :: ex_ldata); [exact (vi1 x12 eq_refl)|].
      exists [x09]. split; [exact (vi1 x09 eq_refl) | reflexivity].
    + fld [x1d] (repeat x01 4); [exact (vi1 x1d eq_refl)|]. split; reflexivity.
  - unfold ex_nfs. apply ns_data. apply ns_other; [discriminate | discriminate |].
    eapply ns_link with (lfs := ex_lfs) (l := PBLink None (Some [x61]) (Some 5)).
    + unfold ex_lfs, ex_ldata. rewrite <- (app_nil_r [x7a; x02; x00; x01]).
      apply enc_cons; [|apply enc_cons; [|apply enc_cons; [|apply enc_nil]]].
      * fld [x18] [x05]; [exact (vi1 x18 eq_refl)|]. split; [exact (vi1 x05 eq_refl) | reflexivity].
      * fld [x12] [x01; x61]; [exact (vi1 x12 eq_refl)|].
        exists [x01]. split; [exact (vi1 x01 eq_refl) | reflexivity].
      * fld [x7a] [x02; x00; x01]; [exact (vi1 x7a eq_refl)|].
        exists [x02]. split; [exact (vi1 x02 eq_refl) | reflexivity].
    + unfold ex_lfs. apply ls_tsize. apply ls_name; [reflexivity|].
      apply ls_other; try discriminate. apply ls_nil.
    + apply ns_other; try discriminate. apply ns_nil.
  - unfold ex_ufs, ex_udata. rewrite <- (app_nil_r [x12; x02; x68; x69]).
    rewrite (app_assoc [x99; x06]).
    apply enc_cons; [|apply enc_cons; [|apply enc_cons; [|apply enc_cons; [|apply enc_nil]]]].
    + fld [x18] [x02]; [exact (vi1 x18 eq_refl)|]. split; [exact (vi1 x02 eq_refl) | reflexivity].
    + fld [x99; x06] (repeat x07 8); [exact (vi2 x99 x06 eq_refl eq_refl)|]. split; reflexivity.
    + fld [x08] [x02]; [exact (vi1 x08 eq_refl)|]. split; [exact (vi1 x02 eq_refl) | reflexivity].
    + fld [x12] [x02; x68; x69]; [exact (vi1 x12 eq_refl)|].
      exists [x02]. split; [exact (vi1 x02 eq_refl) | reflexivity].
  - unfold ex_ufs. apply us_filesize. apply us_other; try discriminate.
    apply us_type. apply us_data. apply us_nil.
  - auto.
Qed.

Lemma ex_wrap_panics : exists block,
  forall dbg, node_data dbg block = Ok (Some []) /\ wrap_node_data dbg block = Panic.
Proof. exists [x0a; x00]. intros [|]; split; vm_compute; reflexivity. Qed.

Lemma ex_type_77 : exists block, forall dbg,
  try_parse dbg block = Ok (Flat [] (UnixFs Raw (Some [x61]) (Some 1) [] None None None None))
  /\ block = [x0a; x07; x08; n2b 77; x12; x01; x61; x18; x01].
Proof. eexists. intros [|]; split; try reflexivity; vm_compute; reflexivity. Qed.
