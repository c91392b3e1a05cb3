(** * Sha256: a concrete instance of the external functions.

    SHA-256 (FIPS 180-4) and the CID decoder of [cid] 0.8.3 / [unsigned-varint]
    in Gallina.  Used (1) to show that the assumptions [ext_ok] are satisfiable
    and (2) to replay the unit tests of /repo on the model ([Golden.v]).  No
    property theorem depends on it. *)
From Verif Require Import Base Tac Wire Cid SpecWire Wire_proofs.

Definition w32 (n : N) : N := n mod two32.
Definition rotr (n : N) (x : N) : N := N.lor (N.shiftr x n) (w32 (N.shiftl x (32 - n))).
Definition not32 (x : N) : N := N.lxor x 0xffffffff.

Definition sha_k : list N :=
 [0x428a2f98;0x71374491;0xb5c0fbcf;0xe9b5dba5;0x3956c25b;0x59f111f1;0x923f82a4;0xab1c5ed5;
  0xd807aa98;0x12835b01;0x243185be;0x550c7dc3;0x72be5d74;0x80deb1fe;0x9bdc06a7;0xc19bf174;
  0xe49b69c1;0xefbe4786;0x0fc19dc6;0x240ca1cc;0x2de92c6f;0x4a7484aa;0x5cb0a9dc;0x76f988da;
  0x983e5152;0xa831c66d;0xb00327c8;0xbf597fc7;0xc6e00bf3;0xd5a79147;0x06ca6351;0x14292967;
  0x27b70a85;0x2e1b2138;0x4d2c6dfc;0x53380d13;0x650a7354;0x766a0abb;0x81c2c92e;0x92722c85;
  0xa2bfe8a1;0xa81a664b;0xc24b8b70;0xc76c51a3;0xd192e819;0xd6990624;0xf40e3585;0x106aa070;
  0x19a4c116;0x1e376c08;0x2748774c;0x34b0bcb5;0x391c0cb3;0x4ed8aa4a;0x5b9cca4f;0x682e6ff3;
  0x748f82ee;0x78a5636f;0x84c87814;0x8cc70208;0x90befffa;0xa4506ceb;0xbef9a3f7;0xc67178f2].

Record sha_st := ShaSt { sa : N; sb : N; sc : N; sd : N; se : N; sf : N; sg : N; sh : N }.
Definition sha_init := ShaSt 0x6a09e667 0xbb67ae85 0x3c6ef372 0xa54ff53a 0x510e527f 0x9b05688c 0x1f83d9ab 0x5be0cd19.

Definition sha_round (s : sha_st) (k w : N) : sha_st :=
  let s1 := N.lxor (N.lxor (rotr 6 (se s)) (rotr 11 (se s))) (rotr 25 (se s)) in
  let ch := N.lxor (N.land (se s) (sf s)) (N.land (not32 (se s)) (sg s)) in
  let t1 := w32 (sh s + s1 + ch + k + w) in
  let s0 := N.lxor (N.lxor (rotr 2 (sa s)) (rotr 13 (sa s))) (rotr 22 (sa s)) in
  let maj := N.lxor (N.lxor (N.land (sa s) (sb s)) (N.land (sa s) (sc s))) (N.land (sb s) (sc s)) in
  let t2 := w32 (s0 + maj) in
  ShaSt (w32 (t1 + t2)) (sa s) (sb s) (sc s) (w32 (sd s + t1)) (se s) (sf s) (sg s).

(** message schedule: [w] holds the last sixteen words, oldest first *)
Definition next_w (w : list N) : N :=
  let g i := nth i w 0 in
  let s0 := N.lxor (N.lxor (rotr 7 (g 1%nat)) (rotr 18 (g 1%nat))) (N.shiftr (g 1%nat) 3) in
  let s1 := N.lxor (N.lxor (rotr 17 (g 14%nat)) (rotr 19 (g 14%nat))) (N.shiftr (g 14%nat) 10) in
  w32 (g 0%nat + s0 + g 9%nat + s1).

Fixpoint sha_rounds (ks : list N) (w : list N) (s : sha_st) : sha_st :=
  match ks with
  | [] => s
  | k :: ks' => sha_rounds ks' (tl w ++ [next_w w]) (sha_round s k (hd 0 w))
  end.

Definition sha_block (s : sha_st) (w : list N) : sha_st :=
  let r := sha_rounds sha_k w s in
  ShaSt (w32 (sa s + sa r)) (w32 (sb s + sb r)) (w32 (sc s + sc r)) (w32 (sd s + sd r))
        (w32 (se s + se r)) (w32 (sf s + sf r)) (w32 (sg s + sg r)) (w32 (sh s + sh r)).

Fixpoint words (l : bytes) : list N :=
  match l with
  | a :: b :: c :: d :: l' =>
      (b2n a * 16777216 + b2n b * 65536 + b2n c * 256 + b2n d) :: words l'
  | _ => []
  end.

Fixpoint be_bytes (n : nat) (v : N) : bytes :=
  match n with O => [] | S n' => be_bytes n' (v / 256) ++ [n2b v] end.

Definition sha_pad (m : bytes) : bytes :=
  let l := blen m in
  let z := (119 - l mod 64) mod 64 in
  m ++ [x80] ++ repeat x00 (N.to_nat z) ++ be_bytes 8 (8 * l).

Fixpoint sha_go (fuel : nat) (s : sha_st) (w : list N) : sha_st :=
  match fuel, w with
  | S f, _ :: _ => sha_go f (sha_block s (firstn 16 w)) (skipn 16 w)
  | _, _ => s
  end.

Definition sha256 (m : bytes) : bytes :=
  let w := words (sha_pad m) in
  let s := sha_go (length w) sha_init w in
  be_bytes 4 (sa s) ++ be_bytes 4 (sb s) ++ be_bytes 4 (sc s) ++ be_bytes 4 (sd s)
  ++ be_bytes 4 (se s) ++ be_bytes 4 (sf s) ++ be_bytes 4 (sg s) ++ be_bytes 4 (sh s).

Lemma sha256_len m : length (sha256 m) = 32%nat.
Proof. unfold sha256. rewrite !app_length. reflexivity. Qed.

(** unsigned-varint decode of a u64: at most ten bytes, minimal, no overflow *)
Fixpoint uv_go (n : nat) (first : bool) (l : bytes) : option (N * bytes) :=
  match n, l with
  | _, [] | O, _ => None
  | S n', x :: l' =>
      if b2n x <? 128 then
        if (b2n x =? 0) && negb first then None else Some (b2n x, l')
      else match uv_go n' false l' with
           | Some (v, r) => Some (b2n x - 128 + 128 * v, r)
           | None => None
           end
  end.
Definition uv_decode (l : bytes) : option (N * bytes) :=
  match uv_go 10 true l with
  | Some (v, r) => if v <? two64 then Some (v, r) else None
  | None => None
  end.

(** Multihash::read with a 64 byte table *)
Definition mh_decode (l : bytes) : option (N * bytes) :=
  match uv_decode l with
  | Some (code, l1) =>
      match uv_decode l1 with
      | Some (size, l2) =>
          if (size <=? 64) && (size <=? blen l2)
          then Some (code, firstn (N.to_nat size) l2) else None
      | None => None
      end
  | None => None
  end.

(** Cid::read_bytes *)
Definition cid_decode (l : bytes) : option cid :=
  match uv_decode l with
  | Some (version, l1) =>
      match uv_decode l1 with
      | Some (codec, l2) =>
          if (version =? 0x12) && (codec =? 0x20) then
            if 32 <=? blen l2 then Some (Cid false 0x70 0x12 (firstn 32 l2)) else None
          else if version =? 1 then
            match mh_decode l2 with
            | Some (code, digest) => Some (Cid true codec code digest)
            | None => None
            end
          else None
      | None => None
      end
  | None => None
  end.

Lemma uv_go_write f : forall n v rest first, v < 128 ^ N.of_nat f -> (0 < f <= n)%nat ->
  (v = 0 -> first = true) ->
  uv_go n first (varint_go f v ++ rest) = Some (v, rest).
Proof.
  induction f as [|f IH]; intros n v rest first Hv Hn Hf; [lia|].
  destruct n as [|n]; [lia|].
  cbn [varint_go]. destruct (N.ltb_spec 127 v) as [Hgt|Hle].
  - rewrite Nat2N.inj_succ, N.pow_succ_r' in Hv.
    assert (Hd : v / 128 < 128 ^ N.of_nat f) by (apply N.div_lt_upper_bound; lia).
    destruct f as [|f]; [change (128 ^ N.of_nat 0) with 1 in Hv; lia|].
    cbn [app uv_go]. assert (Hm : v mod 128 < 128) by (apply N.mod_lt; lia).
    assert (Hb : b2n (n2b (v mod 128 + 128)) = v mod 128 + 128)
      by (rewrite b2n_n2b; apply N.mod_small; lia).
    rewrite Hb. destruct (N.ltb_spec (v mod 128 + 128) 128); [lia|].
    assert (Hq : 1 <= v / 128) by (apply N.div_le_lower_bound; lia).
    rewrite IH; [|exact Hd | lia | lia].
    f_equal. f_equal. pose proof (N.div_mod v 128 ltac:(lia)). lia.
  - cbn [app uv_go].
    assert (Hb : b2n (n2b v) = v) by (rewrite b2n_n2b; apply N.mod_small; lia).
    rewrite Hb. destruct (N.ltb_spec v 128); [|lia].
    destruct (N.eqb_spec v 0) as [->|]; [rewrite Hf by reflexivity|]; reflexivity.
Qed.

Lemma uv_decode_write v rest : v < two64 -> uv_decode (write_varint v ++ rest) = Some (v, rest).
Proof.
  intros Hv. unfold uv_decode, write_varint. rewrite uv_go_write; [| | lia | auto].
  - destruct (N.ltb_spec v two64); [reflexivity | lia].
  - replace (128 ^ N.of_nat 10) with 1180591620717411303424 by reflexivity. unfold two64 in Hv. lia.
Qed.

Lemma mh_decode_bytes c : cid_code c < two64 -> blen (cid_digest c) <= 64 ->
  mh_decode (mh_bytes c) = Some (cid_code c, cid_digest c).
Proof.
  intros Hc Hd. unfold mh_decode, mh_bytes. rewrite uv_decode_write by exact Hc.
  rewrite uv_decode_write by (unfold two64; lia).
  destruct (N.leb_spec (blen (cid_digest c)) 64); [|lia].
  destruct (N.leb_spec (blen (cid_digest c)) (blen (cid_digest c))); [|lia]. cbn [andb].
  unfold blen. rewrite Nat2N.id, firstn_all. reflexivity.
Qed.

Lemma cid_decode_bytes c : cid_wf c = true -> cid_decode (cid_bytes c) = Some c.
Proof.
  destruct c as [v1 codec code d]. unfold cid_wf, cid_decode, cid_bytes.
  cbn [cid_v1 cid_codec cid_code cid_digest]. destruct v1; intros H.
  - apply andb_true_iff in H as [H Hd]. apply andb_true_iff in H as [Hc Hm].
    apply N.ltb_lt in Hc. apply N.ltb_lt in Hm. apply N.leb_le in Hd.
    rewrite uv_decode_write by (unfold two64; lia). rewrite uv_decode_write by exact Hc.
    cbn [N.eqb andb]. replace (1 =? 18) with false by reflexivity. replace (1 =? 1) with true by reflexivity.
    cbn [andb]. rewrite mh_decode_bytes by assumption. reflexivity.
  - apply andb_true_iff in H as [H Hd]. apply andb_true_iff in H as [Hc Hm].
    apply N.eqb_eq in Hc. apply N.eqb_eq in Hm. apply N.eqb_eq in Hd. subst codec code.
    unfold mh_bytes. cbn [cid_code cid_digest].
    rewrite uv_decode_write by (unfold two64; lia). rewrite Hd.
    rewrite uv_decode_write by (unfold two64; lia).
    replace (18 =? 18) with true by reflexivity. replace (32 =? 32) with true by reflexivity. cbn [andb].
    destruct (N.leb_spec 32 (blen d)); [|lia].
    replace 32%nat with (length d) by (unfold blen in Hd; lia). rewrite firstn_all. reflexivity.
Qed.

Lemma uv_decode_lt l v r : uv_decode l = Some (v, r) -> v < two64.
Proof.
  unfold uv_decode. destruct (uv_go 10 true l) as [[v' r']|]; [|discriminate].
  destruct (N.ltb_spec v' two64); intros H0; inv H0. assumption.
Qed.

Lemma cid_decode_wf l c : cid_decode l = Some c -> cid_wf c = true.
Proof.
  unfold cid_decode.
  destruct (uv_decode l) as [[version l1]|]; [|discriminate].
  destruct (uv_decode l1) as [[codec l2]|] eqn:Ec; [|discriminate].
  apply uv_decode_lt in Ec.
  destruct ((version =? 0x12) && (codec =? 0x20)).
  - destruct (N.leb_spec 32 (blen l2)) as [Hl|]; [|discriminate].
    assert (Hd : length (firstn 32 l2) = 32%nat) by (rewrite firstn_length; unfold blen in Hl; lia).
    set (d := firstn 32 l2) in *. clearbody d. intros H0; inv H0.
    unfold cid_wf. cbn [cid_v1 cid_codec cid_code cid_digest].
    unfold blen. rewrite Hd. reflexivity.
  - destruct (version =? 1); [|discriminate]. unfold mh_decode.
    destruct (uv_decode l2) as [[code l3]|] eqn:Em; [|discriminate]. apply uv_decode_lt in Em.
    destruct (uv_decode l3) as [[size l4]|]; [|discriminate].
    destruct (N.leb_spec size 64), (N.leb_spec size (blen l4)); cbn [andb]; let Q := fresh "Q" in intros Q; inv Q.
    unfold cid_wf. cbn [cid_v1 cid_codec cid_code cid_digest].
    rewrite !andb_true_iff, !N.ltb_lt, N.leb_le. repeat split; auto.
    unfold blen. rewrite firstn_length. lia.
Qed.

Definition real_ext (dbg : bool) : ext := Ext sha256 cid_decode dbg.

Lemma real_ext_ok dbg : ext_ok (real_ext dbg).
Proof.
  constructor; [exact sha256_len | exact cid_decode_bytes | exact cid_decode_wf].
Qed.
