(** * Store_proofs: the block store on disk (Programs.v, first part) *)
From Coq Require Import Arith.
From Verif Require Import Base Tac Wire Utf8 Cid Pb Wire_proofs Reader Visit Dir Walk SpecFile SpecWalk Programs SpecPrograms.

(** ** Numbers *)
Definition bval (l : list bool) : N := number 2 (map bit l).
Lemma number_from base l : forall a, fold_left (fun n d => base * n + d) l a = a * base ^ N.of_nat (length l) + number base l.
Proof.
  unfold number. induction l as [|d l IH]; intros a; cbn [fold_left length]; [change (N.of_nat 0) with 0; rewrite N.pow_0_r; lia|].
  rewrite (IH (base * a + d)), (IH (base * 0 + d)), Nat2N.inj_succ, N.pow_succ_r'. ring.
Qed.
Lemma number_app base a b : number base (a ++ b) = number base a * base ^ N.of_nat (length b) + number base b.
Proof. unfold number at 1. rewrite fold_left_app. fold (number base a). apply number_from. Qed.
Lemma number_cons base d l : number base (d :: l) = d * base ^ N.of_nat (length l) + number base l.
Proof. change (d :: l) with ([d] ++ l). rewrite number_app. unfold number at 1. cbn [fold_left]. f_equal. f_equal. ring. Qed.
Lemma number_lt base l : 1 <= base -> Forall (fun d => d < base) l -> number base l < base ^ N.of_nat (length l).
Proof.
  intros B F. induction F as [|d l D F IH]; [vm_compute; reflexivity|].
  rewrite number_cons. cbn [length]. rewrite Nat2N.inj_succ, N.pow_succ_r'. nia.
Qed.
Lemma number_inj base a : forall b, 1 <= base -> length a = length b ->
  Forall (fun d => d < base) a -> Forall (fun d => d < base) b -> number base a = number base b -> a = b.
Proof.
  induction a as [|x a IH]; intros [|y b] B L Fa Fb E; try discriminate; [reflexivity|].
  inversion Fa; inversion Fb; subst. injection L as L. rewrite !number_cons, L in E.
  pose proof (number_lt base a B ltac:(assumption)) as La. pose proof (number_lt base b B ltac:(assumption)) as Lb. rewrite L in La.
  assert (x = y) by nia. subst y. f_equal. apply IH; auto. lia.
Qed.

Lemma bval_bits b : bval (bits_of b) = b2n b.
Proof. destruct b; reflexivity. Qed.
Lemma len_bits key : length (flat_map bits_of key) = (8 * length key)%nat.
Proof. induction key as [|b key IH]; [reflexivity|]. cbn [flat_map]. rewrite app_length, IH. cbn [length bits_of map]. lia. Qed.
Lemma bval_app a b : bval (a ++ b) = bval a * 2 ^ N.of_nat (length b) + bval b.
Proof. unfold bval. rewrite map_app, number_app, map_length. reflexivity. Qed.
Lemma bval_key key : bval (flat_map bits_of key) = number 256 (map b2n key).
Proof.
  induction key as [|b key IH]; [reflexivity|]. cbn [flat_map map]. rewrite bval_app, number_cons, IH, bval_bits, len_bits, map_length.
  f_equal. f_equal. rewrite Nat2N.inj_mul, N.pow_mul_r. reflexivity.
Qed.

(** ** Digits *)
Fixpoint digits5 (l : list bool) : list N :=
  match l with
  | a :: b :: c :: d :: e :: rest => (16 * bit a + 8 * bit b + 4 * bit c + 2 * bit d + bit e) :: digits5 rest
  | [] => []
  | [a] => [16 * bit a]
  | [a; b] => [16 * bit a + 8 * bit b]
  | [a; b; c] => [16 * bit a + 8 * bit b + 4 * bit c]
  | [a; b; c; d] => [16 * bit a + 8 * bit b + 4 * bit c + 2 * bit d]
  end.
Lemma list5_ind {A} (P : list A -> Prop) :
  (forall l, (length l < 5)%nat -> P l) ->
  (forall a b c d e l, P l -> P (a :: b :: c :: d :: e :: l)) -> forall l, P l.
Proof.
  intros S R. assert (H : forall n l, (length l <= n)%nat -> P l).
  { induction n as [|n IH]; intros l L; [apply S; lia|].
    destruct l as [|a [|b [|c [|d [|e l]]]]]; try (apply S; cbn [length]; lia).
    apply R, IH. cbn [length] in L. lia. }
  intros l. apply (H (length l)). lia.
Qed.
Lemma groups_digits l : groups5 l = map digit32 (digits5 l).
Proof.
  induction l as [l L|a b c d e l IH] using list5_ind.
  - destruct l as [|a [|b [|c [|d [|e l]]]]]; try reflexivity. cbn [length] in L. lia.
  - cbn [groups5 digits5 map]. rewrite IH. reflexivity.
Qed.
Lemma digits_len l : (length l <= 5 * length (digits5 l) < length l + 5)%nat.
Proof.
  induction l as [l L|a b c d e l IH] using list5_ind.
  - destruct l as [|a [|b [|c [|d [|e l]]]]]; cbn [digits5 length] in *; lia.
  - cbn [digits5 length]. lia.
Qed.
Lemma bit_le b : bit b <= 1.
Proof. destruct b; cbn; lia. Qed.
Lemma digits_lt l : Forall (fun d => d < 32) (digits5 l).
Proof.
  induction l as [l L|a b c d e l IH] using list5_ind.
  - destruct l as [|a [|b [|c [|d [|e l]]]]]; cbn [digits5]; [constructor|..|cbn [length] in L; lia];
      repeat constructor; repeat match goal with b : bool |- _ => destruct b end; vm_compute; reflexivity.
  - cbn [digits5]. constructor; [destruct a, b, c, d, e; vm_compute; reflexivity|exact IH].
Qed.
Lemma digits_value l : number 32 (digits5 l) = bval l * 2 ^ N.of_nat (5 * length (digits5 l) - length l).
Proof.
  induction l as [l L|a b c d e l IH] using list5_ind.
  - destruct l as [|a [|b [|c [|d [|e l]]]]]; [reflexivity|..|cbn [length] in L; lia];
      repeat match goal with b : bool |- _ => destruct b end; vm_compute; reflexivity.
  - pose proof (digits_len l) as D. pose proof (bval_app [a; b; c; d; e] l) as V. cbn [app] in V. rewrite V. clear V.
    cbn [digits5]. rewrite number_cons, IH.
    replace (5 * length ((16 * bit a + 8 * bit b + 4 * bit c + 2 * bit d + bit e)%N :: digits5 l) - length (a :: b :: c :: d :: e :: l))%nat
      with (5 * length (digits5 l) - length l)%nat by (cbn [length]; lia).
    rewrite (N.mul_add_distr_r (bval _ * _)), <- (N.mul_assoc (bval [a; b; c; d; e])), <- N.pow_add_r, <- Nat2N.inj_add.
    replace (length l + (5 * length (digits5 l) - length l))%nat with (5 * length (digits5 l))%nat by lia.
    rewrite (Nat2N.inj_mul 5 (length (digits5 l))), N.pow_mul_r. change (2 ^ N.of_nat 5) with 32.
    replace (bval [a; b; c; d; e]) with (16 * bit a + 8 * bit b + 4 * bit c + 2 * bit d + bit e) by (destruct a, b, c, d, e; reflexivity).
    reflexivity.
Qed.

Lemma forall2_len {A B} (R : A -> B -> Prop) l l' : Forall2 R l l' -> length l = length l'.
Proof. intros F. induction F; cbn [length]; congruence. Qed.
Lemma digit32_spec d : d < 32 -> base32_digit (digit32 d) d.
Proof.
  intros D. unfold digit32, base32_digit. destruct (N.ltb_spec d 26); rewrite b2n_n2b, N.mod_small by lia; [left|right]; lia.
Qed.
Lemma base32_digit_fun x d d' : base32_digit x d -> base32_digit x d' -> d = d'.
Proof. unfold base32_digit. lia. Qed.
Lemma base32_digit_inj x y d : base32_digit x d -> base32_digit y d -> x = y.
Proof. unfold base32_digit. intros A B. apply b2n_inj. lia. Qed.
Lemma base32_digit_lt x d : base32_digit x d -> d < 32.
Proof. unfold base32_digit. lia. Qed.

Lemma base32_model key : in_base32 key (base32_upper key).
Proof.
  unfold base32_upper. set (l := flat_map bits_of key). exists (digits5 l). rewrite groups_digits.
  pose proof (digits_len l) as D. pose proof (len_bits key) as L. fold l in L.
  split; [|split].
  - pose proof (digits_lt l) as F. clear D. induction F as [|d ds Hd F IH]; cbn [map]; [constructor|]. constructor; [apply digit32_spec, Hd|exact IH].
  - unfold blen. rewrite map_length. lia.
  - rewrite digits_value. unfold l at 1. rewrite bval_key. f_equal. f_equal. unfold blen. rewrite map_length. lia.
Qed.
Lemma base32_unique key n1 n2 : in_base32 key n1 -> in_base32 key n2 -> n1 = n2.
Proof.
  intros (d1 & F1 & L1 & V1) (d2 & F2 & L2 & V2).
  assert (L : length n1 = length n2) by (unfold blen in *; lia).
  assert (E : d1 = d2).
  { apply (number_inj 32); [lia| | | |].
    - rewrite <- (forall2_len _ _ _ F1), <- (forall2_len _ _ _ F2). exact L.
    - clear - F1. induction F1; constructor; eauto using base32_digit_lt.
    - clear - F2. induction F2; constructor; eauto using base32_digit_lt.
    - rewrite V1, V2. unfold blen. rewrite L. reflexivity. }
  subst d2. clear - F1 F2. revert n2 F2. induction F1; intros n2 F2; inversion F2; subst; [reflexivity|].
  f_equal; [eapply base32_digit_inj; eassumption|auto].
Qed.
(** the name determines the key *)
Lemma base32_key k1 k2 n : in_base32 k1 n -> in_base32 k2 n -> k1 = k2.
Proof.
  intros (d1 & F1 & L1 & V1) (d2 & F2 & L2 & V2).
  assert (L : length k1 = length k2) by (unfold blen in *; lia).
  assert (E : d1 = d2).
  { clear - F1 F2. revert d2 F2. induction F1; intros d2 F2; inversion F2; subst; [reflexivity|].
    f_equal; [eapply base32_digit_fun; eassumption|auto]. }
  subst d2. rewrite V1 in V2. replace (blen k2) with (blen k1) in V2 by (unfold blen; rewrite L; reflexivity).
  apply N.mul_cancel_r in V2; [|apply N.pow_nonzero; lia].
  apply (number_inj 256) in V2; [|lia|rewrite !map_length; exact L|..].
  - clear - V2. revert k2 V2. induction k1 as [|x k1 IH]; intros [|y k2] E; try discriminate; [reflexivity|].
    injection E as E1 E2. apply b2n_inj in E1. f_equal; auto.
  - clear. induction k1; constructor; auto using b2n_lt.
  - clear. induction k2; constructor; auto using b2n_lt.
Qed.
Lemma base32_no_slash key n : in_base32 key n -> ~ In x2f n.
Proof.
  intros (d & F & _) I. clear - F I. induction F as [|x y l l' D F IH]; [destruct I|].
  destruct I as [->|I]; [|auto]. unfold base32_digit in D. change (b2n x2f) with 47 in D. lia.
Qed.

(** ** Paths *)
Lemma varint_nonempty n : (1 <= length (write_varint n))%nat.
Proof. unfold write_varint. cbn [varint_go]. destruct (_ <? _); cbn [length]; lia. Qed.
Lemma cid_bytes_len c : (2 <= length (cid_bytes c))%nat.
Proof.
  unfold cid_bytes, mh_bytes. pose proof (varint_nonempty (cid_code c)). pose proof (varint_nonempty (blen (cid_digest c))).
  destruct (cid_v1 c); rewrite ?app_length; lia.
Qed.
Lemma push_rel p name : p <> [] -> (forall q, p <> q ++ [x2f]) -> ~ In x2f name -> path_push p name = p ++ x2f :: name.
Proof.
  intros P1 P2 Nm. unfold path_push. replace (is_absolute name) with false.
  - destruct (rev p) as [|x r] eqn:E.
    + exfalso. apply P1. rewrite <- (rev_involutive p), E. reflexivity.
    + destruct (byte_eqb x sep) eqn:B; [|reflexivity]. apply byte_eqb_eq in B. subst x. exfalso. apply (P2 (rev r)).
      rewrite <- (rev_involutive p), E. reflexivity.
  - destruct name as [|x name]; [reflexivity|]. cbn [is_absolute]. symmetry. destruct (byte_eqb x sep) eqn:B; [|reflexivity].
    apply byte_eqb_eq in B. subst x. exfalso. apply Nm. left. reflexivity.
Qed.
Lemma no_trailing p s : s <> [] -> ~ In x2f s -> forall q, p ++ s <> q ++ [x2f].
Proof.
  intros S Ns q E. destruct (exists_last S) as (s' & x & ->). rewrite app_assoc in E. apply app_inj_tail in E as [_ ->].
  apply Ns, in_or_app. right. left. reflexivity.
Qed.
Lemma blocks_dir_form ipfs : exists pre, blocks_dir ipfs = pre ++ [x62; x6c; x6f; x63; x6b; x73].
Proof.
  unfold blocks_dir, path_push. cbn [is_absolute]. change (byte_eqb x62 sep) with false. cbn match.
  destruct (rev ipfs) as [|x r]; [exists []; reflexivity|]. destruct (byte_eqb x sep); [eexists; reflexivity|].
  exists (ipfs ++ [sep]). rewrite <- app_assoc. reflexivity.
Qed.

(** [dir] is a good place for a store: a name that does not end in a slash *)
Definition good_dir (dir : bytes) : Prop := dir <> [] /\ forall q, dir <> q ++ [x2f].
Lemma blocks_dir_good ipfs : good_dir (blocks_dir ipfs).
Proof.
  destruct (blocks_dir_form ipfs) as [pre ->]. split; [destruct pre; discriminate|].
  apply no_trailing; [discriminate|]. intros H. cbn in H. repeat (destruct H as [H|H]; [discriminate H|]). exact H.
Qed.

Lemma as_path_file {E} dir c : good_dir dir -> exists path, @as_path E dir (cid_bytes c) = Ok path /\ block_file dir c path.
Proof.
  intros [G1 G2]. unfold as_path. cbv zeta. set (name := base32_upper (cid_bytes c)).
  pose proof (base32_model (cid_bytes c)) as B. fold name in B.
  assert (L : (4 <= length name)%nat).
  { destruct B as (_ & _ & B & _). pose proof (cid_bytes_len c). unfold blen in B. lia. }
  pose proof (base32_no_slash _ _ B) as NS.
  assert (S : exists pre y z last, name = pre ++ [y; z; last] /\ length pre = (length name - 3)%nat).
  { exists (firstn (length name - 3) name). pose proof (firstn_skipn (length name - 3) name) as F.
    pose proof (skipn_length (length name - 3) name) as SL.
    destruct (skipn (length name - 3) name) as [|y [|z [|l [|? ?]]]]; cbn [length] in SL; try lia.
    exists y, z, l. split; [symmetry; exact F|]. rewrite firstn_length. lia. }
  destruct S as (pre & y & z & last & S & PL).
  replace (3 <=? length name)%nat with true by (symmetry; apply Nat.leb_le; lia). cbn [assert bind].
  assert (D : firstn 2 (skipn (length name - 3) name) = [y; z]).
  { rewrite <- PL, S, skipn_app, skipn_all, Nat.sub_diag. reflexivity. }
  rewrite D. clear D. cbn [length Nat.eqb assert bind].
  eexists. split; [reflexivity|]. exists pre, y, z, last. rewrite <- S. split; [exact B|].
  assert (NS2 : ~ In x2f [y; z]).
  { intros I. apply NS. rewrite S. apply in_or_app. right. cbn in *. tauto. }
  rewrite push_rel; [|intros P|intros q P|exact NS].
  - rewrite push_rel by assumption. unfold set_extension_data. rewrite <- !app_assoc. reflexivity.
  - rewrite push_rel in P by assumption. destruct dir; discriminate.
  - rewrite push_rel in P by assumption. change (x2f :: [y; z]) with ([x2f] ++ [y; z]) in P. rewrite app_assoc in P.
    revert P. apply no_trailing; [discriminate|exact NS2].
Qed.

Lemma last_slash a b x y : ~ In x2f x -> ~ In x2f y -> a ++ x2f :: x = b ++ x2f :: y -> a = b /\ x = y.
Proof.
  intros X Y. revert b. induction a as [|h a IH]; intros [|h' b] E; cbn [app] in E.
  - injection E as ->. auto.
  - injection E as <- E. exfalso. apply X. rewrite E. apply in_or_app. right. left. reflexivity.
  - injection E as -> E. exfalso. apply Y. rewrite <- E. apply in_or_app. right. left. reflexivity.
  - injection E as <- E. apply IH in E as [-> ->]. auto.
Qed.
Lemma block_file_stem dir c path : block_file dir c path ->
  exists a name, in_base32 (cid_bytes c) name /\ path = a ++ x2f :: name ++ [x2e; x64; x61; x74; x61] /\ ~ In x2f (name ++ [x2e; x64; x61; x74; x61]).
Proof.
  intros (pre & y & z & last & B & ->). exists (dir ++ [x2f; y; z]), (pre ++ [y; z; last]). split; [exact B|]. split.
  - cbn [app]. repeat (rewrite <- app_assoc; cbn [app]). reflexivity.
  - intros I. apply in_app_or in I as [I|I]; [eapply base32_no_slash; eassumption|].
    cbn in I. repeat (destruct I as [I|I]; [discriminate I|]). exact I.
Qed.
Lemma block_file_unique dir c p1 p2 : block_file dir c p1 -> block_file dir c p2 -> p1 = p2.
Proof.
  intros (pre & y & z & last & B & ->) (pre' & y' & z' & last' & B' & ->).
  pose proof (base32_unique _ _ _ B B') as E. rewrite <- E.
  change [y; z; last] with ([y; z] ++ [last]) in E. change [y'; z'; last'] with ([y'; z'] ++ [last']) in E.
  rewrite !app_assoc in E. apply app_inj_tail in E as [E _].
  change [y; z] with ([y] ++ [z]) in E. change [y'; z'] with ([y'] ++ [z']) in E. rewrite !app_assoc in E.
  apply app_inj_tail in E as [E ->]. apply app_inj_tail in E as [_ ->]. reflexivity.
Qed.
Lemma block_file_key dir dir' c c' path : block_file dir c path -> block_file dir' c' path -> cid_bytes c = cid_bytes c'.
Proof.
  intros B B'. destruct (block_file_stem _ _ _ B) as (a & n & N & E & S). destruct (block_file_stem _ _ _ B') as (a' & n' & N' & E' & S').
  rewrite E in E'. apply last_slash in E' as [_ E']; [|assumption|assumption]. apply app_inv_tail in E'. subst n'.
  eapply base32_key; eassumption.
Qed.
Lemma cid_bytes_inj X c c' : ext_ok X -> cid_wf c = true -> cid_wf c' = true -> cid_bytes c = cid_bytes c' -> c = c'.
Proof.
  intros HX W W' E. pose proof (decode_bytes X HX c W) as D. rewrite E, (decode_bytes X HX c' W') in D. congruence.
Qed.

(** ** Reading blocks *)
Lemma read_block_cases {T} fs dir c : good_dir dir -> exists path, block_file dir c path
  /\ @read_block T fs dir c = match fs path with CannotOpen e => Err (OpeningFailed e) | CannotRead e => Err (Other e) | Contents b => Ok b end.
Proof.
  intros G. destruct (@as_path_file (program_error T) dir c G) as (p & A & B). exists p. split; [exact B|].
  unfold read_block. rewrite A. reflexivity.
Qed.
Lemma read_stocked {T} fs dir get c b : good_dir dir -> stocked fs dir get -> get c = Some b -> @read_block T fs dir c = Ok b.
Proof. intros G S H. destruct (@read_block_cases T fs dir c G) as (p & B & ->). rewrite (S c b p H B). reflexivity. Qed.
Lemma read_on_disk {T} fs dir c what : good_dir dir -> on_disk fs dir c what ->
  @read_block T fs dir c = match what with CannotOpen e => Err (OpeningFailed e) | CannotRead e => Err (Other e) | Contents b => Ok b end.
Proof. intros G H. destruct (@read_block_cases T fs dir c G) as (p & B & ->). rewrite (H p B). reflexivity. Qed.
Lemma read_unreadable {T} fs dir c err : good_dir dir -> unreadable fs dir c err -> @read_block T fs dir c = Err err.
Proof. intros G [(e & H & ->)|(e & H & ->)]; rewrite (read_on_disk fs dir c _ G H); reflexivity. Qed.
Lemma stocked_intact fs dir get c b : stocked fs dir get -> get c = Some b -> intact fs dir get c.
Proof. intros S H. exists b. split; [exact H|]. intros p. exact (S c b p H). Qed.
Lemma read_intact {T} fs dir get c b : good_dir dir -> intact fs dir get c -> get c = Some b -> @read_block T fs dir c = Ok b.
Proof. intros G (b' & H & D) E. rewrite (read_on_disk fs dir c _ G D). congruence. Qed.
Lemma place_dir ipfs dir : blocks_place ipfs dir <-> dir = blocks_dir ipfs.
Proof.
  unfold blocks_place, blocks_dir, path_push. cbv zeta. cbn [is_absolute]. change (byte_eqb x62 sep) with false. cbn match.
  destruct (rev ipfs) as [|x r] eqn:E.
  - assert (E0 : ipfs = []) by (rewrite <- (rev_involutive ipfs), E; reflexivity). subst ipfs. split; [|intros ->; left; auto].
    intros [[_ ->]|[N _]]; [reflexivity|]. exfalso. apply N. auto.
  - assert (E0 : ipfs = rev r ++ [x]) by (rewrite <- (rev_involutive ipfs), E; reflexivity). clear E. destruct (byte_eqb x sep) eqn:B.
    + apply byte_eqb_eq in B. subst x. assert (R : ipfs = [] \/ exists q, ipfs = q ++ [x2f]) by (right; exists (rev r); exact E0).
      split; [|intros ->; left; auto]. intros [[_ ->]|[N _]]; [reflexivity|contradiction].
    + assert (R : ~ (ipfs = [] \/ exists q, ipfs = q ++ [x2f])).
      { intros [R|[q R]]; [rewrite R in E0; destruct (rev r); discriminate|]. rewrite R in E0. apply app_inj_tail in E0 as [_ <-].
        discriminate B. }
      split; [|intros ->; right; auto]. intros [[N _]|[_ ->]]; [contradiction|reflexivity].
Qed.
Lemma place_good ipfs dir : blocks_place ipfs dir -> good_dir dir.
Proof. intros P. apply place_dir in P. subst. apply blocks_dir_good. Qed.
