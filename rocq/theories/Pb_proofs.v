From Verif Require Import Base Tac Wire Utf8 Cid Pb SpecWire Wire_proofs.

(** ** The default branches *)
Ltac pos_cases t :=
  destruct t as [|t]; [|do 8 (destruct t as [t|t|]; try reflexivity; try congruence)].

Lemma pblink_step_other dbg b t m r : t <> 10 -> t <> 18 -> t <> 24 ->
  pblink_step dbg b t m r = unknown dbg b t m r.
Proof. intros. unfold pblink_step. pos_cases t. reflexivity. Qed.

Lemma pbnode_step_other dbg b t m r : t <> 10 -> t <> 18 ->
  pbnode_step dbg b t m r = unknown dbg b t m r.
Proof. intros. unfold pbnode_step. pos_cases t. reflexivity. Qed.

Lemma unixtime_step_other dbg b t m r : t <> 8 -> t <> 21 ->
  unixtime_step dbg b t m r = unknown dbg b t m r.
Proof. intros. unfold unixtime_step. pos_cases t. reflexivity. Qed.

Lemma unixfs_step_other dbg b t m r :
  t <> 8 -> t <> 18 -> t <> 24 -> t <> 32 -> t <> 40 -> t <> 48 -> t <> 56 -> t <> 66 ->
  unixfs_step dbg b t m r = unknown dbg b t m r.
Proof. intros. destruct m. unfold unixfs_step. pos_cases t. reflexivity. Qed.

Lemma tag_varint num v k : num * 8 + wire_type v = k * 8 -> exists x, WField num v = WField k (WVarint x).
Proof.
  intros H. destruct v as [x|x|x|x]; cbn [wire_type] in H; try lia.
  exists x. f_equal. lia.
Qed.
Lemma tag_len num v k : num * 8 + wire_type v = k * 8 + 2 -> exists x, WField num v = WField k (WLen x).
Proof.
  intros H. destruct v as [x|x|x|x]; cbn [wire_type] in H; try lia.
  exists x. f_equal. lia.
Qed.
Lemma tag_fixed32 num v k : num * 8 + wire_type v = k * 8 + 5 -> exists x, WField num v = WField k (WFixed32 x).
Proof.
  intros H. destruct v as [x|x|x|x]; cbn [wire_type] in H; try lia.
  exists x. f_equal. lia.
Qed.

Ltac not_varint k H :=
  let E := fresh in intros E; destruct (tag_varint _ _ k E) as [? ?]; eapply H; eassumption.
Ltac not_len k H :=
  let E := fresh in intros E; destruct (tag_len _ _ k E) as [? ?]; eapply H; eassumption.
Ltac not_fixed32 k H :=
  let E := fresh in intros E; destruct (tag_fixed32 _ _ k E) as [? ?]; eapply H; eassumption.

(** decompose one encoded field at the head *)
Ltac head Henc :=
  let a := fresh "a" in let rest := fresh "rest" in
  inversion Henc as [| ? ? a rest Hf Hrest]; subst; clear Henc;
  destruct Hf as (tb & tw & pb & Htv & Htl & Hpl & ->); cbn [w_num w_val wire_type lax_payload] in *;
  try change (link_known 1) with true in Hpl; try change (link_known 2) with true in Hpl;
  try change (node_known 1) with true in Hpl; try change (node_known 2) with true in Hpl;
  try change (unixfs_known 2) with true in Hpl; try change (unixfs_known 8) with true in Hpl; cbv iota in Hpl.

(** the modulus matters for lengths only *)
Lemma lax_unknown (k : N -> bool) num v bs :
  (k num = true -> forall x, WField num v <> WField num (WLen x)) ->
  lax_payload (if k num then two32 else two64) v bs -> lax_payload two64 v bs.
Proof.
  intros H P. destruct (k num); [|exact P]. destruct v; try exact P. destruct (H eq_refl x eq_refl).
Qed.

Lemma nonempty_app tb (pb : bytes) v : varint tb v -> tb ++ pb <> [].
Proof. intros H E. apply app_eq_nil in E as [E _]. exact (varint_nonempty _ _ H E). Qed.

Lemma link_steps dbg m fs m' : link_sem m fs m' ->
  forall pos bs, laxly link_known fs bs -> blen bs < two32 -> steps (pblink_step dbg) pos m bs m'.
Proof.
  induction 1 as [m | h n t x fs m' Hsem IH | h n t x fs m' Hu Hsem IH | h n t v fs m' Hsem IH
                 | m f fs m' H1 H2 H3 Hsem IH];
    intros pos bs Henc Hl.
  - inv Henc. apply steps_nil.
  - head Henc. destruct Hpl as (lb & w & Hlb & Hw & ->). rewrite !blen_app in Hl.
    eapply steps_cons; [eapply nonempty_app; eauto | | apply IH; [exact Hrest | lia]].
    eapply iter_reads; [exact Htv | exact Htl |].
    apply (reads_at_map _ (read_bytes dbg) (set_hash (PBLink h n t))).
    eapply read_bytes_reads; [exact Hlb | exact Hw].
  - head Henc. destruct Hpl as (lb & w & Hlb & Hw & ->). rewrite !blen_app in Hl.
    eapply steps_cons; [eapply nonempty_app; eauto | | apply IH; [exact Hrest | lia]].
    eapply iter_reads; [exact Htv | exact Htl |].
    apply (reads_at_map _ (fun b => read_string dbg b utf8_valid) (set_name (PBLink h n t))).
    eapply read_string_reads; [exact Hlb | exact Hw | exact Hu].
  - head Henc. destruct Hpl as (w & Hv & Hn). rewrite !blen_app in Hl.
    eapply steps_cons; [eapply nonempty_app; eauto | | apply IH; [exact Hrest | lia]].
    eapply iter_reads; [exact Htv | exact Htl |].
    apply (reads_at_map _ read_varint64 (set_tsize (PBLink h n t)) pb v).
    rewrite Hn. apply read_varint64_reads. exact Hv.
  - destruct f as [num val]. head Henc. rewrite !blen_app in Hl.
    eapply steps_cons; [eapply nonempty_app; eauto | | apply IH; [exact Hrest | lia]].
    eapply iter_reads; [exact Htv | exact Htl |].
    eapply reads_at_ext; [|apply (unknown_reads _ dbg m val num pb); eapply lax_unknown; [|exact Hpl]; intros K x E; unfold link_known in K; apply orb_prop in K as [K|K]; apply N.eqb_eq in K; subst num; [eapply H1|eapply H2]; exact E].
    intros b r. symmetry. apply pblink_step_other.
    + not_len 1 H1.
    + not_len 2 H2.
    + not_varint 3 H3.
Qed.

Lemma i64_value_of v : i64_value v = i64_of_u64 v.
Proof.
  unfold i64_value, i64_of_u64, two63.
  replace (2 ^ 63) with 9223372036854775808 by reflexivity.
  replace (2 ^ 64)%Z with 18446744073709551616%Z by reflexivity.
  destruct (v <? 9223372036854775808); reflexivity.
Qed.

Lemma time_steps dbg m fs m' : time_sem m fs m' ->
  forall pos bs, laxly time_known fs bs -> blen bs < two32 -> steps (unixtime_step dbg) pos m bs m'.
Proof.
  induction 1 as [m | s n v fs m' Hsem IH | s n x fs m' Hsem IH | m f fs m' H1 H2 Hsem IH];
    intros pos bs Henc Hl.
  - inv Henc. apply steps_nil.
  - head Henc. destruct Hpl as (w & Hv & Hn). rewrite !blen_app in Hl.
    eapply steps_cons; [eapply nonempty_app; eauto | | apply IH; [exact Hrest | lia]].
    eapply iter_reads; [exact Htv | exact Htl |].
    rewrite i64_value_of.
    apply (reads_at_map _ read_varint64 (fun v => UnixTime (i64_of_u64 v) n) pb v).
    rewrite Hn. apply read_varint64_reads. exact Hv.
  - head Henc. destruct Hpl as [-> H4]. rewrite !blen_app in Hl.
    eapply steps_cons; [eapply nonempty_app; eauto | | apply IH; [exact Hrest | lia]].
    eapply iter_reads; [exact Htv | exact Htl |].
    apply (reads_at_map _ (read_fixed32 dbg) (fun v => UnixTime s (Some v)) x (le32 x)).
    apply read_fixed32_reads. exact H4.
  - destruct f as [num val]. head Henc. rewrite !blen_app in Hl.
    eapply steps_cons; [eapply nonempty_app; eauto | | apply IH; [exact Hrest | lia]].
    eapply iter_reads; [exact Htv | exact Htl |].
    eapply reads_at_ext; [|apply (unknown_reads _ dbg m val num pb); exact Hpl].
    intros b r. symmetry. apply unixtime_step_other.
    + not_varint 1 H1.
    + not_fixed32 2 H2.
Qed.

Lemma type_value_of v : type_value v = ftype_of v.
Proof.
  unfold type_value, ftype_of.
  repeat match goal with |- context [?a =? ?b] => destruct (N.eqb_spec a b); [subst; reflexivity|] end.
  pos_cases v; reflexivity.
Qed.

Lemma unixfs_steps dbg m fs m' : unixfs_sem (laxly time_known) m fs m' ->
  forall pos bs, laxly unixfs_known fs bs -> blen bs < two32 -> steps (unixfs_step dbg) pos m bs m'.
Proof.
  assert (v64 : forall pos pb w v (f : N -> unixfs), varint pb w -> v = w mod two64 ->
    reads_at pos (fun b r => do (r1, x) <- read_varint64 b r; Ok (r1, f x)) pb (f v)).
  { intros pos pb w v f Hv Hn. apply reads_at_map.
    rewrite Hn. apply read_varint64_reads. exact Hv. }
  assert (v32 : forall pos pb w v (f : N -> unixfs), varint pb w -> v = w mod two64 ->
    reads_at pos (fun b r => do (r1, x) <- read_varint32 b r; Ok (r1, f x)) pb (f (v mod two32))).
  { intros pos pb w v f Hv Hn. apply reads_at_map. subst v. replace ((w mod two64) mod two32) with (w mod two32).
    - apply read_varint32_reads. exact Hv.
    - change two64 with (two32 * two32). rewrite N.mod_mul_r by discriminate. rewrite (N.mul_comm two32 ((w / two32) mod two32)), N.mod_add by discriminate. symmetry. apply N.mod_mod. discriminate. }
  induction 1 as [m
    | ty d s bz h fa mo t v fs m' Hsem IH
    | ty d s bz h fa mo t x fs m' Hsem IH
    | ty d s bz h fa mo t v fs m' Hsem IH
    | ty d s bz h fa mo t v fs m' Hsem IH
    | ty d s bz h fa mo t v fs m' Hsem IH
    | ty d s bz h fa mo t v fs m' Hsem IH
    | ty d s bz h fa mo t v fs m' Hsem IH
    | ty d s bz h fa mo t x tfs tm fs m' Htenc Htsem Hsem IH
    | m f fs m' H1 H2 H3 H4 H5 H6 H7 H8 Hsem IH];
    intros pos bs Henc Hl.
  - inv Henc. apply steps_nil.
  - head Henc. destruct Hpl as (w & Hv & Hn). rewrite !blen_app in Hl.
    eapply steps_cons; [eapply nonempty_app; eauto | | apply IH; [exact Hrest | lia]].
    eapply iter_reads; [exact Htv | exact Htl |].
    rewrite type_value_of.
    apply (v32 _ pb w v (fun v => UnixFs (ftype_of v) d s bz h fa mo t)); assumption.
  - head Henc. destruct Hpl as (lb & w & Hlb & Hw & ->). rewrite !blen_app in Hl.
    eapply steps_cons; [eapply nonempty_app; eauto | | apply IH; [exact Hrest | lia]].
    eapply iter_reads; [exact Htv | exact Htl |].
    apply (reads_at_map _ (read_bytes dbg) (fun v => UnixFs ty (Some v) s bz h fa mo t)).
    eapply read_bytes_reads; [exact Hlb | exact Hw].
  - head Henc. destruct Hpl as (w & Hv & Hn). rewrite !blen_app in Hl.
    eapply steps_cons; [eapply nonempty_app; eauto | | apply IH; [exact Hrest | lia]].
    eapply iter_reads; [exact Htv | exact Htl |].
    apply (v64 _ pb w v (fun v => UnixFs ty d (Some v) bz h fa mo t)); assumption.
  - head Henc. destruct Hpl as (w & Hv & Hn). rewrite !blen_app in Hl.
    eapply steps_cons; [eapply nonempty_app; eauto | | apply IH; [exact Hrest | lia]].
    eapply iter_reads; [exact Htv | exact Htl |].
    apply (v64 _ pb w v (fun v => UnixFs ty d s (bz ++ [v]) h fa mo t)); assumption.
  - head Henc. destruct Hpl as (w & Hv & Hn). rewrite !blen_app in Hl.
    eapply steps_cons; [eapply nonempty_app; eauto | | apply IH; [exact Hrest | lia]].
    eapply iter_reads; [exact Htv | exact Htl |].
    apply (v64 _ pb w v (fun v => UnixFs ty d s bz (Some v) fa mo t)); assumption.
  - head Henc. destruct Hpl as (w & Hv & Hn). rewrite !blen_app in Hl.
    eapply steps_cons; [eapply nonempty_app; eauto | | apply IH; [exact Hrest | lia]].
    eapply iter_reads; [exact Htv | exact Htl |].
    apply (v64 _ pb w v (fun v => UnixFs ty d s bz h (Some v) mo t)); assumption.
  - head Henc. destruct Hpl as (w & Hv & Hn). rewrite !blen_app in Hl.
    eapply steps_cons; [eapply nonempty_app; eauto | | apply IH; [exact Hrest | lia]].
    eapply iter_reads; [exact Htv | exact Htl |].
    apply (v32 _ pb w v (fun v => UnixFs ty d s bz h fa (Some v) t)); assumption.
  - head Henc. destruct Hpl as (lb & w & Hlb & Hw & ->). rewrite !blen_app in Hl.
    eapply steps_cons; [eapply nonempty_app; eauto | | apply IH; [exact Hrest | lia]].
    eapply iter_reads; [exact Htv | exact Htl |].
    apply (reads_at_map _ (fun b => read_message dbg b (unixtime_step dbg b) unixtime_default)
             (fun v => UnixFs ty d s bz h fa mo (Some v))).
    eapply read_message_reads; [exact Hlb | exact Hw |].
    apply time_steps with (fs := tfs); [exact Htsem | exact Htenc | lia].
  - destruct f as [num val]. head Henc. rewrite !blen_app in Hl.
    eapply steps_cons; [eapply nonempty_app; eauto | | apply IH; [exact Hrest | lia]].
    eapply iter_reads; [exact Htv | exact Htl |].
    eapply reads_at_ext; [|apply (unknown_reads _ dbg m val num pb); eapply lax_unknown; [|exact Hpl]; intros K x E; unfold unixfs_known in K; apply orb_prop in K as [K|K]; apply N.eqb_eq in K; subst num; [eapply H2|eapply H8]; exact E].
    intros b r. symmetry. apply unixfs_step_other.
    + not_varint 1 H1.
    + not_len 2 H2.
    + not_varint 3 H3.
    + not_varint 4 H4.
    + not_varint 5 H5.
    + not_varint 6 H6.
    + not_varint 7 H7.
    + not_len 8 H8.
Qed.

(** for the node the offset of the data slice is existential, but it points at
    the data inside the block *)
Definition data_at (blk : bytes) (d : option bytes) (s : option (N * bytes)) : Prop :=
  match d, s with
  | None, None => True
  | Some x, Some (off, y) =>
      x = y /\ exists pre post, blk = pre ++ x ++ post /\ blen pre = off /\ pre <> []
  | _, _ => False
  end.

Lemma node_steps dbg ls d fs ls' d' : node_sem (laxly link_known) ls d fs ls' d' ->
  forall pre bs s, laxly node_known fs bs -> blen bs < two32 -> data_at (pre ++ bs) d s ->
  exists s', steps (pbnode_step dbg) (blen pre) (PBNode ls s) bs (PBNode ls' s')
             /\ data_at (pre ++ bs) d' s'.
Proof.
  induction 1 as [ls d | ls d x lfs l fs ls' d' Hlenc Hlsem Hsem IH | ls d x fs ls' d' Hsem IH
                 | ls d f fs ls' d' H1 H2 Hsem IH];
    intros pre bs s Henc Hl Hd.
  - inv Henc. exists s. split; [apply steps_nil | exact Hd].
  - head Henc. destruct Hpl as (lb & w & Hlb & Hw & ->).
    replace (pre ++ (tb ++ lb ++ x) ++ rest) with ((pre ++ (tb ++ lb ++ x)) ++ rest) in * by app_assoc.
    destruct (IH (pre ++ (tb ++ lb ++ x)) rest s Hrest) as [s' [Hst Hd']];
      [rewrite !blen_app in Hl; lia | exact Hd |].
    exists s'. split; [|exact Hd'].
    rewrite !blen_app in Hl.
    eapply steps_cons; [eapply nonempty_app; eauto | | rewrite <- blen_app; exact Hst].
    eapply iter_reads; [exact Htv | exact Htl |].
    apply (reads_at_map _ (fun b => read_message dbg b (pblink_step dbg b) pblink_default)
             (fun l => PBNode (ls ++ [l]) s)).
    eapply read_message_reads; [exact Hlb | exact Hw |].
    apply link_steps with (fs := lfs); [exact Hlsem | exact Hlenc | lia].
  - head Henc. destruct Hpl as (lb & w & Hlb & Hw & ->).
    replace (pre ++ (tb ++ lb ++ x) ++ rest) with ((pre ++ (tb ++ lb ++ x)) ++ rest) in * by app_assoc.
    destruct (IH (pre ++ (tb ++ lb ++ x)) rest (Some (blen pre + blen tb + blen lb, x)) Hrest) as [s' [Hst Hd']].
    + rewrite !blen_app in Hl; lia.
    + cbn [data_at]. split; [reflexivity|]. exists (pre ++ tb ++ lb), rest.
      split; [app_assoc | split].
      * rewrite !blen_app. lia.
      * intros E. apply app_eq_nil in E as [_ E]. apply app_eq_nil in E as [E _].
        eapply varint_nonempty; [exact Htv | exact E].
    + exists s'. split; [|exact Hd']. rewrite !blen_app in Hl.
      eapply steps_cons; [eapply nonempty_app; eauto | | rewrite <- blen_app; exact Hst].
      eapply iter_reads; [exact Htv | exact Htl |].
      apply (reads_at_map _ (read_slice dbg) (fun s => PBNode ls (Some s))).
      eapply read_slice_reads; [exact Hlb | exact Hw].
  - destruct f as [num val]. head Henc.
    replace (pre ++ (tb ++ pb) ++ rest) with ((pre ++ (tb ++ pb)) ++ rest) in * by app_assoc.
    destruct (IH (pre ++ (tb ++ pb)) rest s Hrest) as [s' [Hst Hd']];
      [rewrite !blen_app in Hl; lia | exact Hd |].
    exists s'. split; [|exact Hd']. rewrite !blen_app in Hl.
    eapply steps_cons; [eapply nonempty_app; eauto | | rewrite <- blen_app; exact Hst].
    eapply iter_reads; [exact Htv | exact Htl |].
    eapply reads_at_ext; [|apply (unknown_reads _ dbg _ val num pb); eapply lax_unknown; [|exact Hpl]; intros K x E; unfold node_known in K; apply orb_prop in K as [K|K]; apply N.eqb_eq in K; subst num; [eapply H2|eapply H1]; exact E].
    intros b r. symmetry. apply pbnode_step_other.
    + not_len 1 H2.
    + not_len 2 H1.
Qed.

Lemma two32_lt_two64 n : n < two32 -> n < two64.
Proof. unfold two32, two64. lia. Qed.

(** ** Proper encodings are sloppy ones *)
Lemma payload_lax k num v bs : payload v bs -> blen bs < two32 ->
  lax_payload (if (k : N -> bool) num then two32 else two64) v bs.
Proof.
  intros P L. destruct v; cbn [payload lax_payload] in *; try exact P.
  - destruct P as [P1 P2]. exists v. split; [exact P1|]. symmetry. apply N.mod_small. exact P2.
  - destruct P as (lb & P1 & ->). exists lb, (blen x). split; [exact P1|]. split; [|reflexivity]. rewrite blen_app in L.
    symmetry. apply N.mod_small. unfold two32, two64 in *. destruct (k num); lia.
Qed.
Lemma encodes_lax k fs bs : encodes fs bs -> blen bs < two32 -> laxly k fs bs.
Proof.
  induction 1 as [|f fs a b Hf Hb IH]; intros L; [constructor|]. rewrite blen_app in L.
  constructor; [|apply IH; lia]. destruct Hf as (tb & pb & H1 & H2 & H3 & ->). rewrite blen_app in L.
  exists tb, (w_num f * 8 + wire_type (w_val f)), pb. split; [exact H1|]. split; [symmetry; apply N.mod_small; exact H2|].
  split; [|reflexivity]. apply payload_lax; [exact H3|lia].
Qed.
Lemma field_small num x a : enc_field (WField num (WLen x)) a -> blen x <= blen a.
Proof. intros (tb & pb & _ & _ & (lb & _ & ->) & ->). rewrite !blen_app. lia. Qed.
Lemma node_sem_lax ls d fs ls' d' : node_sem encodes ls d fs ls' d' ->
  forall bs, encodes fs bs -> blen bs < two32 -> node_sem (laxly link_known) ls d fs ls' d'.
Proof.
  induction 1 as [ls d|ls d x lfs l fs ls' d' Hlenc Hlsem Hsem IH|ls d x fs ls' d' Hsem IH|ls d f fs ls' d' H1 H2 Hsem IH];
    intros bs He L; inv He; rewrite ?blen_app in L.
  - constructor.
  - econstructor; [|exact Hlsem|eapply IH; [eassumption|lia]]. apply encodes_lax; [exact Hlenc|].
    match goal with H : enc_field _ _ |- _ => apply field_small in H end. lia.
  - apply ns_data. eapply IH; [eassumption|lia].
  - apply ns_other; [exact H1|exact H2|eapply IH; [eassumption|lia]].
Qed.
Lemma unixfs_sem_lax m fs m' : unixfs_sem encodes m fs m' ->
  forall bs, encodes fs bs -> blen bs < two32 -> unixfs_sem (laxly time_known) m fs m'.
Proof.
  induction 1; intros bs' He L; inv He; rewrite ?blen_app in L;
    [constructor|..|apply us_other; try assumption; eapply IHunixfs_sem; [eassumption|lia]];
    try solve [constructor; eapply IHunixfs_sem; [eassumption|lia]].
  eapply us_mtime; [|eassumption|eapply IHunixfs_sem; [eassumption|lia]]. apply encodes_lax; [assumption|].
  match goal with H : enc_field _ _ |- _ => apply field_small in H end. lia.
Qed.

(** C03 *)
Lemma node_parse_lax dbg fs block ls d :
  laxly node_known fs block -> blen block < two32 -> node_sem (laxly link_known) [] None fs ls d ->
  exists s, pbnode_parse dbg block = Ok (PBNode ls s) /\ data_at block d s.
Proof.
  intros Henc Hl Hsem.
  destruct (node_steps dbg _ _ _ _ _ Hsem [] block None Henc Hl I) as [s [Hst Hd]].
  exists s. split; [|exact Hd]. unfold pbnode_parse, whole.
  pose proof (from_reader_steps (pbnode_step dbg) 0 pbnode_default block (PBNode ls s) [] [] Hst eq_refl) as H.
  cbn [app] in H. rewrite app_nil_r in H. rewrite N.add_0_l in H.
  rewrite H by (apply two32_lt_two64; exact Hl). reflexivity.
Qed.

Lemma unixfs_parse_lax dbg fs block m :
  laxly unixfs_known fs block -> blen block < two32 -> unixfs_sem (laxly time_known) unixfs_default fs m ->
  unixfs_parse dbg block = Ok m.
Proof.
  intros Henc Hl Hsem. unfold unixfs_parse, whole.
  pose proof (from_reader_steps (unixfs_step dbg) 0 unixfs_default block m [] []
                (unixfs_steps dbg _ _ _ Hsem 0 block Henc Hl) eq_refl) as H.
  cbn [app] in H. rewrite app_nil_r in H. rewrite N.add_0_l in H.
  rewrite H by (apply two32_lt_two64; exact Hl). reflexivity.
Qed.

Lemma try_parse_lax dbg fs block ls data ufs u :
  laxly node_known fs block -> blen block < two32 -> node_sem (laxly link_known) [] None fs ls (Some data) ->
  data <> [] -> laxly unixfs_known ufs data -> unixfs_sem (laxly time_known) unixfs_default ufs u ->
  try_parse dbg block = Ok (Flat ls u).
Proof.
  intros Henc Hl Hsem Hne Huenc Husem.
  destruct (node_parse_lax dbg fs block ls (Some data) Henc Hl Hsem) as [s [Hp Hd]].
  unfold try_parse. rewrite Hp. cbn [map_err bind n_data n_links].
  destruct s as [[off y]|]; cbn [data_at] in Hd; [|contradiction].
  destruct Hd as [<- [pre [post [-> [Hoff _]]]]].
  destruct data as [|x xs]; [congruence|].
  rewrite (unixfs_parse_lax dbg ufs (x :: xs) u Huenc) by (auto; rewrite !blen_app in Hl; lia).
  reflexivity.
Qed.

Lemma node_parse_fields dbg fs block ls d :
  encodes fs block -> blen block < two32 -> node_sem encodes [] None fs ls d ->
  exists s, pbnode_parse dbg block = Ok (PBNode ls s) /\ data_at block d s.
Proof.
  intros He L S. apply (node_parse_lax dbg fs); [apply encodes_lax; assumption|exact L|eapply node_sem_lax; eassumption].
Qed.
Lemma unixfs_parse_fields dbg fs block m :
  encodes fs block -> blen block < two32 -> unixfs_sem encodes unixfs_default fs m -> unixfs_parse dbg block = Ok m.
Proof.
  intros He L S. apply (unixfs_parse_lax dbg fs); [apply encodes_lax; assumption|exact L|eapply unixfs_sem_lax; eassumption].
Qed.
Lemma node_sem_data enc ls d fs ls' d' : node_sem enc ls d fs ls' d' ->
  forall bs k, laxly k fs bs -> match d' with Some x => d = Some x \/ blen x <= blen bs | None => True end.
Proof.
  induction 1 as [ls d|ls d x lfs l fs ls' d' Hlenc Hlsem Hsem IH|ls d x fs ls' d' Hsem IH|ls d f fs ls' d' H1 H2 Hsem IH];
    intros bs k He; inv He.
  - destruct d; auto.
  - specialize (IH _ _ H3). destruct d'; [|exact Logic.I]. rewrite blen_app. destruct IH; [auto|right; lia].
  - specialize (IH _ _ H3). destruct d'; [|exact Logic.I]. rewrite blen_app. destruct IH as [E|?]; [|right; lia].
    injection E as <-. right. destruct H1 as (tb & t & pb & _ & _ & (lb & w & _ & _ & ->) & ->). rewrite !blen_app. lia.
  - specialize (IH _ _ H5). destruct d'; [|exact Logic.I]. rewrite blen_app. destruct IH; [auto|right; lia].
Qed.
Lemma try_parse_fields dbg fs block ls data ufs u :
  encodes fs block -> blen block < two32 -> node_sem encodes [] None fs ls (Some data) ->
  data <> [] -> encodes ufs data -> unixfs_sem encodes unixfs_default ufs u ->
  try_parse dbg block = Ok (Flat ls u).
Proof.
  intros He L S Hne Hu Su. pose proof (encodes_lax node_known _ _ He L) as He'.
  pose proof (node_sem_data _ _ _ _ _ _ S _ _ He') as [?|Ld]; [discriminate|].
  apply (try_parse_lax dbg fs block ls data ufs u He' L); [eapply node_sem_lax; eassumption|exact Hne| |].
  - apply encodes_lax; [exact Hu|lia].
  - eapply unixfs_sem_lax; [eassumption|eassumption|lia].
Qed.
