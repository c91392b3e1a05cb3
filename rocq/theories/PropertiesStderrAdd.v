(** * PropertiesStderrAdd: C78, what add writes to standard error *)
From Coq Require Import Strings.String.
From Coq Require Import Init.Byte.
From Coq Require Import Permutation.
From Verif Require Import Base Tac Wire Cid Pb Adder SpecAdder Adder_proofs Adder_thms SpecOrder PropertiesAdder AdderDebug PropertiesDebug.
From Verif Require Import Programs SpecPrograms Programs_proofs PropertiesPrograms Examples_file.
From Verif Require Import Errors Output SpecText Text_proofs SpecOutput Output_proofs Names_text_proofs Messages PropertiesMessages.
From Verif Require Import StderrAdd SpecStderrAdd.

(** the two notations for numbers agree *)
Lemma digit_ascii d : d < 10 -> b2n (digit_char d) = 48 + d.
Proof.
  intros L. assert (D : forallb (fun d => b2n (digit_char d) =? 48 + d) (map N.of_nat (seq 0 10)) = true) by (vm_compute; reflexivity).
  rewrite forallb_forall in D. specialize (D d). apply N.eqb_eq, D. apply in_map_iff. exists (N.to_nat d). rewrite N2Nat.id. split; [reflexivity|]. apply in_seq. lia.
Qed.
Lemma decimal_ok n : numeral_of 10 n (decimal n).
Proof.
  destruct (C67_decimal n) as (D & E & NE & Z). exists (map (fun x => b2n x - 48) (decimal n)).
  assert (M : map digit_char (map (fun x => b2n x - 48) (decimal n)) = decimal n).
  { rewrite map_map. rewrite <- (map_id (decimal n)) at 2. apply map_ext_in. intros x I. rewrite Forall_forall in D. specialize (D x I). unfold PropertiesDebug.digit in D.
    apply b2n_inj. rewrite digit_ascii by lia. lia. }
  split; [|split; [|split; [|split]]].
  - apply Forall_map. eapply Forall_impl; [|exact D]. unfold PropertiesDebug.digit. intros x Dx. cbn beta. lia.
  - intros Q. apply map_eq_nil in Q. exact (NE Q).
  - destruct (decimal n) as [|x ds]; [congruence|]. cbn [map hd] in M |- *. apply Forall_cons_iff in D as [D1 D]. unfold PropertiesDebug.digit in D1. intros H.
    assert (x = x30) by (apply b2n_inj; change (b2n x30) with 48; lia). subst x. rewrite (Z ds eq_refl). reflexivity.
  - rewrite <- E at 2. unfold value, PropertiesDebug.numeral. generalize 0. clear - D. induction D as [|x ds D1 D IH]; intros v; [reflexivity|]. cbn [map fold_left]. rewrite IH.
    f_equal. lia.
  - symmetry. exact M.
Qed.

Lemma outer_says X C (slices : list bytes) : forall a a' bs, push_slices X a slices = Ok (a', bs) ->
  forall (rest : list (option bytes)) st inp, Forall (fun s => s <> []) slices ->
  countable st bs -> inp + blen (concat slices) < two64 ->
  add_outer_err X C (map Some slices ++ rest) a st inp = add_outer_err X C rest a' (counted st bs) (inp + blen (concat slices)).
Proof.
  induction slices as [|s slices IH]; intros a a' bs P rest st inp NE Cn B.
  - injection P as <- <-. cbn [map app concat]. rewrite blen_nil, N.add_0_r, counted_nil. reflexivity.
  - inversion NE as [|? ? N1 N2]; subst. cbn [push_slices] in P. destruct (push_all X (S (length s)) a s) as [[a1 bs1]| | |] eqn:P1; try discriminate.
    cbn [bind] in P. destruct (push_slices X a1 slices) as [[a2 bs2]| | |] eqn:P2; try discriminate. cbn [bind] in P. injection P as <- <-.
    cbn [concat] in B. rewrite blen_app in B. pose proof (countable_app _ _ _ Cn) as [C1 C2].
    cbn [map app]. destruct s as [|y s]; [congruence|].
    cbn [add_outer_err]. rewrite (inner_push_all X _ a (y :: s) a1 bs1 P1 (y :: s) 0); [|reflexivity|lia|exact C1|lia|lia].
    rewrite N.eqb_refl, N.sub_0_r.
    rewrite (IH a1 a2 bs2 P2 rest (counted st bs1) (inp + blen (y :: s)) N2 C2) by lia.
    rewrite counted_app. cbn [concat]. rewrite blen_app. f_equal. lia.
Qed.
(** the lines of the loop *)
Lemma loop_says X C (slices : list bytes) (rest : list (option bytes)) : ext_ok X -> Forall (fun s => s <> []) slices -> blen (concat slices) <= max_content ->
  exists a st inp bs, state_ok X 262144 174 (concat slices) a bs
  /\ add_outer_err X C (map Some slices ++ rest) adder_default stats_default 0 = add_outer_err X C rest a st inp.
Proof.
  intros HX NE Hc. assert (Hb : 2 <= 174 \/ blen (concat slices) <= 262144) by (left; lia).
  destruct (push_slices_spec X HX 262144 174 default_cfg slices [] adder_default []) as (a' & bs & P1 & P2).
  { apply (state_init X 262144 174). lia. } { rewrite blen_nil. lia. }
  destruct (finish_spec X HX 262144 174 _ a' _ default_cfg Hb P2 Hc) as (last & r & all' & F1 & F2 & F3 & _ & F5). cbn [app] in F3, P2.
  assert (PB : Permutation (bs ++ last) (tree_blocks X r)) by (rewrite F3; unfold ret_of, tree_blocks; apply Permutation_map, F5).
  assert (L : length (bs ++ last) = length (nodes r)).
  { rewrite (Permutation_length PB). unfold tree_blocks. rewrite map_length. reflexivity. }
  assert (S : sumN (map (fun b => blen (snd b)) (bs ++ last)) = sumN (map (fun b => blen (snd b)) (tree_blocks X r))).
  { apply sum_perm, Permutation_map, PB. }
  pose proof (canonical_weight 262144 174 _ r ltac:(lia) Hb Hc F2) as W.
  pose proof (tsize_weight X HX r) as W2. rewrite tsize_total in W2. unfold weight in W.
  assert (Cn : countable stats_default (bs ++ last)).
  { unfold countable, stats_default, cblock in *. cbn [st_blocks st_bytes]. rewrite L, S. unfold weight, two63, two64 in *. lia. }
  rewrite (outer_says X C slices adder_default a' bs P1 rest stats_default 0 NE (proj1 (countable_app _ _ _ Cn))) by (unfold max_content, two64 in *; lia).
  do 4 eexists. split; [exact P2|reflexivity].
Qed.
Lemma waiting_ok k : waiting (N.of_nat k) (pending_text 174 k).
Proof.
  unfold pending_text, pushed_nodes. change (N.to_nat 174) with 174%nat. destruct (Nat.eqb_spec k 0) as [->|K]; [left; split; reflexivity|].
  pose proof (Nat.div_mod (k - 1) 174 ltac:(lia)) as D. pose proof (Nat.mod_upper_bound (k - 1) 174 ltac:(lia)) as M.
  set (g := ((k - 1) / 174)%nat) in *. clearbody g. destruct (Nat.eqb_spec g 0) as [G|G].
  - right. left. eexists. split; [|split; [apply decimal_ok|reflexivity]]. lia.
  - right. right. exists (N.of_nat g), (N.of_nat (k - g * 174)). do 2 eexists. split; [lia|]. split; [lia|]. split; [lia|].
    split; [apply decimal_ok|]. split; [apply decimal_ok|reflexivity].
Qed.

(** ** C78 *)

(** The lines add writes for an input, however it arrives: the state of the
    adder at the end of the input, then the blocks of the balanced tree, its
    root, and the sizes. *)
Theorem C78_add : forall X C (slices : list bytes) (rest : list (option bytes)), ext_ok X -> Forall (fun s => s <> []) slices ->
  (rest = [] \/ exists more, rest = Some [] :: more) -> blen (concat slices) <= max_content ->
  exists tree, canonical 262144 174 (concat slices) tree
  /\ add_says C (blen (concat slices)) (N.of_nat (length (nodes tree))) (all_bytes (map snd (tree_blocks X tree)))
       (Cid true 0x70 0x12 (ext_sha256 X (block X tree))) (add_err X C (map Some slices ++ rest)).
Proof.
  intros X C slices rest HX NE R Hc. destruct (add_main_ok X slices rest HX NE R Hc) as (r & Ca & E).
  destruct (loop_says X C slices rest HX NE Hc) as (a & st & inp & bs & Sa & L). exists r. split; [exact Ca|].
  unfold add_err. rewrite L, E.
  assert (Lr : add_outer_err X C rest a st inp = [lit "finishing"; fmt_adder a (s_capacity C)]) by (destruct R as [->|[more ->]]; reflexivity).
  rewrite Lr, (fmt_state X 262144 174 _ bs a _ default_cfg Sa). rewrite all_bytes_sum, map_map.
  exists (decimal (blen (concat slices) mod 262144)), (decimal (s_capacity C)), (pending_text 174 (complete 262144 (concat slices))).
  do 3 eexists. split; [apply decimal_ok|]. split; [apply decimal_ok|]. split.
  { pose proof (waiting_ok (complete 262144 (concat slices))) as W. unfold complete in W at 1. rewrite N2Nat.id in W. exact W. }
  split; [apply num_ok|]. split; [apply num_ok|]. split; [apply num_ok|]. reflexivity.
Qed.
Print Assumptions C78_add.

(** The lines do not depend on how the input arrives. *)
Theorem C78_arrival : forall X C (slices slices' : list bytes), ext_ok X -> Forall (fun s => s <> []) slices -> Forall (fun s => s <> []) slices' ->
  concat slices = concat slices' -> blen (concat slices) <= max_content ->
  add_err X C (map Some slices) = add_err X C (map Some slices').
Proof.
  intros X C s s' HX NE NE' Ec Hc.
  destruct (add_main_ok X s [] HX NE (or_introl eq_refl) Hc) as (r & Ca & E). rewrite app_nil_r in E.
  assert (Hc' : blen (concat s') <= max_content) by (rewrite <- Ec; exact Hc).
  destruct (add_main_ok X s' [] HX NE' (or_introl eq_refl) Hc') as (r' & Ca' & E'). rewrite app_nil_r in E'.
  destruct (loop_says X C s [] HX NE Hc) as (a & st & inp & bs & Sa & L). destruct (loop_says X C s' [] HX NE' Hc') as (a' & st' & inp' & bs' & Sa' & L').
  rewrite app_nil_r in L, L'. unfold add_err. rewrite L, L', E, E'. cbn [add_outer_err].
  rewrite <- Ec in *. rewrite (fmt_state X 262144 174 _ bs a _ default_cfg Sa), (fmt_state X 262144 174 _ bs' a' _ default_cfg Sa').
  rewrite (canonical_unique 262144 174 _ r r' Ca Ca'). reflexivity.
Qed.
Print Assumptions C78_arrival.

(** When reading the input fails nothing was written. *)
Theorem C78_input_error : forall X C (slices : list bytes) (more : list (option bytes)), ext_ok X -> Forall (fun s => s <> []) slices -> blen (concat slices) <= max_content ->
  add_err X C (map Some slices ++ None :: more) = [].
Proof.
  intros X C s more HX NE Hc. unfold add_err. rewrite (add_main_fails X s more HX NE Hc).
  destruct (loop_says X C s (None :: more) HX NE Hc) as (a & st & inp & bs & Sa & L). rewrite L. reflexivity.
Qed.
Print Assumptions C78_input_error.

(** The third line tells the number of blocks, their size and the root. *)
Theorem C78_tells : forall X C stdin stdin' r r', (forall c, ~ In x20 (s_cid C c)) -> (forall c c', s_cid C c = s_cid C c' -> c = c') ->
  add_main X stdin = Ok r -> add_main X stdin' = Ok r' -> nth_error (add_err X C stdin) 2 = nth_error (add_err X C stdin') 2 ->
  ar_blocks r = ar_blocks r' /\ ar_bytes r = ar_bytes r' /\ ar_cid r = ar_cid r'.
Proof.
  intros X C i i' r r' NS Inj E E' Q.
  assert (T : forall i r, add_main X i = Ok r -> nth_error (add_err X C i) 2 = Some (stats_text C r)).
  { clear. intros i r E. unfold add_err. rewrite E.
    assert (O : forall i a st inp z, add_outer X i a st inp = Ok z -> exists u v, add_outer_err X C i a st inp = [u; v]).
    { clear. induction i as [|[[|y x]|] i IH]; intros a st inp z H; cbn [add_outer add_outer_err] in *; [eauto|eauto| |discriminate].
      destruct (add_inner _ _ _ _ _ _ _) as [[[[a1 st1] inp1] t1]| | |]; cbn [bind] in H; try discriminate.
      destruct (t1 =? blen (y :: x)); cbn [assert bind] in H; try discriminate. exact (IH _ _ _ _ H). }
    unfold add_main in E. destruct (add_outer X i adder_default stats_default 0) as [z| | |] eqn:Z; cbn [bind] in E; try discriminate.
    destruct (O _ _ _ _ _ Z) as (u & v & ->). reflexivity. }
  rewrite (T i r E), (T i' r' E') in Q. injection Q as Q. unfold stats_text in Q.
  change (lit " blocks, ") with (x20 :: lit "blocks, ") in Q. change (lit " block bytes, ") with (x20 :: lit "block bytes, ") in Q.
  change (lit " or ") with (x20 :: lit "or ") in Q. cbn [app] in Q.
  apply num_split in Q as [B Q]; [|reflexivity]. apply app_inv_head in Q. apply num_split in Q as [Z Q]; [|reflexivity]. apply app_inv_head in Q.
  assert (NS' : forall c, Forall (fun x => x <> x20) (s_cid C c)) by (intros c; apply Forall_forall; intros x I ->; exact (NS c I)).
  apply sep_split in Q as [Q _]; [|apply NS'..]. apply Inj in Q. auto.
Qed.
Print Assumptions C78_tells.

(** No control characters, whatever is added. *)
Lemma visible_decimal n : Forall visible (decimal n).
Proof. apply (numeral_visible 10 n); [lia|apply decimal_ok]. Qed.
Lemma visible_loop l : forall d n, Forall visible (fmt_loop d n l).
Proof.
  induction l as [|k l IH]; intros d n; cbn [fmt_loop].
  - repeat (apply Forall_app; split); try exact (visible_decimal _); apply visible_str; reflexivity.
  - destruct (_ =? _)%nat; [apply IH|]. repeat (apply Forall_app; split); try exact (visible_decimal _); try (apply visible_str; reflexivity); [|apply IH].
    generalize ((if (k_depth k <? d)%nat then (d - k_depth k)%nat else (k_depth k - d)%nat) - 1)%nat. intros m.
    apply Forall_concat. apply Forall_forall. intros x I. apply repeat_spec in I. subst x. apply visible_str. reflexivity.
Qed.
Lemma visible_adder a n : Forall visible (fmt_adder a n).
Proof.
  unfold fmt_adder, fmt_links. repeat (apply Forall_app; split); try exact (visible_decimal _); try (apply visible_str; reflexivity).
  destruct (a_links a); [apply visible_str; reflexivity|apply visible_loop].
Qed.
Record surroundings_visible (C : surroundings) : Prop := {
  sv_process : forall p, s_process C = Some p -> Forall visible p;
  sv_total : Forall visible (s_total C);
  sv_rate : forall n, Forall visible (s_rate C n);
  sv_cid : forall c, Forall visible (s_cid C c)
}.
Theorem C78_visible : forall X C stdin, surroundings_visible C -> Forall (Forall visible) (add_err X C stdin).
Proof.
  intros X C stdin V. unfold add_err. apply Forall_app. split.
  - generalize adder_default stats_default 0. induction stdin as [|[[|y x]|] i IH]; intros a st inp; cbn [add_outer_err].
    + apply Forall_cons; [apply visible_str; reflexivity|]. apply Forall_cons; [apply visible_adder|constructor].
    + apply Forall_cons; [apply visible_str; reflexivity|]. apply Forall_cons; [apply visible_adder|constructor].
    + destruct (add_inner _ _ _ _ _ _ _) as [[[[a1 st1] inp1] t1]| | |]; try constructor. destruct (_ =? _); [apply IH|constructor].
    + constructor.
  - destruct (add_main X stdin) as [r| | |]; [|constructor..]. unfold report_err. apply Forall_cons; [|apply Forall_cons; [|apply Forall_cons; [|apply Forall_cons; [|apply Forall_nil]]]].
    + unfold stats_text. repeat (apply Forall_app; split); try exact (visible_num _); try (apply visible_str; reflexivity); apply (sv_cid C V).
    + apply Forall_app. split; [|apply Forall_app; split; [apply visible_str; reflexivity|apply (sv_total C V)]].
      destruct (s_process C) as [p|] eqn:P; [|constructor]. apply Forall_app. split; [apply (sv_process C V), P|apply visible_str; reflexivity].
    + repeat (apply Forall_app; split); try exact (visible_num _); try (apply visible_str; reflexivity); apply (sv_rate C V).
    + repeat (apply Forall_app; split); try (apply visible_str; reflexivity); apply (sv_rate C V).
Qed.
Print Assumptions C78_visible.

(** two bytes in two reads *)
Definition ex_surroundings : surroundings := Surroundings (Some (lit "p")) (lit "1s") (fun _ => lit "0.10") 300000 (fun _ => lit "c").
Example C78_nonvacuous : surroundings_visible ex_surroundings
  /\ (forall X, add_err X ex_surroundings [Some [x61]; Some [x62]]
  = [lit "finishing"; lit "FileAdder { chunker: Size(262144), block_buffer: 2/300000, unflushed_links: [] }";
     lit "1 blocks, 10 block bytes, c or c"; lit "p, total: 1s"; lit "Input: 0.10 MB/s (read 2 bytes)"; lit "Output: 0.10 MB/s"])
  /\ waiting 400 (lit "[1: 2/0: 52]").
Proof.
  split; [|split].
  - constructor; intros; try (apply visible_str; reflexivity). cbn in H. injection H as <-. apply visible_str. reflexivity.
  - intros X. destruct X as [a b [|]]; vm_compute; reflexivity.
  - right. right. exists 2, 52, (lit "2"), (lit "52"). split; [reflexivity|]. split; [lia|]. split; [lia|].
    split; [exact (decimal_ok 2)|]. split; [exact (decimal_ok 52)|reflexivity].
Qed.
