(** * Properties C67, C68: the Debug text of an adder, and the adder benchmark
    (/repo/src/file/adder.rs 29-82, /repo/benches/adder.rs). *)
From Coq Require Import Strings.String.
From Coq Require Import Init.Byte.
From Coq Require Import DecimalN DecimalFacts.
From Verif Require Import Base Tac Wire Cid Sha256 Pb Adder SpecAdder Adder_proofs Adder_thms SpecOrder Order_proofs PropertiesAdder AdderDebug.

(** ** Specification *)
(** the number that decimal digits denote *)
Definition numeral (ds : bytes) : N := fold_left (fun v b => 10 * v + (b2n b - 48)) ds 0.
Definition digit (b : byte) : Prop := 48 <= b2n b <= 57.
(** the usual decimal notation of [n] *)
Definition written (n : N) (ds : bytes) : Prop :=
  Forall digit ds /\ numeral ds = n /\ ds <> [] /\ (forall ds', ds = x30 :: ds' -> ds' = []).

(** ** Decimal numbers *)
Lemma numeral_acc u : forall p v, v = Npos p ->
  fold_left (fun v b => 10 * v + (b2n b - 48)) (digits u) v = Npos (Pos.of_uint_acc u p).
Proof.
  induction u; intros p v ->; cbn [digits fold_left Pos.of_uint_acc]; [reflexivity|..]; apply IHu; (match goal with |- context [b2n ?b] => let v := eval vm_compute in (b2n b) in change (b2n b) with v end); cbn [N.mul N.sub N.add]; lia.
Qed.
Lemma numeral_digits u : numeral (digits u) = N.of_uint u.
Proof.
  unfold numeral, N.of_uint. induction u; cbn [digits fold_left Pos.of_uint]; [reflexivity|exact IHu|..]; apply numeral_acc; reflexivity.
Qed.

Theorem C67_decimal : forall n, written n (decimal n).
Proof.
  intros n. unfold decimal. split; [|split].
  - induction (N.to_uint n); cbn [digits]; constructor; try assumption; split; vm_compute; congruence.
  - rewrite numeral_digits. apply DecimalN.Unsigned.of_to.
  - pose proof (DecimalN.Unsigned.to_of (N.to_uint n)) as E. rewrite DecimalN.Unsigned.of_to in E.
    assert (Z : forall u, Decimal.unorm u = u -> digits u <> [] /\ forall ds', digits u = x30 :: ds' -> ds' = []).
    { clear. intros u E. split.
      - destruct u; cbn [digits]; [discriminate E|..]; discriminate.
      - intros ds' H. destruct u; cbn [digits] in H; try discriminate. injection H as <-.
        rewrite unorm_D0 in E. destruct (Decimal.nzhead u) eqn:En; unfold Decimal.unorm in E; rewrite En in E; try discriminate.
        + injection E as <-. reflexivity.
        + exfalso. eapply nzhead_nonzero; exact En. }
    apply Z. symmetry. exact E.
Qed.
Print Assumptions C67_decimal.


(** ** C67 *)
Lemma fmt_same d (l : list link) : Forall (fun k => k_depth k = d) l -> forall count rest,
  fmt_loop d count (l ++ rest) = fmt_loop d (count + N.of_nat (length l)) rest.
Proof.
  induction 1 as [|k l E H IH]; intros count rest.
  - cbn [app length]. rewrite N.add_0_r. reflexivity.
  - cbn [app fmt_loop length]. rewrite E, Nat.eqb_refl, IH. f_equal. lia.
Qed.

Lemma depth_mk X d ts : Forall (fun k => k_depth k = d) (map (mk X d) ts).
Proof. apply Forall_forall. intros k H. apply in_map_iff in H as (t & <- & _). reflexivity. Qed.

Lemma fmt_pending X ts us : ts <> [] \/ us <> [] ->
  fmt_links (map (mk X 1) ts ++ map (mk X 0) us)
  = lit "[" ++ (match ts with [] => [] | _ => lit "1: " ++ decimal (N.of_nat (length ts)) ++ (match us with [] => [] | _ => lit "/" end) end)
    ++ (match us with [] => [] | _ => lit "0: " ++ decimal (N.of_nat (length us)) end) ++ lit "]".
Proof.
  intros Hne. unfold fmt_links. f_equal.
  destruct ts as [|t ts].
  - destruct us as [|u us]; [destruct Hne; congruence|]. cbn [map app].
    change (k_depth (mk X 0 u)) with 0%nat. change (mk X 0 u :: map (mk X 0) us) with (map (mk X 0) (u :: us)).
    rewrite <- (app_nil_r (map (mk X 0) (u :: us))), fmt_same by apply depth_mk. cbn [fmt_loop].
    rewrite map_length, N.add_0_l. rewrite <- app_assoc. reflexivity.
  - match goal with |- _ = ?r => change (fmt_loop 1 0 (map (mk X 1) (t :: ts) ++ map (mk X 0) us) = r) end.
    rewrite fmt_same by apply depth_mk. rewrite map_length, N.add_0_l.
    destruct us as [|u us].
    + cbn [map fmt_loop app]. rewrite app_nil_r. reflexivity.
    + cbn [map fmt_loop]. change (k_depth (mk X 0 u)) with 0%nat. cbn [Nat.eqb Nat.ltb Nat.leb Nat.sub repeat concat app].
      rewrite <- (app_nil_r (map (mk X 0) us)), fmt_same by apply depth_mk. cbn [fmt_loop].
      rewrite map_length. replace (1 + N.of_nat (length us)) with (N.of_nat (length (u :: us))) by (cbn [length]; lia).
      rewrite <- !app_assoc. reflexivity.
Qed.

(** what the Debug text says about links after [k] chunks are complete *)
Definition pending_text (bf : N) (k : nat) : bytes :=
  let g := pushed_nodes (N.to_nat bf) k in
  if (k =? 0)%nat then lit "[]"
  else if (g =? 0)%nat then lit "[0: " ++ decimal (N.of_nat k) ++ lit "]"
  else lit "[1: " ++ decimal (N.of_nat g) ++ lit "/0: " ++ decimal (N.of_nat (k - g * N.to_nat bf)) ++ lit "]".

Lemma fmt_state X chunk bf c out a capacity : cfg_ok chunk bf -> state_ok X chunk bf c a out ->
  fmt_adder a capacity
  = lit "FileAdder { chunker: Size(" ++ decimal chunk ++ lit "), block_buffer: "
    ++ decimal (blen c mod chunk) ++ lit "/" ++ decimal capacity
    ++ lit ", unflushed_links: " ++ pending_text bf (complete chunk c) ++ lit " }".
Proof.
  intros Hcfg (full & rest & Ec & Hf & Hr & -> & Eo).
  destruct Hcfg as [C1 C2]. subst c. rewrite complete_full by (try assumption; lia).
  unfold fmt_adder. cbn [a_chunk a_buf a_links].
  assert (Em : blen (concat full ++ rest) mod chunk = blen rest).
  { rewrite blen_app. assert (E : blen (concat full) = N.of_nat (length full) * chunk).
    { clear - Hf. induction Hf as [|d full E H IH]; [reflexivity|]. cbn [concat length]. rewrite blen_app, E, IH. lia. }
    rewrite E, N.add_comm, N.mod_add by lia. apply N.mod_small. exact Hr. }
  rewrite Em. assert (Hb1 : (1 <= N.to_nat bf)%nat) by lia.
  assert (T : fmt_links (links_state X (run (N.to_nat bf) full)) = pending_text bf (length full)); [|rewrite T; reflexivity].
  pose proof (run_counts (N.to_nat bf) full Hb1) as R. pose proof (run_inv (N.to_nat bf) full Hb1) as I.
  destruct (run (N.to_nat bf) full) as [[gs ls] o]. destruct R as (R1 & R2 & _).
  cbn [run_ok] in I. destruct I as (_ & _ & _ & I4 & _ & _).
  cbn [links_state]. unfold pending_text. rewrite <- R1.
  destruct (Nat.eqb_spec (length full) 0) as [E|E].
  - assert (length ls = 0)%nat by lia. destruct ls; [|discriminate]. destruct gs; [reflexivity|].
    cbn [length] in R2. nia.
  - assert (Hl : ls <> []) by (apply I4; destruct full; [cbn in E; congruence | discriminate]).
    rewrite fmt_pending by (right; exact Hl). rewrite map_length.
    replace (length full - length gs * N.to_nat bf)%nat with (length ls) by lia.
    destruct ls as [|l ls]; [congruence|].
    destruct gs as [|g gs].
    + cbn [map length Nat.eqb app]. replace (length full) with (S (length ls)) by (cbn [length] in R2; lia). rewrite <- app_assoc. reflexivity.
    + cbn [map length Nat.eqb]. rewrite <- !app_assoc. reflexivity.
Qed.
(** C67: the Debug text after any session *)
Theorem C67_debug : forall X chunk bf a0 c out a capacity,
  ext_ok X -> cfg_ok chunk bf -> adder_new chunk bf = Ok a0 -> session X a0 c out a -> blen c <= max_content ->
  fmt_adder a capacity
  = lit "FileAdder { chunker: Size(" ++ decimal chunk ++ lit "), block_buffer: "
    ++ decimal (blen c mod chunk) ++ lit "/" ++ decimal capacity
    ++ lit ", unflushed_links: " ++ pending_text bf (complete chunk c) ++ lit " }".
Proof.
  intros X chunk bf a0 c out a cap HX Hcfg Hn Hs Hc. apply adder_new_ok in Hn.
  exact (fmt_state X chunk bf c out a cap Hcfg (session_state X HX chunk bf a0 c out a Hcfg Hn Hs Hc)).
Qed.
Print Assumptions C67_debug.

(** C67: the links waiting to be written grow without bound: after [k] chunks
    there are more than [k / bf] of them (the "FIXME" of adder.rs 23-25) *)
Theorem C67_pending_grows : forall X chunk bf a0 c out a,
  ext_ok X -> cfg_ok chunk bf -> adder_new chunk bf = Ok a0 -> session X a0 c out a -> blen c <= max_content ->
  chunk <= blen c ->
  blen c / chunk / bf <= N.of_nat (length (a_links a)).
Proof.
  intros X chunk bf a0 c out a HX Hcfg Hn Hs Hc Hne. apply adder_new_ok in Hn.
  destruct (session_state X HX chunk bf a0 c out a Hcfg Hn Hs Hc) as (full & rest & Ec & Hf & Hr & -> & Eo).
  destruct Hcfg as [C1 C2].
  assert (Ek : blen c / chunk = N.of_nat (length full)).
  { pose proof (complete_full chunk full rest ltac:(lia) Hf Hr) as E. rewrite <- Ec in E. unfold complete in E. lia. }
  rewrite Ek. assert (Hb1 : (1 <= N.to_nat bf)%nat) by lia.
  pose proof (run_counts (N.to_nat bf) full Hb1) as R. pose proof (run_inv (N.to_nat bf) full Hb1) as I.
  destruct (run (N.to_nat bf) full) as [[gs ls] o]. destruct R as (_ & R2 & _).
  cbn [run_ok] in I. destruct I as (_ & _ & I3 & _).
  cbn [a_links links_state]. rewrite app_length, !map_length.
  apply N.lt_succ_r. apply N.div_lt_upper_bound; [lia|].
  rewrite R2. assert (length ls <= N.to_nat bf * length ls)%nat by nia. nia.
Qed.
Print Assumptions C67_pending_grows.

(** ** C68: the benchmark *)
Lemma bench_loop X (HX : ext_ok X) a0 size : adder_new 1 174 = Ok a0 -> size <= max_content ->
  forall fuel n out a, session X a0 (repeat x00 n) out a -> N.of_nat n <= size -> (N.to_nat size - n <= fuel)%nat ->
  exists out' a', session X a0 (repeat x00 (N.to_nat size)) out' a'
    /\ run_adder_loop X fuel a (N.of_nat n) size out = Ok (a', size, out').
Proof.
  intros Hn Hsz. induction fuel as [|fuel IH]; intros n out a S Hle Hf.
  - assert (E : N.of_nat n = size) by lia. cbn [run_adder_loop]. rewrite E, N.ltb_irrefl.
    exists out, a. replace (N.to_nat size) with n by lia. split; [exact S | reflexivity].
  - cbn [run_adder_loop]. destruct (N.ltb_spec (N.of_nat n) size) as [Hlt|Hge].
    + destruct (C06_push_progress X 1 174 a0 (repeat x00 n) out a [x00] HX) as [(a' & bs & P) _]; try assumption.
      { split; unfold two64, two63; lia. }
      { unfold blen. rewrite repeat_length. cbn [length]. lia. }
      rewrite N.mod_1_r in P. change (N.min (blen [x00]) (1 - 0)) with 1 in P.
      rewrite P. cbn [bind]. unfold add64.
      replace (N.of_nat n + 1 <? two64) with true by (symmetry; apply N.ltb_lt; unfold two64, max_content in *; lia).
      cbn [bind].
      pose proof (session_push X a0 _ out a [x00] a' bs 1 S P) as S'. cbn [N.to_nat] in S'.
      change (firstn (Pos.to_nat 1) [x00]) with [x00] in S'. 
      replace (repeat x00 n ++ [x00]) with (repeat x00 (Datatypes.S n)) in S' by apply repeat_cons.
      replace (N.of_nat n + 1) with (N.of_nat (Datatypes.S n)) by lia.
      apply IH; [exact S' | lia | lia].
    + exists out, a. replace (N.to_nat size) with n by lia. split; [exact S|]. f_equal. f_equal. f_equal. lia.
Qed.

(** C68: run_adder terminates for every size, its assertion holds, and the
    blocks it counts are those of the canonical tree of [size] zero bytes *)
Theorem C68_run_adder : forall X size, ext_ok X -> size <= max_content ->
  exists blocks r, (forall fuel, (N.to_nat size <= fuel)%nat -> run_adder X fuel size = Ok blocks)
    /\ canonical 1 174 (repeat x00 (N.to_nat size)) r
    /\ Permutation.Permutation blocks (tree_blocks X r).
Proof.
  intros X size HX Hs.
  destruct (adder_new 1 174) as [a0| | |] eqn:E0; try discriminate E0.
  assert (Hcfg : cfg_ok 1 174) by (split; unfold two64, two63; lia).
  assert (L : forall fuel, (N.to_nat size <= fuel)%nat -> exists out' a', session X a0 (repeat x00 (N.to_nat size)) out' a'
     /\ run_adder_loop X fuel a0 0 size [] = Ok (a', size, out')).
  { intros fuel Hf. apply (bench_loop X HX a0 size E0 Hs fuel 0 [] a0); [constructor | apply N.le_0_l | lia]. }
  destruct (L (N.to_nat size) (le_n _)) as (out & a & Ss & _).
  assert (Hl : blen (repeat x00 (N.to_nat size)) <= max_content) by (unfold blen; rewrite repeat_length; lia).
  destruct (C09_balanced_tree X 1 174 a0 _ out a HX Hcfg (or_introl (N.le_trans 2 174 174 ltac:(discriminate) (N.le_refl 174))) E0 Ss Hl) as (last & r & before & F & C & _ & P).
  exists (out ++ last), r. split; [|split; [exact C | exact P]].
  intros fuel Hf. destruct (L fuel Hf) as (out' & a' & Ss' & E).
  destruct (C07_slicing_independent X 1 174 a0 _ out a out' a' HX Hcfg E0 Hl Ss Ss') as [<- EF].
  unfold run_adder. rewrite E0. cbn [bind]. rewrite E. cbn [bind]. rewrite N.eqb_refl. cbn [assert bind].
  rewrite <- EF, F. reflexivity.
Qed.
Print Assumptions C68_run_adder.
Example C68_nonvacuous : forall dbg, 3 <= max_content /\ exists blocks, run_adder (ex_ext dbg) 3 3 = Ok blocks
  /\ map (outline dbg) blocks = [Some (0%nat, Some 1); Some (0%nat, Some 1); Some (0%nat, Some 1); Some (3%nat, Some 3)].
Proof. intros dbg. split; [vm_compute; congruence|]. destruct dbg; eexists; (split; [vm_compute; reflexivity|vm_compute; reflexivity]). Qed.

(** the text on an adder that has consumed 355 bytes, 2 per chunk *)
Example C67_nonvacuous : forall dbg a0, adder_new 2 174 = Ok a0 ->
  (exists out a, session (real_ext dbg) a0 (repeat x00 355) out a)
  /\ complete 2 (repeat x00 355) = 177%nat
  /\ pending_text 174 177 = lit "[1: 1/0: 3]" /\ pending_text 174 174 = lit "[0: 174]" /\ pending_text 174 0 = lit "[]".
Proof.
  intros dbg a0 E. split.
  - apply (sessions_exist (real_ext dbg) 2 174); [apply ext_ok_real | split; unfold two64, two63; lia | exact E | vm_compute; congruence].
  - repeat split; vm_compute; reflexivity.
Qed.
