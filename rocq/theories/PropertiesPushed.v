(** * Properties C10, C12 and C14 for the blocks returned so far: unlike the
    theorems of PropertiesAdder.v these do not need [finish] to be called, or to
    return.  They hold for every branching factor, 1 included, where [finish] does
    not return once there is more than one chunk (C13).  Proofs: Pushed_proofs.v. *)
From Verif Require Import Base Wire Cid Sha256 Pb Adder SpecAdder Adder_proofs Adder_thms Pushed_proofs PropertiesAdder.

(** C12: all links of a block that push has returned point to a block push has
    returned before it *)
Theorem C12_pushed : forall X dbg chunk bf a0 c out a before cd b after,
  ext_ok X -> cfg_ok chunk bf -> moderate chunk bf ->
  adder_new chunk bf = Ok a0 -> session X a0 c out a -> blen c <= max_content ->
  out = before ++ (cd, b) :: after ->
  exists m, try_parse dbg b = Ok m
    /\ Forall (fun l => exists cd' b', In (cd', b') before /\ l_hash l = Some (cid_bytes cd')) (f_links m).
Proof. exact (fun X dbg chunk bf a0 c out a before cd b after HX => pushed_order X HX dbg chunk bf a0 c out a before cd b after). Qed.
Print Assumptions C12_pushed.

(** C14, C10: a block that push has returned is a leaf of exactly [chunk] bytes
    without links, or a node of exactly [bf] links, each to [chunk] bytes of
    content, with the sizes to match *)
Theorem C14_pushed : forall X dbg chunk bf a0 c out a cd b,
  ext_ok X -> cfg_ok chunk bf -> moderate chunk bf ->
  adder_new chunk bf = Ok a0 -> session X a0 c out a -> blen c <= max_content ->
  In (cd, b) out ->
  exists m, try_parse dbg b = Ok m
    /\ u_type (f_data m) = File
    /\ (   ((exists d, u_data (f_data m) = Some d /\ blen d = chunk)
            /\ u_filesize (f_data m) = Some chunk
            /\ u_blocksizes (f_data m) = [] /\ f_links m = [])
        \/ (u_data (f_data m) = None
            /\ u_filesize (f_data m) = Some (bf * chunk)
            /\ u_blocksizes (f_data m) = repeat chunk (N.to_nat bf)
            /\ N.of_nat (length (f_links m)) = bf)).
Proof.
  intros X dbg chunk bf a0 c out a cd b HX Hcfg Hm Hn Hs Hc Hin.
  destruct (pushed_sizes X HX dbg chunk bf a0 c out a cd b Hcfg Hm Hn Hs Hc Hin)
    as (t & _ & Hw & Hp & D1 & D2 & D3 & _ & D5 & D6 & _).
  exists (msg_of X t). split; [exact Hp|]. split; [exact D1|]. rewrite D2, D3, D5.
  apply (f_equal (@length _)) in D6. rewrite !map_length in D6.
  destruct Hw as [(d & -> & Hd)|(ds & -> & Hl & Hds)]; cbn [children content] in *.
  - left. assert (Hd1 : d <> []) by (intros ->; rewrite blen_nil in Hd; destruct Hcfg as [[? _] _]; lia).
    split; [exists d; split; [destruct d; [congruence | reflexivity] | exact Hd]|].
    split; [congruence|]. split; [reflexivity|]. destruct (f_links _); [reflexivity | discriminate].
  - right. split; [reflexivity|].
    assert (E : map (fun ch => blen (content ch)) (map FLeaf ds) = repeat chunk (length ds)).
    { clear - Hds. induction Hds as [|d ds H _ IH]; [reflexivity|]. cbn [map length repeat content]. rewrite H, IH. reflexivity. }
    split; [|split].
    + f_equal. rewrite <- Hl. clear - Hds. induction Hds as [|d ds H _ IH]; [reflexivity|].
      cbn [map concat content length] in *. rewrite blen_app, IH, H. lia.
    + rewrite E. f_equal. lia.
    + rewrite D6, map_length. exact Hl.
Qed.
Print Assumptions C14_pushed.

(** "abcde", one byte a chunk, nodes of one link: push returns nodes, though
    finish will never return *)
Example C12_pushed_nonvacuous : forall dbg, exists a0 out a before l1 n1 after,
  cfg_ok 1 1 /\ moderate 1 1 /\ adder_new 1 1 = Ok a0 /\ session (ex_ext dbg) a0 abcde out a
  /\ length out = 9%nat
  /\ out = before ++ l1 :: n1 :: after /\ before <> []
  /\ exists m l, try_parse dbg (snd n1) = Ok m /\ f_links m = [l].
Proof.
  intros dbg.
  destruct (sessions_exist (ex_ext dbg) 1 1 (Adder 1 1 [] []) abcde) as (out & a & H).
  - apply ex_ext_ok.
  - repeat split; vm_compute; congruence.
  - reflexivity.
  - vm_compute. congruence.
  - assert (Hcfg : cfg_ok 1 1) by (repeat split; vm_compute; congruence).
    pose proof (session_state (ex_ext dbg) (ex_ext_ok dbg) 1 1 _ _ _ _ Hcfg eq_refl H ltac:(vm_compute; congruence)) as S.
    exists (Adder 1 1 [] []), out, a.
    destruct S as (full & rest & Ec & Hf & Hr & _ & Eo).
    assert (rest = []) as -> by (destruct rest; [reflexivity|]; unfold blen in Hr; cbn [length] in Hr; lia).
    assert (full = [[x61]; [x62]; [x63]; [x64]; [x65]]) as ->.
    { rewrite app_nil_r in Ec. clear - Ec Hf. unfold abcde in Ec.
      assert (Hc : forall (full : list bytes) c, Forall (fun d => blen d = 1) full -> c = concat full -> full = map (fun x => [x]) c).
      { induction full0 as [|d full0 IH]; intros c Hd ->; [reflexivity|]. inversion Hd as [|? ? H1 H2]; subst.
        destruct d as [|x [|y d]]; try (unfold blen in H1; cbn [length] in H1; lia). cbn [concat app map]. f_equal. apply IH; auto. }
      rewrite (Hc full _ Hf Ec). reflexivity. }
    cbn in Eo. unfold ret_of in Eo. cbn [map] in Eo.
    eexists [_], _, _, _. split; [exact Hcfg|]. split; [split; vm_compute; congruence|]. split; [reflexivity|]. split; [exact H|].
    split; [rewrite Eo; reflexivity|]. split; [exact Eo|]. split; [discriminate|].
    destruct dbg; vm_compute; eexists; eexists; split; reflexivity.
Qed.

(** C06, for a chunk size of 0: no session but the empty one, as every push panics
    (C06_zero_chunk_refuted), and its finish returns the empty file *)
Theorem C06_zero_chunk_only_empty : forall X bf a0 c out a,
  adder_new 0 bf = Ok a0 -> session X a0 c out a ->
  a = a0 /\ c = [] /\ out = [] /\ finish X a = Ok [cblock_of X (FLeaf [])].
Proof.
  intros X bf a0 c out a Hn Hs. pose proof Hn as Hn'. apply adder_new_ok in Hn'.
  assert (E : a = a0 /\ c = [] /\ out = []).
  { induction Hs as [a|a c out a1 input a2 bs n Hs IH P]; [auto|].
    destruct (IH Hn Hn') as (-> & -> & ->). rewrite (C06_zero_chunk_refuted X a input bf Hn) in P. discriminate. }
  destruct E as (-> & -> & ->). split; [reflexivity|]. split; [reflexivity|]. split; [reflexivity|].
  subst a0. unfold finish, finish_fuel. cbn [a_buf a_links a_bf length].
  unfold flush_buffered_leaf. rewrite blen_nil. cbn [negb orb andb N.eqb length Nat.eqb app].
  unfold flush_links_fuel. cbn [Nat.add outer_loop length Nat.eqb andb orb bind]. reflexivity.
Qed.
Print Assumptions C06_zero_chunk_only_empty.
