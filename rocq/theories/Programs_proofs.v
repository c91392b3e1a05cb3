(** * Programs_proofs: the loops of the example programs (Programs.v) *)
From Coq Require Import Arith Permutation.
From Verif Require Import Base Tac Wire Utf8 SpecText Text_proofs Cid Pb Reader Visit Dir Builder Walk Adder SpecAdder Adder_proofs Adder_thms
  SpecFile Visit_proofs Visit_thms SpecDir Dir_proofs SpecWalk Walk_proofs Walk_sim Walk_steps Walk_thms PropertiesDir Programs SpecPrograms Store_proofs.

Lemma add64_ok {E} dbg a b : a + b < two64 -> @add64 E dbg a b = Ok (a + b).
Proof. intros H. unfold add64. destruct (N.ltb_spec (a + b) two64); [reflexivity|lia]. Qed.

Ltac same_counts :=
  match goal with |- (Ok (?a, ?b), ?w) = (Ok (?a', ?b'), ?w') => replace a with a' by lia; replace b with b' by lia; reflexivity
  | |- Ok (?a, ?b) = Ok (?a', ?b') => replace a with a' by lia; replace b with b' by lia; reflexivity end.

(** ** cat *)
Section cat.
Context (X : ext) (get : cid -> option bytes).
Let pay (kb : cid * bytes) : bytes := payload X (snd kb).

(** the bytes returned are those of the blocks *)
Lemma continues_payload v bs asked out ov : continues X (store get) v bs asked out ov -> fv_range v = None ->
  out = concat (map pay (combine asked bs)).
Proof.
  intros C. induction C as [v|v c others b k k' out v' bs asked out2 ov P Gv W C IH|v c others b k k' out P Gv W]; intros R; [reflexivity|..];
    apply continue_ok in W as (c0 & r & pending & f & fs & e & Hp & _ & Pf & _ & _ & L & _ & _ & H); rewrite R in H;
    unfold pay; cbn [combine map concat snd]; fold pay.
  - assert (E : out = payload X b /\ fv_range v' = None).
    { unfold payload. rewrite Pf. destruct H as [(Hl & Ho & Hv)|(Hl & -> & sel & _ & Hv)].
      - rewrite Hl. cbn [maybe_target_slice] in Ho. injection Ho as <-. destruct pending; [discriminate|]. injection Hv as ->. auto.
      - destruct (f_links f); [congruence|]. injection Hv as ->. auto. }
    destruct E as [-> E]. rewrite (IH E). reflexivity.
  - rewrite app_nil_r. unfold payload. rewrite Pf. destruct H as [(Hl & Ho & Hv)|(Hl & -> & sel & _ & Hv)]; [|discriminate].
    rewrite Hl. injection Ho as <-. reflexivity.
Qed.
Lemma continues_lengths (gives : cid -> bytes -> Prop) v bs asked out ov : continues X gives v bs asked out ov -> length asked = length bs.
Proof. intros C. induction C; cbn [length]; congruence. Qed.

Context (fs : disk) (dir : bytes).
Hypothesis G : good_dir dir.
Definition sound (kb : cid * bytes) : Prop := forall T, @read_block T fs dir (fst kb) = Ok (snd kb).

Lemma loop_reads : forall v bs asked out, continues X (store get) v bs asked out None -> fv_range v = None ->
  forall pre post fuel written read content, combine asked bs = pre ++ post -> Forall sound pre -> (length bs <= fuel)%nat ->
  read + sumN (map blen bs) < two64 -> content + blen out < two64 ->
  match post with
  | [] => cat_loop X fuel fs dir (Some v) written read content = (Ok (read + sumN (map blen bs), content + blen out), written ++ out)
  | (d, _) :: _ => forall err, read_block fs dir d = Err err ->
                   cat_loop X fuel fs dir (Some v) written read content = (Err err, written ++ concat (map pay pre))
  end.
Proof.
  intros v bs asked out C. remember None as ov eqn:Eov in C.
  induction C as [v|v c others b k k' out v' bs asked out2 ov P Gv W C IH|v c others b k k' out P Gv W]; subst; [discriminate|..];
    intros R pre post fuel written read content EC F L R1 R2; cbn [length] in L; (destruct fuel as [|fuel]; [lia|]); cbn [combine] in EC.
  - assert (E : out = payload X b /\ fv_range v' = None).
    { pose proof (continues_payload v [b] [c] out (Some v')) as CP. cbn [combine map concat] in CP. rewrite app_nil_r in CP.
      split; [apply CP; [|exact R]; rewrite <- (app_nil_r out); eapply cont_next; [exact P|exact Gv|exact W|constructor]|].
      apply continue_ok in W as (c0 & r & pending & f & fs' & e & Hp & _ & Pf & _ & _ & L' & _ & _ & H). rewrite R in H.
      destruct H as [(_ & _ & Hv)|(_ & _ & sel & _ & Hv)]; [destruct pending; [discriminate|]|]; injection Hv as ->; reflexivity. }
    destruct E as [Eo R']. cbn [map sumN fold_right] in *. rewrite blen_app in R2. fold (sumN (map blen bs)) in *.
    destruct pre as [|[d b'] pre].
    + cbn [app] in EC. subst post. intros err RE. cbn [cat_loop]. rewrite P. cbn [map_err bind fst]. rewrite RE. cbn [bind map concat].
      rewrite app_nil_r. reflexivity.
    + cbn [app] in EC. injection EC as <- <- EC. inversion F as [|? ? F1 F2]; subst. specialize (F1 read_failed). cbn [fst snd] in F1.
      specialize (IH eq_refl R' pre post fuel (written ++ payload X b) (read + blen b) (content + blen (payload X b)) EC F2 ltac:(lia) ltac:(lia) ltac:(lia)).
      assert (ST : cat_loop X (S fuel) fs dir (Some v) written read content
        = cat_loop X fuel fs dir (Some v') (written ++ payload X b) (read + blen b) (content + blen (payload X b))).
      { cbn [cat_loop]. rewrite P. cbn [map_err bind fst]. rewrite F1. cbn [bind]. rewrite add64_ok by lia. cbn [bind].
        rewrite (Visit_proofs.continue_cache X v b None k), W. cbn [fst map_err bind]. rewrite add64_ok by lia. reflexivity. }
      rewrite ST. destruct post as [|[d b'] post].
      * rewrite IH, blen_app, <- app_assoc. same_counts.
      * intros err RE. rewrite (IH err RE). unfold pay at 2. cbn [map concat snd]. rewrite <- app_assoc. reflexivity.
  - cbn [map sumN fold_right] in *. destruct pre as [|[d b'] pre].
    + cbn [app] in EC. subst post. intros err RE. cbn [cat_loop]. rewrite P. cbn [map_err bind fst]. rewrite RE. cbn [bind map concat].
      rewrite app_nil_r. reflexivity.
    + cbn [app] in EC. injection EC as <- <- EC. inversion F as [|? ? F1 F2]; subst. specialize (F1 read_failed). cbn [fst snd] in F1.
      symmetry in EC. apply app_eq_nil in EC as [-> ->]. cbn [cat_loop]. rewrite P. cbn [map_err bind fst]. rewrite F1. cbn [bind].
      rewrite add64_ok by lia. cbn [bind].
      rewrite (Visit_proofs.continue_cache X v b None k), W. cbn [fst map_err bind]. rewrite add64_ok by lia.
      destruct fuel; cbn [cat_loop]; rewrite N.add_0_r; reflexivity.
Qed.

Lemma visit_payload c root bs asked out : visit X (store get) None (root :: bs) asked out None ->
  out = concat (map pay ((c, root) :: combine asked bs)).
Proof.
  intros V. unfold pay. cbn [map concat snd]. fold pay.
  inversion V as [root' out' size md VS E1 E2 E3|root' out' size md v bs' asked' out2 ov VS C E1 E2 E3]; subst;
    apply start_ok in VS as (f & e & Pf & _ & L & _ & _ & _ & H).
  - cbn [combine map concat]. rewrite app_nil_r. unfold payload. rewrite Pf. destruct H as [(Hl & Ho & _)|(Hl & -> & sel & _ & _)].
    + rewrite Hl. injection Ho as <-. reflexivity.
    + destruct (f_links f); [congruence|reflexivity].
  - destruct H as [(Hl & _ & Hv)|(Hl & -> & sel & Hs & Hv)]; [discriminate|]. destruct sel; [discriminate|]. injection Hv as ->.
    rewrite (continues_payload _ _ _ _ _ C eq_refl). unfold payload. rewrite Pf. destruct (f_links f); [congruence|reflexivity].
Qed.
Lemma walk_reads : forall start root bs asked out,
  get start = Some root -> visit X (store get) None (root :: bs) asked out None ->
  sumN (map blen (root :: bs)) < two64 -> blen out < two64 ->
  forall pre post fuel, (start, root) :: combine asked bs = pre ++ post -> Forall sound pre -> (length bs <= fuel)%nat ->
  match post with
  | [] => cat_walk X fuel fs dir start = (Ok (sumN (map blen (root :: bs)), blen out), out)
  | (d, _) :: _ => forall err, read_block fs dir d = Err err -> cat_walk X fuel fs dir start = (Err err, concat (map pay pre))
  end.
Proof.
  intros start root bs asked out H V R1 R2 pre post fuel EC F L. unfold cat_walk. destruct pre as [|kb pre].
  { cbn [app] in EC. subst post. intros err ->. reflexivity. }
  cbn [app] in EC. injection EC as <- EC. inversion F as [|? ? F1 F2]; subst. specialize (F1 read_failed). cbn [fst snd] in F1. rewrite F1. cbn [bind].
  cbn [map sumN fold_right] in *. fold (sumN (map blen bs)) in *. rewrite add64_ok by lia. cbn [bind].
  inversion V as [root' out' size md VS E1 E2 E3|root' out' size md v bs' asked' out2 ov VS C E1 E2 E3]; subst; unfold idle_default;
    rewrite VS; cbn [map_err bind].
  - cbn [combine] in EC. symmetry in EC. apply app_eq_nil in EC as [-> ->].
    rewrite add64_ok by lia. destruct fuel; cbn [cat_loop map sumN fold_right]; rewrite !N.add_0_l, N.add_0_r; reflexivity.
  - assert (E : out' = payload X root /\ fv_range v = None).
    { apply start_ok in VS as (f & e & Pf & _ & _ & _ & _ & _ & [(_ & _ & Hv)|(Hl & -> & sel & _ & Hv)]); [discriminate|].
      destruct sel; [discriminate|]. injection Hv as ->. unfold payload. rewrite Pf. destruct (f_links f); [congruence|auto]. }
    destruct E as [-> R]. rewrite blen_app in R2. rewrite add64_ok by lia.
    pose proof (loop_reads v bs asked out2 C R pre post fuel (payload X root) (0 + blen root) (0 + blen (payload X root)) EC F2 L ltac:(lia) ltac:(lia)) as Q.
    destruct post as [|[d b'] post].
    + rewrite Q, blen_app. same_counts.
    + intros err RE. rewrite (Q err RE). unfold pay at 2. reflexivity.
Qed.
End cat.

(** ** The blocks read *)
Section below.
Context (X : ext) (get : cid -> option bytes).
Lemma select_cids : forall (ls : list pblink) (zs : list N) n base sel, length ls = length zs ->
  select_links X n base (combine ls zs) None = Ok sel -> map (link_cid X) ls = map Some (map fst sel).
Proof.
  induction ls as [|l ls IH]; intros [|z zs] n base sel L H; try discriminate; cbn in H.
  - injection H as <-. reflexivity.
  - apply bind_ok in H as (nx & Hn & H). apply bind_ok in H as (p & Hp & H).
    apply bind_ok in H as (ps & Hps & H). injection H as <-. cbn [map].
    assert (P : link_cid X l = Some (fst p)).
    { unfold to_pending in Hp. unfold link_cid. destruct (l_hash l); cbn [opt] in Hp;
        (destruct (ext_cid_decode X _); [injection Hp as <-; reflexivity|discriminate]). }
    rewrite P. f_equal. apply (IH zs (S n) nx); [cbn in L; lia|exact Hps].
Qed.
Lemma continues_below v bs asked out ov : continues X (store get) v bs asked out ov -> ov = None -> fv_range v = None ->
  blocks_below X get (map fst (fv_pending v)) (combine asked bs).
Proof.
  intros C. induction C as [v|v c others b k k' out v' bs asked out2 ov P Gv W C IH|v c others b k k' out P Gv W]; intros E R; [discriminate|..];
    unfold pending_links in P; apply continue_ok in W as (c0 & r & pending & f & fs & e & Hp & _ & Pf & _ & _ & L & _ & _ & H);
    rewrite Hp in P; cbn in P; injection P as -> _; rewrite Hp; cbn [map fst combine]; rewrite R in H.
  - destruct H as [(Hl & _ & Hv)|(Hl & _ & sel & Hs & Hv)].
    + destruct pending as [|p ps]; [discriminate|]. injection Hv as ->. specialize (IH E eq_refl). cbn [fv_pending] in IH.
      eapply (one_block X get c b f []); [exact Gv|exact Pf|rewrite Hl; reflexivity|exact IH].
    + injection Hv as ->. specialize (IH E eq_refl). cbn [fv_pending] in IH. rewrite map_app in IH.
      eapply one_block; [exact Gv|exact Pf|eapply select_cids; eassumption|exact IH].
  - destruct H as [(Hl & _ & Hv)|(Hl & _ & sel & Hs & Hv)]; [|discriminate].
    destruct pending as [|p ps]; [|discriminate].
    eapply (one_block X get c b f []); [exact Gv|exact Pf|rewrite Hl; reflexivity|constructor].
Qed.
Lemma visit_below c root bs asked out : get c = Some root -> visit X (store get) None (root :: bs) asked out None ->
  blocks_below X get [c] ((c, root) :: combine asked bs).
Proof.
  intros Gc V. inversion V as [root' out' size md VS E1 E2 E3|root' out' size md v bs' asked' out2 ov VS C E1 E2 E3]; subst;
    apply start_ok in VS as (f & e & Pf & _ & L & _ & _ & _ & H).
  - destruct H as [(Hl & _ & _)|(Hl & _ & sel & Hs & Hv)].
    + eapply (one_block X get c root f []); [exact Gc|exact Pf|rewrite Hl; reflexivity|constructor].
    + apply select_cids in Hs; [|exact L]. destruct sel; [|discriminate]. destruct (f_links f); [congruence|discriminate].
  - destruct H as [(Hl & _ & Hv)|(Hl & _ & sel & Hs & Hv)]; [discriminate|].
    destruct sel as [|p sel]; [discriminate|]. injection Hv as ->.
    eapply one_block; [exact Gc|exact Pf|eapply select_cids; eassumption|]. rewrite app_nil_r.
    exact (continues_below _ _ _ _ _ C eq_refl eq_refl).
Qed.
Lemma below_det cs bs : blocks_below X get cs bs -> forall bs', blocks_below X get cs bs' -> bs = bs'.
Proof.
  intros B. induction B as [|c b f ds more bs Gc Pf M B IH]; intros bs' B'; inversion B' as [|c' b' f' ds' more' bs2 Gc' Pf' M' B2]; subst; [reflexivity|].
  rewrite Gc in Gc'. injection Gc' as <-. rewrite Pf in Pf'. injection Pf' as <-. rewrite M in M'.
  f_equal. apply IH. replace ds with ds'; [exact B2|]. clear - M'. revert ds' M'.
  induction ds as [|d ds IH]; intros [|d' ds'] M; try discriminate; [reflexivity|]. injection M as -> M. f_equal. auto.
Qed.
End below.
Lemma below_stored X get cs kbs : blocks_below X get cs kbs -> Forall (fun kb => get (fst kb) = Some (snd kb)) kbs.
Proof. intros B. induction B; constructor; assumption. Qed.
Lemma visit_lengths X get root bs asked out : visit X (store get) None (root :: bs) asked out None -> length asked = length bs.
Proof.
  intros V. inversion V as [root' out' size md VS E1 E2 E3|root' out' size md v bs' asked' out2 ov VS C E1 E2 E3]; subst; [reflexivity|].
  exact (continues_lengths X _ _ _ _ _ _ C).
Qed.
Lemma map_snd_combine {A B} (l : list A) : forall (l' : list B), length l = length l' -> map snd (combine l l') = l'.
Proof. induction l as [|x l IH]; intros [|y l'] L; try discriminate; [reflexivity|]. cbn [combine map snd]. f_equal. apply IH. cbn in L. lia. Qed.
Lemma map_fst_combine {A B} (l : list A) : forall (l' : list B), length l = length l' -> map fst (combine l l') = l.
Proof. induction l as [|x l IH]; intros [|y l'] L; try discriminate; [reflexivity|]. cbn [combine map fst]. f_equal. apply IH. cbn in L. lia. Qed.
Lemma stocked_all fs dir get reads : stocked fs dir get -> Forall (fun d => get d <> None) reads -> Forall (intact fs dir get) reads.
Proof.
  intros St F. apply Forall_forall. intros d I. rewrite Forall_forall in F. specialize (F d I).
  destruct (get d) as [b|] eqn:Gd; [|congruence]. eapply stocked_intact; eassumption.
Qed.
Lemma all_bytes_sum bs : all_bytes bs = sumN (map blen bs).
Proof. unfold all_bytes. induction bs as [|b bs IH]; [reflexivity|]. cbn [concat map sumN fold_right]. rewrite blen_app, IH. reflexivity. Qed.

Lemma skip_skip {A} (l : list A) : forall b a, skipn a (skipn b l) = skipn (b + a) l.
Proof. induction l as [|x l IH]; intros [|b] a; try reflexivity; [rewrite !skipn_nil; reflexivity|]. cbn. apply IH. Qed.

Section add.
Context (X : ext).
(** [process] counts *)
Lemma process_ok bs : forall st, st_blocks st + N.of_nat (length bs) < two64 ->
  st_bytes st + sumN (map (fun b => blen (snd b)) bs) < two64 ->
  process X st bs = Ok (Stats (st_blocks st + N.of_nat (length bs)) (st_bytes st + sumN (map (fun b => blen (snd b)) bs))
                              (match rev bs with (c, _) :: _ => Some c | [] => st_last st end)).
Proof.
  induction bs as [|[c b] bs IH]; intros [n z l] B1 B2; cbn [st_blocks st_bytes st_last process] in *.
  - cbn [length map sumN fold_right rev]. change (N.of_nat 0) with 0. rewrite !N.add_0_r. reflexivity.
  - cbn [length map sumN fold_right snd] in *. change (fold_right N.add 0) with sumN in *.
    rewrite Nat2N.inj_succ in *. rewrite !add64_ok by lia. cbn [bind]. rewrite IH; cbn [st_blocks st_bytes st_last]; [|lia|lia].
    f_equal. f_equal; [lia|lia|]. cbn [rev]. destruct (rev bs) as [|[c' b'] r]; reflexivity.
Qed.
(** the counts after more blocks *)
Definition counted (st : stats) (bs : list cblock) : stats :=
  Stats (st_blocks st + N.of_nat (length bs)) (st_bytes st + sumN (map (fun b => blen (snd b)) bs))
        (match rev bs with (c, _) :: _ => Some c | [] => st_last st end).
Definition countable (st : stats) (bs : list cblock) : Prop :=
  st_blocks st + N.of_nat (length bs) < two64 /\ st_bytes st + sumN (map (fun b => blen (snd b)) bs) < two64.
Lemma process_counted st bs : countable st bs -> process X st bs = Ok (counted st bs).
Proof. intros [A B]. apply process_ok; assumption. Qed.
Lemma counted_app st a b : counted (counted st a) b = counted st (a ++ b).
Proof.
  unfold counted. cbn [st_blocks st_bytes st_last]. rewrite app_length, map_app, sumN_app, rev_app_distr. unfold cblock in *. f_equal; [lia|lia|].
  destruct (rev b) as [|[c x] r]; reflexivity.
Qed.
Lemma countable_app st a b : countable st (a ++ b) -> countable st a /\ countable (counted st a) b.
Proof. unfold countable, counted. cbn [st_blocks st_bytes]. rewrite app_length, map_app, sumN_app. unfold cblock in *. lia. Qed.
Lemma counted_nil st : counted st [] = st.
Proof. destruct st. unfold counted. cbn. rewrite !N.add_0_r. reflexivity. Qed.

Lemma push_consumed a input a' bs n : push X a input = Ok (a', bs, n) -> n <= blen input.
Proof.
  unfold push, accept. destruct (sub64 _ _ _) as [room| | |]; cbn [bind]; try discriminate.
  destruct (add64 _ _ _) as [s| | |]; cbn [bind]; try discriminate.
  assert (L : blen (firstn (N.to_nat (N.min (blen input) room)) input) <= blen input) by (unfold blen; rewrite firstn_length; lia).
  revert L. generalize (firstn (N.to_nat (N.min (blen input) room)) input). intros acc L.
  destruct (_ && _).
  - destruct (flush_buffered_leaf _ _ _ _) as [[l|] links]; [|discriminate].
    destruct (flush_links _ _ _ _) as [[links' blocks]| | |]; cbn [bind]; try discriminate. intros E. injection E as _ _ <-. exact L.
  - destruct (negb _); [intros E; injection E as _ _ <-; exact L|].
    destruct (flush_buffered_leaf _ _ _ _) as [[l|] links]; [|discriminate].
    destruct (flush_links _ _ _ _) as [[links' blocks]| | |]; cbn [bind]; try discriminate. intros E. injection E as _ _ <-. exact L.
Qed.

Lemma inner_push_all fuel : forall a input a' bs, push_all X fuel a input = Ok (a', bs) ->
  forall x total st inp, input = skipn (N.to_nat total) x -> total <= blen x -> countable st bs -> inp + blen x < two64 + total -> blen x < two64 ->
  add_inner X fuel a st inp x total = Ok (a', counted st bs, inp + (blen x - total), blen x).
Proof.
  induction fuel as [|fuel IH]; intros a input a' bs P x total st inp Ei T C B1 B2.
  - destruct input; [|discriminate]. injection P as <- <-. cbn [add_inner].
    assert (total = blen x).
    { pose proof (skipn_length (N.to_nat total) x) as L. rewrite <- Ei in L. cbn [length] in L. unfold blen in *. lia. }
    subst total. rewrite N.ltb_irrefl, counted_nil, N.sub_diag, N.add_0_r. reflexivity.
  - pose proof (skipn_length (N.to_nat total) x) as L. rewrite <- Ei in L. cbn [add_inner].
    destruct input as [|y input].
    + injection P as <- <-. cbn [length] in L. assert (total = blen x) by (unfold blen in *; lia).
      subst total. rewrite N.ltb_irrefl, counted_nil, N.sub_diag, N.add_0_r. reflexivity.
    + cbn [length] in L. replace (total <? blen x) with true by (symmetry; apply N.ltb_lt; unfold blen; lia).
      rewrite <- Ei. cbn [push_all] in P. destruct (push X a (y :: input)) as [[[a1 bs1] n]| | |] eqn:Pu; try discriminate. cbn [bind] in P |- *.
      pose proof (push_consumed _ _ _ _ _ Pu) as Ln. assert (Lx : n + total <= blen x) by (unfold blen in *; cbn [length] in Ln; lia).
      destruct (push_all X fuel a1 (skipn (N.to_nat n) (y :: input))) as [[a2 bs2]| | |] eqn:P2; try discriminate. cbn [bind] in P. injection P as <- <-.
      apply countable_app in C as [C1 C2]. rewrite process_counted by exact C1. cbn [bind]. rewrite !add64_ok by lia. cbn [bind].
      rewrite (IH a1 _ a2 bs2 P2 x (total + n)); [| |lia|exact C2|lia|exact B2].
      * rewrite counted_app. f_equal. f_equal. f_equal. lia.
      * rewrite Ei, skip_skip. f_equal. lia.
Qed.

Lemma outer_steps (slices : list bytes) : forall a a' bs, push_slices X a slices = Ok (a', bs) ->
  forall (rest : list (option bytes)) st inp, Forall (fun s => s <> []) slices ->
  countable st bs -> inp + blen (concat slices) < two64 ->
  add_outer X (map Some slices ++ rest) a st inp = add_outer X rest a' (counted st bs) (inp + blen (concat slices)).
Proof.
  induction slices as [|s slices IH]; intros a a' bs P rest st inp NE C B.
  - injection P as <- <-. cbn [map app concat]. rewrite blen_nil, N.add_0_r, counted_nil. reflexivity.
  - inversion NE as [|? ? N1 N2]; subst. cbn [push_slices] in P. destruct (push_all X (S (length s)) a s) as [[a1 bs1]| | |] eqn:P1; try discriminate.
    cbn [bind] in P. destruct (push_slices X a1 slices) as [[a2 bs2]| | |] eqn:P2; try discriminate. cbn [bind] in P. injection P as <- <-.
    cbn [concat] in B. rewrite blen_app in B. pose proof (countable_app _ _ _ C) as [C1 C2].
    cbn [map app]. destruct s as [|y s]; [congruence|].
    cbn [add_outer]. rewrite (inner_push_all _ a (y :: s) a1 bs1 P1 (y :: s) 0); [|reflexivity|lia|exact C1|lia|lia].
    cbn [bind]. rewrite N.eqb_refl. cbn [assert bind]. rewrite N.sub_0_r.
    rewrite (IH a1 a2 bs2 P2 rest (counted st bs1) (inp + blen (y :: s)) N2 C2) by lia.
    rewrite counted_app. cbn [concat]. rewrite blen_app. f_equal. lia.
Qed.
Lemma outer_push_slices (slices : list bytes) a a' bs : push_slices X a slices = Ok (a', bs) ->
  forall (rest : list (option bytes)) st inp last, Forall (fun s => s <> []) slices -> (rest = [] \/ exists more, rest = Some [] :: more) ->
  finish X a' = Ok last -> countable st (bs ++ last) -> inp + blen (concat slices) < two64 ->
  add_outer X (map Some slices ++ rest) a st inp = Ok (counted st (bs ++ last), inp + blen (concat slices)).
Proof.
  intros P rest st inp last NE R F C B. pose proof (countable_app _ _ _ C) as [C1 C2].
  rewrite (outer_steps slices a a' bs P rest st inp NE C1 B).
  assert (E : forall st inp, add_outer X rest a' st inp = (do blocks <- finish X a'; do st <- process X st blocks; Ok (st, inp))).
  { intros st' inp'. destruct R as [->|[more ->]]; reflexivity. }
  rewrite E, F. cbn [bind]. rewrite process_counted by exact C2. cbn [bind]. rewrite counted_app. reflexivity.
Qed.
End add.

(** ** The blocks of what was added *)
Section added.
Context (X : ext) (HX : ext_ok X) (get : cid -> option bytes).
Lemma adder_nodes chunk bf c r :
  cfg_ok chunk bf -> moderate chunk bf -> 2 <= bf \/ blen c <= chunk -> blen c <= max_content ->
  canonical chunk bf c r ->
  (forall cd b, In (cd, b) (tree_blocks X r) -> get cd = Some b) ->
  forall n, In n (nodes r) -> try_parse (ext_dbg X) (block X n) = Ok (msg_of X n) /\ get (block_cid X (block X n)) = Some (block X n).
Proof.
  intros Hcfg Hm Hb Hc Hr Hg n Hn. pose proof Hcfg as [Hc1 Hc2].
  pose proof (canonical_limits chunk bf c r ltac:(lia) ltac:(lia) Hr) as HL. rewrite Forall_forall in HL.
  specialize (HL n Hn). split.
  - eapply node_parses; [exact HX | exact Hm | exact HL |].
    eapply N.le_lt_trans; [apply weight_in, Hn|]. eapply canonical_weight; [| exact Hb | exact Hc | exact Hr]. lia.
  - apply Hg. unfold tree_blocks. apply in_map_iff. exists n. split; [reflexivity|exact Hn].
Qed.
Fixpoint parents_first (t : ftree) : list (cid * bytes) :=
  match t with FLeaf _ => [(block_cid X (block X t), block X t)] | FNode ts => (block_cid X (block X t), block X t) :: concat (map parents_first ts) end.
Lemma parents_first_perm t : Permutation (parents_first t) (tree_blocks X t).
Proof.
  induction t as [d|ts IH] using ftree_ind'; [reflexivity|]. unfold tree_blocks. cbn [parents_first nodes]. rewrite map_app. cbn [map].
  eapply perm_trans; [|apply Permutation_cons_append]. constructor.
  induction IH as [|t ts P IH IH2]; [constructor|]. cbn [map concat]. rewrite map_app. apply Permutation_app; assumption.
Qed.
Lemma ftree_below t : forall more bs,
  (forall n, In n (nodes t) -> try_parse (ext_dbg X) (block X n) = Ok (msg_of X n) /\ get (block_cid X (block X n)) = Some (block X n)) ->
  blocks_below X get more bs -> blocks_below X get (block_cid X (block X t) :: more) (parents_first t ++ bs).
Proof.
  induction t as [d|ts IH] using ftree_ind'; intros more bs H B.
  - destruct (H (FLeaf d)) as [P G]; [left; reflexivity|]. cbn [parents_first app].
    eapply (one_block X get _ _ _ []); [exact G|exact P|reflexivity|exact B].
  - destruct (H (FNode ts)) as [P G]; [cbn [nodes]; apply in_or_app; right; left; reflexivity|]. cbn [parents_first app].
    eapply (one_block X get _ _ _ (map (fun t => block_cid X (block X t)) ts)); [exact G|exact P| |].
    + cbn [msg_of]. unfold inner_msg, links_of. cbn [f_links]. rewrite !map_map. apply map_ext_in. intros t _.
      unfold link_cid. cbn [l_hash]. apply (decode_bytes X HX). apply block_cid_wf. exact HX.
    + assert (Hall : forall t n, In t ts -> In n (nodes t) -> In n (nodes (FNode ts))).
      { intros t n Ht Hn. cbn [nodes]. apply in_or_app. left. apply in_concat. exists (nodes t). split; [apply in_map, Ht|exact Hn]. }
      assert (Q : forall l, incl l ts -> blocks_below X get (map (fun t => block_cid X (block X t)) l ++ more) (concat (map parents_first l) ++ bs)).
      { induction l as [|t l IHl]; intros I; [exact B|]. cbn [map concat app]. rewrite <- app_assoc.
        assert (Ht : In t ts) by (apply I; left; reflexivity). rewrite Forall_forall in IH. apply (IH t Ht).
        - intros n Hn. apply H. apply (Hall t n Ht Hn).
        - apply IHl. intros x Hx. apply I. right. exact Hx. }
      apply Q, incl_refl.
Qed.
End added.

Lemma default_cfg : cfg_ok 262144 174.
Proof. repeat split; vm_compute; congruence. Qed.

Lemma sum_perm (l l' : list N) : Permutation l l' -> sumN l = sumN l'.
Proof. intros P. induction P; cbn [sumN fold_right] in *; unfold sumN in *; lia. Qed.

Lemma add_main_ok X (slices : list bytes) (rest : list (option bytes)) : ext_ok X -> Forall (fun s => s <> []) slices ->
  (rest = [] \/ exists more, rest = Some [] :: more) -> blen (concat slices) <= max_content ->
  exists r, canonical 262144 174 (concat slices) r
  /\ add_main X (map Some slices ++ rest)
     = Ok (AddReport (N.of_nat (length (nodes r))) (sumN (map (fun b => blen (snd b)) (tree_blocks X r)))
            (block_cid X (block X r)) (block_cid X (block X r)) (blen (concat slices))).
Proof.
  intros HX NE R Hc. assert (Hb : 2 <= 174 \/ blen (concat slices) <= 262144) by (left; lia).
  destruct (push_slices_spec X HX 262144 174 default_cfg slices [] adder_default []) as (a' & bs & P1 & P2).
  { apply (state_init X 262144 174). lia. } { rewrite blen_nil. lia. }
  destruct (finish_spec X HX 262144 174 _ a' _ default_cfg Hb P2 Hc) as (last & r & all' & F1 & F2 & F3 & _ & F5).
  exists r. split; [exact F2|]. cbn [app] in F3.
  assert (PB : Permutation (bs ++ last) (tree_blocks X r)).
  { rewrite F3. unfold ret_of, tree_blocks. apply Permutation_map, F5. }
  assert (L : length (bs ++ last) = length (nodes r)).
  { rewrite (Permutation_length PB). unfold tree_blocks. rewrite map_length. reflexivity. }
  assert (S : sumN (map (fun b => blen (snd b)) (bs ++ last)) = sumN (map (fun b => blen (snd b)) (tree_blocks X r))).
  { apply sum_perm, Permutation_map, PB. }
  pose proof (canonical_weight 262144 174 _ r ltac:(lia) Hb Hc F2) as W.
  pose proof (tsize_weight X HX r) as W2. rewrite tsize_total in W2. unfold weight in W. 
  assert (C : countable stats_default (bs ++ last)).
  { unfold countable, stats_default, cblock in *. cbn [st_blocks st_bytes]. rewrite L, S. unfold weight, two63, two64 in *. lia. }
  unfold add_main. rewrite (outer_push_slices X slices adder_default a' bs P1 rest stats_default 0 last NE R F1 C).
  2: { unfold max_content, two64 in *. lia. }
  cbn [bind]. unfold counted at 1. cbn [st_last]. rewrite F3. unfold ret_of at 1. rewrite map_app, rev_app_distr. cbn [map rev app].
  unfold cblock_of at 1. cbn [unwrap bind]. rewrite <- F3. unfold counted, stats_default, cblock in *. cbn [st_blocks st_bytes].
  rewrite L, S, !N.add_0_l. reflexivity.
Qed.

Lemma add_main_fails X (slices : list bytes) (more : list (option bytes)) : ext_ok X -> Forall (fun s => s <> []) slices ->
  blen (concat slices) <= max_content -> add_main X (map Some slices ++ None :: more) = Panic.
Proof.
  intros HX NE Hc. assert (Hb : 2 <= 174 \/ blen (concat slices) <= 262144) by (left; lia).
  destruct (push_slices_spec X HX 262144 174 default_cfg slices [] adder_default []) as (a' & bs & P1 & P2).
  { apply (state_init X 262144 174). lia. } { rewrite blen_nil. lia. }
  destruct (finish_spec X HX 262144 174 _ a' _ default_cfg Hb P2 Hc) as (last & r & all' & F1 & F2 & F3 & _ & F5). cbn [app] in F3.
  assert (PB : Permutation (bs ++ last) (tree_blocks X r)) by (rewrite F3; unfold ret_of, tree_blocks; apply Permutation_map, F5).
  assert (L : length (bs ++ last) = length (nodes r)).
  { rewrite (Permutation_length PB). unfold tree_blocks. rewrite map_length. reflexivity. }
  assert (S : sumN (map (fun b => blen (snd b)) (bs ++ last)) = sumN (map (fun b => blen (snd b)) (tree_blocks X r))).
  { apply sum_perm, Permutation_map, PB. }
  pose proof (canonical_weight 262144 174 _ r ltac:(lia) Hb Hc F2) as W.
  pose proof (tsize_weight X HX r) as W2. rewrite tsize_total in W2. unfold weight in W.
  assert (C : countable stats_default (bs ++ last)).
  { unfold countable, stats_default, cblock in *. cbn [st_blocks st_bytes]. rewrite L, S. unfold weight, two63, two64 in *. lia. }
  unfold add_main. rewrite (outer_steps X slices adder_default a' bs P1 (None :: more) stats_default 0 NE (proj1 (countable_app _ _ _ C))).
  - reflexivity.
  - unfold max_content, two64 in *. lia.
Qed.

Section get.
Context (X : ext) (fs : disk) (dir : bytes) (get : cid -> option bytes).
Hypothesis G : good_dir dir.

(** running the loop of get.rs along a walk: all blocks can be read, or one cannot *)
Lemma get_walks : forall w bs asked items w', walks X (store get) w bs asked items w' ->
  should_continue w' = false ->
  forall lss, Forall2 (fun it ls => get_lines it = Ok ls) items lss ->
  forall pre post fuel k printed, combine asked lss = pre ++ post -> Forall (fun r => intact fs dir get (fst r)) pre ->
  (length bs <= fuel)%nat -> clean_cache k ->
  match post with
  | [] => get_loop X fuel fs dir w k printed = (Ok tt, printed ++ concat lss)
  | (d, _) :: _ => forall err, read_block fs dir d = Err err ->
                   get_loop X fuel fs dir w k printed = (Err err, printed ++ concat (map snd pre))
  end.
Proof.
  intros w bs asked items w' HW. induction HW as [w|w c others b k0 k1 it w1 bs asked items w2 SC PL Gv K NX HW IH];
    intros E lss F pre post fuel k printed EC FI L Kc.
  - inversion F; subst. cbn [combine] in EC. symmetry in EC. apply app_eq_nil in EC as [-> ->].
    destruct fuel; cbn [get_loop]; rewrite E; cbn [concat]; rewrite app_nil_r; reflexivity.
  - inversion F as [|? ls ? lss' F1 F2]; subst. cbn [length] in L. destruct fuel as [|fuel]; [lia|]. cbn [combine] in EC.
    destruct pre as [|[d ls'] pre].
    + cbn [app] in EC. subst post. intros err RE. cbn [get_loop]. rewrite SC, PL. cbn [map_err bind fst]. rewrite RE.
      cbn [map concat]. rewrite app_nil_r. reflexivity.
    + cbn [app] in EC. injection EC as <- <- EC. inversion FI as [|? ? I1 I2]; subst. cbn [fst] in I1.
      destruct (walk_next_cache X w b k k0 Kc K) as [E1 E2]. rewrite NX in E1. cbn [fst] in E1.
      destruct (walk_next X w b k) as [[r w1'] k'] eqn:NX'. cbn [fst snd] in E1, E2. injection E1 as -> ->.
      assert (ST : get_loop X (S fuel) fs dir w k printed = get_loop X fuel fs dir w1 k' (printed ++ ls)).
      { cbn [get_loop]. rewrite SC, PL. cbn [map_err bind fst]. rewrite (read_intact fs dir get c b G I1 Gv), NX'.
        cbn [map_err bind]. rewrite F1. reflexivity. }
      rewrite ST. pose proof (IH E lss' F2 pre post fuel k' (printed ++ ls) EC I2 ltac:(lia) E2) as Q.
      destruct post as [|[d' ls'] post].
      * rewrite Q. cbn [concat]. rewrite app_assoc. reflexivity.
      * intros err RE. rewrite (Q err RE). cbn [map concat snd]. rewrite app_assoc. reflexivity.
Qed.
(** along the part of a walk that is read and printed *)
Lemma get_prefix : forall w bs asked items w', walks X (store get) w bs asked items w' ->
  forall lss, Forall2 (fun it ls => get_lines it = Ok ls) items lss ->
  forall k printed, clean_cache k ->
  (Forall (intact fs dir get) asked -> exists k', clean_cache k'
     /\ forall fuel, get_loop X (length bs + fuel) fs dir w k printed = get_loop X fuel fs dir w' k' (printed ++ concat lss))
  /\ (forall pre d ls post fuel err, combine asked lss = pre ++ (d, ls) :: post -> Forall (fun r => intact fs dir get (fst r)) pre ->
      read_block fs dir d = Err err -> (length bs <= fuel)%nat ->
      get_loop X fuel fs dir w k printed = (Err err, printed ++ concat (map snd pre))).
Proof.
  intros w bs asked items w' HW. induction HW as [w|w c others b k0 k1 it w1 bs asked items w2 SC PL Gv K NX HW IH]; intros lss F k printed Kc.
  - inversion F; subst. split.
    + intros _. exists k. split; [exact Kc|]. intros fuel. cbn [concat length]. rewrite app_nil_r. reflexivity.
    + intros pre d ls post fuel err E. destruct pre; discriminate E.
  - inversion F as [|? ls ? lss' F1 F2]; subst.
    destruct (walk_next_cache X w b k k0 Kc K) as [E1 E2]. rewrite NX in E1. cbn [fst] in E1.
    destruct (walk_next X w b k) as [[r w1'] k'] eqn:NX'. cbn [fst snd] in E1, E2. injection E1 as -> ->.
    assert (ST : intact fs dir get c -> forall fuel, get_loop X (S fuel) fs dir w k printed = get_loop X fuel fs dir w1 k' (printed ++ ls)).
    { intros I1 fuel. cbn [get_loop]. rewrite SC, PL. cbn [map_err bind fst]. rewrite (read_intact fs dir get c b G I1 Gv), NX'.
      cbn [map_err bind]. rewrite F1. reflexivity. }
    destruct (IH lss' F2 k' (printed ++ ls) E2) as [P1 P2]. split.
    + intros FI. inversion FI as [|? ? I1 I2]; subst. destruct (P1 I2) as (k2 & K2 & H). exists k2. split; [exact K2|]. intros fuel.
      cbn [length Nat.add]. rewrite (ST I1), H. cbn [concat]. rewrite app_assoc. reflexivity.
    + intros pre d ls' post fuel err EC FI RE L. cbn [length] in L. destruct fuel as [|fuel]; [lia|]. cbn [combine] in EC.
      destruct pre as [|[d0 ls0] pre].
      * cbn [app] in EC. injection EC as -> <- _. cbn [get_loop]. rewrite SC, PL. cbn [map_err bind fst]. rewrite RE.
        cbn [map concat]. rewrite app_nil_r. reflexivity.
      * cbn [app] in EC. injection EC as <- <- EC. inversion FI as [|? ? I1 I2]; subst. cbn [fst] in I1.
        rewrite (ST I1), (P2 pre d ls' post fuel err EC I2 RE ltac:(lia)). cbn [map snd concat]. rewrite app_assoc. reflexivity.
Qed.
Lemma walks_lengths : forall (gives : cid -> bytes -> Prop) w bs asked items w', walks X gives w bs asked items w' ->
  length asked = length bs /\ length items = length bs.
Proof. intros gives w bs asked items w' HW. induction HW; cbn [length]; [auto|]. destruct IHHW. split; congruence. Qed.
Lemma walks_asked : forall w bs asked items w', walks X (store get) w bs asked items w' -> Forall (fun c => get c <> None) asked.
Proof. intros w bs asked items w' HW. induction HW as [|w c others b k k' it w1 bs asked items w2 SC PL Gv K NX HW IH]; constructor; [unfold store in Gv; congruence|exact IH]. Qed.
End get.

(** ** Listings *)

Lemma mode_mod md d : mode_of md d = line_mode md d.
Proof.
  unfold mode_of, line_mode. replace (opt (md_mode md) d (fun m => m)) with (match md_mode md with Some m => m | None => d end) by (destruct (md_mode md); reflexivity).
  change 4095 with (N.ones 12). rewrite N.land_ones. reflexivity.
Qed.
Lemma seconds_same md : seconds_of md = line_seconds md.
Proof. unfold seconds_of, line_seconds. destruct (md_mtime md) as [[s n]|]; reflexivity. Qed.

Lemma nth_split_last {A} (l : list A) : l <> [] -> exists init x, l = init ++ [x] /\ length l = S (length init).
Proof. intros N. destruct (exists_last N) as (i & x & ->). exists i, x. rewrite app_length. cbn. split; [reflexivity|lia]. Qed.

Lemma segments_lines c p md content items : file_segments c p md content items ->
  exists lss, Forall2 (fun it ls => get_lines it = Ok ls) items lss
  /\ concat lss = [LineFile (line_mode md 420) (line_seconds md) (blen content) p].
Proof.
  intros (pieces & NE & _ & L & H). destruct (nth_split_last pieces NE) as (init & lastp & -> & LP).
  assert (NI : items <> []) by (intros ->; cbn in L; lia).
  destruct (nth_split_last items NI) as (its & it & -> & LI).
  assert (Ln : length its = length init) by lia.
  exists (map (fun _ => []) its ++ [[LineFile (line_mode md 420) (line_seconds md) (blen content) p]]). split.
  - apply Forall2_app.
    + assert (Q : forall i x, nth_error its i = Some x -> get_lines x = Ok []).
      { intros i x Hx. assert (Li : (i < length its)%nat) by (apply nth_error_Some; congruence).
        destruct (nth_error (init ++ [lastp]) i) as [pc|] eqn:Ep.
        2: { apply nth_error_None in Ep. lia. }
        destruct (H i pc Ep) as (s & E & _ & _ & E2). rewrite nth_error_app1 in E by lia. rewrite Hx in E. injection E as ->.
        cbn [get_lines]. destruct (is_last s); [|reflexivity]. pose proof (proj1 E2 eq_refl). lia. }
      clear - Q. induction its as [|x its IH]; cbn [map]; constructor; [apply (Q 0%nat); reflexivity|].
      apply IH. intros i y Hy. apply (Q (S i)). exact Hy.
    + constructor; [|constructor].
      destruct (H (length init) lastp) as (s & E & _ & _ & E2).
      { rewrite nth_error_app2, Nat.sub_diag by lia. reflexivity. }
      rewrite <- Ln, nth_error_app2, Nat.sub_diag in E by lia. cbn in E. injection E as ->.
      cbn [get_lines]. replace (is_last s) with true by (symmetry; apply E2; lia). rewrite mode_mod, seconds_same. reflexivity.
  - rewrite concat_app. cbn [concat]. rewrite app_nil_r.
    replace (concat (map (fun _ => []) its)) with (@nil line); [reflexivity|]. clear. induction its; [reflexivity|assumption].
Qed.

Lemma reported_lines e items : reported_but e items ->
  (forall c p md target, e = SeenSymlink c p md target -> utf8_valid target = true) ->
  exists lss, Forall2 (fun it ls => get_lines it = Ok ls) items lss /\ concat lss = seen_lines e.
Proof.
  intros R T. destruct R as [e items R|c c' p].
  - destruct R as [c p md|c p md|c p md content items S|c p md target|c p].
    + exists [[LineDir (line_mode md 493) (line_seconds md) p]]. split; [|reflexivity]. repeat constructor.
      cbn [get_lines]. rewrite mode_mod, seconds_same. reflexivity.
    + exists [[LineDir (line_mode md 493) (line_seconds md) p]]. split; [|reflexivity]. repeat constructor.
      cbn [get_lines]. rewrite mode_mod, seconds_same. reflexivity.
    + exact (segments_lines _ _ _ _ _ S).
    + exists [[LineLink (line_mode md 493) (line_seconds md) p target]]. split; [|reflexivity]. repeat constructor.
      cbn [get_lines]. rewrite (T _ _ _ _ eq_refl). cbn [assert bind]. rewrite mode_mod, seconds_same. reflexivity.
    + exists [[]]. split; [|reflexivity]. repeat constructor.
  - exists [[]]. split; [|reflexivity]. repeat constructor.
Qed.
Lemma all_lines evs items : all reported_but evs items -> text_targets evs ->
  exists lss, Forall2 (fun it ls => get_lines it = Ok ls) items lss /\ concat lss = flat_map seen_lines evs.
Proof.
  intros A. induction A as [|e items evs items' R A IH]; intros T; [exists []; split; [constructor|reflexivity]|].
  destruct (reported_lines e items R) as (l1 & F1 & E1). { intros c p md target ->. apply valid_text. eapply T. left. reflexivity. }
  destruct IH as (l2 & F2 & E2). { intros c p md target I. eapply T. right. exact I. }
  exists (l1 ++ l2). split; [apply Forall2_app; assumption|]. rewrite concat_app, E1, E2. reflexivity.
Qed.

Fixpoint sights_lines (n : fsnode) : forall root path c, flat_map seen_lines (sights root path c n) = listing path n
with items_lines (it : shard_item) : forall path, flat_map seen_lines (item_sights path it) = item_listing path it.
Proof.
  - intros root path c. destruct n as [md content|md target|md es|md its]; cbn [sights listing].
    + reflexivity.
    + reflexivity.
    + cbn [flat_map]. replace (seen_lines _) with [LineDir (line_mode md 493) (line_seconds md) path] by (destruct root; reflexivity).
      cbn [app]. f_equal.
      induction es as [|[[name c'] n'] es IH]; [reflexivity|]. cbn [flat_map fst snd]. rewrite flat_map_app, sights_lines, IH. reflexivity.
    + cbn [flat_map seen_lines app]. f_equal.
      induction its as [|it its IH]; [reflexivity|]. cbn [flat_map]. rewrite flat_map_app, items_lines, IH. reflexivity.
  - intros path. destruct it as [name c n|c its]; cbn [item_sights item_listing].
    + apply sights_lines.
    + cbn [flat_map seen_lines app].
      induction its as [|it its IH]; [reflexivity|]. cbn [flat_map]. rewrite flat_map_app, items_lines, IH. reflexivity.
Qed.

Section resolve.
Context (X : ext) (dir : bytes) (get : cid -> option bytes).
Hypothesis G : good_dir dir.

(** *** Lookups *)
Definition answer (r : outcome resolve_error maybe_resolved) : outcome (program_error resolve_error) (option cid) :=
  match r with
  | Ok (Found c) => Ok (Some c)
  | Ok NotFound => Ok None
  | Ok (NeedToLoadMore _) => Diverge
  | Err e => Err (Traversal_ e)
  | Panic => Panic
  | Diverge => Diverge
  end.
Lemma buckets_lookup : forall fs v asked r, continues_lookup X get v asked r ->
  forall fuel k, (length asked <= fuel)%nat -> clean k ->
  (Forall (intact fs dir get) asked ->
   exists k', clean k' /\ resolve_buckets X fuel fs dir v k = (answer (map_err into_resolve_error r), k'))
  /\ (forall pre d post err, asked = pre ++ d :: post -> Forall (intact fs dir get) pre -> read_block fs dir d = Err err ->
      fst (resolve_buckets X fuel fs dir v k) = Err err).
Proof.
  intros fs v asked r C. induction C as [v c others b k0 k1 r P Gv W F|v c others b k0 k1 v' asked r P Gv W C IH];
    intros fuel k L Kc; cbn [length] in L; (destruct fuel as [|fuel]; [lia|]); cbn [resolve_buckets];
    rewrite P; cbn [map_err bind fst];
    pose proof (continue_cache X v b k k0) as E; rewrite W in E; cbn [fst] in E;
    pose proof (continue_cache_clean X v b k Kc) as K2; destruct (lk_continue_walk X v b k) as [r' k'] eqn:LK; cbn [fst snd] in E, K2; subst r'.
  - split.
    + intros I. inversion I as [|? ? I1 I2]; subst. rewrite (read_intact fs dir get c b G I1 Gv), LK.
      exists k'. split; [exact K2|]. destruct r as [[c'|v'|]|e| |]; try reflexivity. destruct F.
    + intros [|x pre] d post err EC I RE; cbn [app] in EC; [|injection EC as _ EC; destruct pre; discriminate EC].
      injection EC as -> <-. rewrite RE. reflexivity.
  - destruct (IH fuel k' ltac:(lia) K2) as [IH1 IH2]. split.
    + intros I. inversion I as [|? ? I1 I2]; subst. rewrite (read_intact fs dir get c b G I1 Gv), LK. exact (IH1 I2).
    + intros [|x pre] d post err EC I RE; cbn [app] in EC; injection EC as <- EC; [rewrite RE; reflexivity|].
      inversion I as [|? ? I1 I2]; subst. rewrite (read_intact fs dir get c b G I1 Gv), LK. eapply IH2; [reflexivity|exact I2|exact RE].
Qed.
Lemma walk_segment : forall fs c block s asked r, get c = Some block -> looks_up X get block s asked r ->
  forall fuel rest k, (length asked <= fuel)%nat -> clean k ->
  (Forall (intact fs dir get) (c :: asked) ->
   exists k', clean k' /\ resolve_walk X fuel fs dir c (s :: rest) k
     = match r with Ok (Found c') => resolve_walk X fuel fs dir c' rest k' | _ => answer r end)
  /\ (forall pre d post err, c :: asked = pre ++ d :: post -> Forall (intact fs dir get) pre -> read_block fs dir d = Err err ->
      resolve_walk X fuel fs dir c (s :: rest) k = Err err).
Proof.
  intros fs c block s asked r Gv LU fuel rest k L Kc. cbn [resolve_walk].
  destruct LU as [k0 k1 r K0 R F|k0 k1 v asked r K0 R C];
    pose proof (clean_resolve X k k0 block s Kc K0) as E; rewrite R in E; cbn [fst] in E;
    pose proof (resolve_cache_clean X block s k Kc) as K2; destruct (resolve X block s k) as [r' k'] eqn:RS; cbn [fst snd] in E, K2; subst r'.
  - split.
    + intros I. inversion I as [|? ? I1 I2]; subst. rewrite (read_intact fs dir get c block G I1 Gv). cbn [bind]. rewrite RS.
      exists k'. split; [exact K2|]. destruct r as [[c'|v'|]|e| |]; try reflexivity. destruct F.
    + intros [|x pre] d post err EC I RE; cbn [app] in EC; [|injection EC as _ EC; destruct pre; discriminate EC].
      injection EC as -> <-. rewrite RE. reflexivity.
  - destruct (buckets_lookup fs v asked r C fuel k' L K2) as [B1 B2]. split.
    + intros I. inversion I as [|? ? I1 I2]; subst. rewrite (read_intact fs dir get c block G I1 Gv). cbn [bind]. rewrite RS.
      destruct (B1 I2) as (k2 & K3 & ->). exists k2. split; [exact K3|]. destruct r as [[c'|v'|]|e| |]; reflexivity.
    + intros [|x pre] d post err EC I RE; cbn [app] in EC; injection EC as <- EC; [rewrite RE; reflexivity|].
      inversion I as [|? ? I1 I2]; subst. rewrite (read_intact fs dir get c block G I1 Gv). cbn [bind]. rewrite RS.
      specialize (B2 pre d post err eq_refl I2 RE). destruct (resolve_buckets X fuel fs dir v k') as [r2 k2]. cbn [fst] in B2. subst r2. reflexivity.
Qed.
Lemma lookup_asked : forall v asked r, continues_lookup X get v asked r -> Forall (fun c => get c <> None) asked.
Proof. intros v asked r C. induction C; repeat constructor; congruence. Qed.
Lemma looks_asked : forall block s asked r, looks_up X get block s asked r -> Forall (fun c => get c <> None) asked.
Proof. intros block s asked r [?|?]; [constructor|eapply lookup_asked; eassumption]. Qed.

Lemma entries_absent ls es s : stored_entries X get ls es -> ~ In s (map (fun e => fst (fst e)) es) -> named ls s = [].
Proof.
  intros S. induction S as [|l name c n ls es Nm _ _ _ S IH]; intros NI; [reflexivity|].
  cbn [map fst In] in NI. unfold named. cbn [filter]. unfold name_of. rewrite Nm.
  destruct (bytes_eqb name s) eqn:E; [apply bytes_eqb_eq in E; tauto|]. apply IH. tauto.
Qed.
Lemma entries_present ls es s c n : stored_entries X get ls es -> NoDup (map (fun e => fst (fst e)) es) -> In (s, c, n) es ->
  exists l, named ls s = [l] /\ link_cid X l = Some c /\ stored X get c n.
Proof.
  intros S. induction S as [|l name c' n' ls es Nm PN LC St S IH]; intros ND I; [destruct I|].
  cbn [map fst] in ND. inversion ND as [|? ? N1 N2]; subst. unfold named. cbn [filter]. unfold name_of at 1. rewrite Nm.
  destruct I as [I|I].
  - injection I as <- <- <-. rewrite bytes_eqb_refl. exists l. split; [|auto]. f_equal. exact (entries_absent ls es name S N1).
  - destruct (bytes_eqb name s) eqn:E; [|exact (IH N2 I)]. apply bytes_eqb_eq in E. subst s. exfalso. apply N1.
    apply in_map_iff. exists (name, c, n). auto.
Qed.

(** sharded directories without what is below their entries *)
Fixpoint strip (it : shard_item) : item :=
  match it with ShEntry name c _ => Entry name c | ShBucket c its => Bucket c (map strip its) end.
Lemma strip_links ls its : stored_items X get ls its -> shard_links X get ls (map strip its).
Proof.
  intros S. induction S using stored_items_mind with (P := fun _ _ => True) (P0 := fun _ _ => True); auto; cbn [map strip].
  - constructor.
  - eapply shard_entry; try eassumption; [unfold name_of; rewrite H; reflexivity|apply (proj1 H1)|apply valid_text; assumption].
  - eapply shard_bucket; try eassumption. unfold name_of. rewrite H. assumption.
Qed.
Fixpoint strip_entries (it : shard_item) : entries_of (strip it) = map fst (item_entries it).
Proof.
  destruct it as [name c n|c its]; cbn [strip entries_of item_entries]; [reflexivity|].
  induction its as [|it its IH]; [reflexivity|]. cbn [map flat_map]. rewrite map_app, strip_entries, IH. reflexivity.
Qed.
Lemma strip_all its : entries (map strip its) = map fst (flat_map item_entries its).
Proof.
  unfold entries. induction its as [|it its IH]; [reflexivity|]. cbn [map flat_map]. rewrite map_app, strip_entries, IH. reflexivity.
Qed.
Lemma items_stored ls its : stored_items X get ls its -> forall s c n, In (s, c, n) (flat_map item_entries its) -> stored X get c n.
Proof.
  intros S. induction S using stored_items_mind with (P := fun _ _ => True) (P0 := fun _ _ => True); auto; intros s c0 n0 I; cbn [flat_map item_entries] in I.
  - destruct I.
  - destruct I as [I|I]; [injection I as <- <- <-; assumption|eauto].
  - apply in_app_or in I as [I|I]; eauto.
Qed.
Lemma nodup_only (es : list (bytes * cid * fsnode)) s c n : NoDup (map (fun e => fst (fst e)) es) -> In (s, c, n) es ->
  only_entry (map fst es) s c.
Proof.
  intros ND I. apply in_split in I as (pre & post & ->). rewrite map_app in ND. cbn [map fst] in ND.
  exists (map fst pre), (map fst post). rewrite map_app. split; [reflexivity|]. rewrite !map_map.
  apply NoDup_remove_2 in ND. rewrite in_app_iff in ND. tauto.
Qed.

(** one segment: found, not found, or not a directory *)
Lemma plain_lookup b links s r : lists X b links -> fst (resolve X b s None) = r -> finished r -> looks_up X get b s [] r.
Proof.
  intros L E F. destruct (resolve X b s None) as [r' k'] eqn:R. cbn [fst] in E. subst r'.
  eapply (looks_once X get b s None); [left; reflexivity|exact R|exact F].
Qed.
Lemma segment_found c n es s c' n' : stored X get c n -> below_node n = Some es -> NoDup (map (fun e => fst (fst e)) es) ->
  In (s, c', n') es -> stored X get c' n' /\ exists block asked, get c = Some block /\ looks_up X get block s asked (Ok (Found c')).
Proof.
  intros S B ND I.
  destruct S as [c b f content Gc P D Z|c b f Gc P T|c b f es' Gc P SD SE|c b f its Gc P SD SI]; try discriminate B.
  - injection B as <-. destruct (entries_present _ _ _ _ _ SE ND I) as (l & N & LC & St). split; [exact St|].
    exists b, []. split; [exact Gc|]. assert (L : lists X b (f_links f)) by (eapply lists_dir; eassumption).
    eapply plain_lookup; [exact L| |exact Logic.I]. apply (proj1 (C25_plain X b _ s None L)). eauto.
  - injection B as <-. split; [eapply items_stored; eassumption|]. exists b.
    destruct (lookup_complete X get b (map strip its) s c') as [asked L].
    + exists f. split; [exact P|]. split; [exact SD|]. apply strip_links, SI.
    + rewrite strip_all. eapply nodup_only; eassumption.
    + exists asked. split; [exact Gc|exact L].
Qed.
Lemma segment_absent c n es s : stored X get c n -> below_node n = Some es -> ~ In s (map (fun e => fst (fst e)) es) ->
  exists block asked, get c = Some block /\ looks_up X get block s asked (Ok NotFound).
Proof.
  intros S B NI.
  destruct S as [c b f content Gc P D Z|c b f Gc P T|c b f es' Gc P SD SE|c b f its Gc P SD SI]; try discriminate B.
  - injection B as <-. exists b, []. split; [exact Gc|]. assert (L : lists X b (f_links f)) by (eapply lists_dir; eassumption).
    eapply plain_lookup; [exact L| |exact Logic.I]. apply (proj1 (proj2 (C25_plain X b _ s None L))).
    eapply entries_absent; eassumption.
  - injection B as <-. exists b. eexists. split; [exact Gc|]. eapply (lookup_absent X get b (map strip its)).
    + exists f. split; [exact P|]. split; [exact SD|]. apply strip_links, SI.
    + rewrite strip_all, map_map. exact NI.
Qed.
Lemma segment_not_dir c n s : stored X get c n -> below_node n = None ->
  exists block t, get c = Some block /\ (t = File \/ t = Raw \/ t = Symlink) /\ looks_up X get block s [] (Err (RUnexpectedType t)).
Proof.
  intros S B.
  destruct S as [c b f content Gc P D Z|c b f Gc P T|c b f es' Gc P SD SE|c b f its Gc P SD SI]; try discriminate B.
  - assert (T : u_type (f_data f) = File \/ u_type (f_data f) = Raw) by (destruct D as [f [T _]|f cs [T _]]; exact T).
    exists b, (u_type (f_data f)). split; [exact Gc|]. split; [tauto|].
    eapply (looks_once X get b s None); [left; reflexivity| |exact Logic.I].
    unfold resolve. rewrite P. destruct T as [-> | ->]; reflexivity.
  - exists b, Symlink. split; [exact Gc|]. split; [auto|].
    eapply (looks_once X get b s None); [left; reflexivity| |exact Logic.I].
    unfold resolve. rewrite P, T. reflexivity.
Qed.

(** paths *)
Lemma unambiguous_below c n es s c' n' : unambiguous c n -> below_node n = Some es -> In (s, c', n') es -> unambiguous c' n'.
Proof. intros U B I path c2 n2 es2 L. apply (U (s :: path) c2 n2 es2). eapply leads_below; eassumption. Qed.
Lemma path_found : forall path c n c' n', leads_to c n path c' n' -> stored X get c n -> unambiguous c n ->
  stored X get c' n' /\ exists N reads, Forall (fun d => get d <> None) reads
  /\ (path = [] /\ reads = [] \/ exists more, reads = c :: more)
  /\ forall fs rest fuel k, (N <= fuel)%nat -> clean k ->
     (Forall (intact fs dir get) reads ->
      exists k', clean k' /\ resolve_walk X fuel fs dir c (path ++ rest) k = resolve_walk X fuel fs dir c' rest k')
     /\ (forall pre d post err, reads = pre ++ d :: post -> Forall (intact fs dir get) pre -> read_block fs dir d = Err err ->
         resolve_walk X fuel fs dir c (path ++ rest) k = Err err).
Proof.
  intros path c n c' n' L. induction L as [c n|c n es name c1 n1 path c2 n2 B I L IH]; intros S U.
  - split; [exact S|]. exists 0%nat, []. split; [constructor|]. split; [left; auto|]. intros fs rest fuel k _ K. split.
    + intros _. exists k. split; [exact K|reflexivity].
    + intros [|x pre] d post err EC; discriminate EC.
  - destruct (segment_found c n es name c1 n1 S B (U [] c n es (leads_here c n) B) I) as (S1 & block & asked & Gc & LU).
    destruct (IH S1 (unambiguous_below c n es name c1 n1 U B I)) as (S2 & N & reads & R1 & _ & H). split; [exact S2|].
    exists (Nat.max N (length asked)), ((c :: asked) ++ reads).
    split; [apply Forall_app; split; [constructor; [congruence|eapply looks_asked; eassumption]|exact R1]|].
    split; [right; eexists; reflexivity|]. intros fs rest fuel k Lf K.
    destruct (walk_segment fs c block name asked _ Gc LU fuel (path ++ rest) k ltac:(lia) K) as [W1 W2]. split.
    + intros F. apply Forall_app in F as [F1 F2]. destruct (W1 F1) as (k1 & K1 & E). change ((name :: path) ++ rest) with (name :: path ++ rest). rewrite E.
      destruct (H fs rest fuel k1 ltac:(lia) K1) as [H1 _]. exact (H1 F2).
    + intros pre d post err EC F RE. change ((name :: path) ++ rest) with (name :: path ++ rest).
      apply app_eq_app in EC as (l & [[EC1 EC2]|[EC1 EC2]]).
      * destruct l as [|x l].
        -- rewrite app_nil_r in EC1. cbn [app] in EC2. subst pre. destruct (W1 F) as (k1 & K1 & E). rewrite E.
           destruct (H fs rest fuel k1 ltac:(lia) K1) as [_ H2]. eapply (H2 []); [symmetry; exact EC2|constructor|exact RE].
        -- cbn [app] in EC2. injection EC2 as <- EC2. eapply W2; eassumption.
      * subst pre. apply Forall_app in F as [F1 F2]. destruct (W1 F1) as (k1 & K1 & E). rewrite E.
        destruct (H fs rest fuel k1 ltac:(lia) K1) as [_ H2]. eapply H2; [exact EC2|exact F2|exact RE].
Qed.
End resolve.

(** ** Parsing paths *)
Lemma prefix_of_spec pat : forall s, match prefix_of pat s with Some r => s = pat ++ r | None => forall r, s <> pat ++ r end.
Proof.
  induction pat as [|p pat IH]; intros s; [reflexivity|]. destruct s as [|x s]; cbn [prefix_of]; [discriminate|].
  destruct (byte_eqb p x) eqn:E.
  - apply byte_eqb_eq in E. subst x. specialize (IH s). destruct (prefix_of pat s); [rewrite IH; reflexivity|].
    intros r H. injection H as H. exact (IH r H).
  - intros r H. injection H as H _. subst x. rewrite byte_eqb_refl in E. discriminate.
Qed.
Lemma splitn2_app pat r : splitn2 pat (pat ++ r) = ([], Some r).
Proof.
  pose proof (prefix_of_spec pat (pat ++ r)) as H.
  destruct (prefix_of pat (pat ++ r)) as [r'|] eqn:E; [|exfalso; exact (H r eq_refl)].
  apply app_inv_head in H. subst r'. destruct (pat ++ r) eqn:Q; cbn [splitn2]; rewrite E; reflexivity.
Qed.
Lemma splitn2_none pat s : ~ occurs pat s -> splitn2 pat s = (s, None).
Proof.
  induction s as [|x s IH]; intros N; cbn [splitn2].
  - pose proof (prefix_of_spec pat []) as H. destruct (prefix_of pat []); [|reflexivity]. exfalso. apply N. exists [], b. exact H.
  - pose proof (prefix_of_spec pat (x :: s)) as H. destruct (prefix_of pat (x :: s)); [exfalso; apply N; exists [], b; exact H|].
    rewrite IH; [reflexivity|]. intros (a & b & ->). apply N. exists (x :: a), b. reflexivity.
Qed.
Lemma splitn2_some pat a b : exists a' b', splitn2 pat (a ++ pat ++ b) = (a', Some b') /\ a ++ pat ++ b = a' ++ pat ++ b'.
Proof.
  induction a as [|x a (a' & b' & IH & E)].
  - exists [], b. split; [exact (splitn2_app pat b)|reflexivity].
  - cbn [app splitn2]. pose proof (prefix_of_spec pat (x :: a ++ pat ++ b)) as H.
    destruct (prefix_of pat (x :: a ++ pat ++ b)) as [r|]; [exists [], r; split; [reflexivity|exact H]|].
    rewrite IH. exists (x :: a'), b'. split; [reflexivity|]. cbn [app]. rewrite E. reflexivity.
Qed.
Lemma split_root root : forall more, ~ In x2f root -> splitn2 [x2f] (root ++ x2f :: more) = (root, Some more).
Proof.
  induction root as [|x root IH]; intros more N; [exact (splitn2_app [x2f] more)|].
  cbn [app splitn2 prefix_of]. destruct (byte_eqb x2f x) eqn:E; [apply byte_eqb_eq in E; exfalso; apply N; left; auto|].
  rewrite IH; [reflexivity|]. intros I. apply N. right. exact I.
Qed.
Lemma split_part s : forall r, ~ In x2f s -> split_slash (s ++ x2f :: r) = s :: split_slash r.
Proof.
  induction s as [|x s IH]; intros r N; cbn [app split_slash]; [reflexivity|].
  destruct (byte_eqb x slash) eqn:E; [apply byte_eqb_eq in E; exfalso; apply N; left; auto|].
  rewrite IH; [reflexivity|]. intros I. apply N. right. exact I.
Qed.
Lemma split_single s : ~ In x2f s -> split_slash s = [s].
Proof.
  induction s as [|x s IH]; intros N; cbn [split_slash]; [reflexivity|].
  destruct (byte_eqb x slash) eqn:E; [apply byte_eqb_eq in E; exfalso; apply N; left; auto|].
  rewrite IH; [reflexivity|]. intros I. apply N. right. exact I.
Qed.
Lemma split_slashed parts : forall p, Forall (fun s => ~ In x2f s) (p :: parts) -> split_slash (p ++ slashed parts) = p :: parts.
Proof.
  induction parts as [|q parts IH]; intros p F; inversion F as [|? ? F1 F2]; subst; cbn [slashed].
  - rewrite app_nil_r. apply split_single, F1.
  - rewrite split_part by exact F1. f_equal. apply IH, F2.
Qed.

(** the end of the parser *)
Definition parse_rest (cid_of_str : bytes -> option cid) (p : bytes) : outcome path_error ipfs_path :=
  let '(root, more) := splitn2 [x2f] p in
  let segments := match more with None => [] | Some s => filter (fun s => negb (is_nil s)) (split_slash s) end in
  do c <- ok_or (cid_of_str root) PathInvalidCid;
  Ok (c, segments).
Lemma parse_rest_ok f root parts : ~ In x2f root -> Forall (fun s => ~ In x2f s) parts ->
  parse_rest f (root ++ slashed parts) = match f root with Some c => Ok (c, filter (fun s => negb (is_nil s)) parts) | None => Err PathInvalidCid end.
Proof.
  intros N F. unfold parse_rest. destruct parts as [|p parts]; cbn [slashed].
  - rewrite app_nil_r, splitn2_none; [destruct (f root); reflexivity|]. intros (a & b & ->). apply N, in_or_app. right. left. reflexivity.
  - rewrite split_root by exact N. rewrite split_slashed by exact F. destruct (f root); reflexivity.
Qed.
Lemma cut_slashes s : exists root parts, s = root ++ slashed parts /\ ~ In x2f root /\ Forall (fun s => ~ In x2f s) parts.
Proof.
  induction s as [|x s (root & parts & -> & N & F)]; [exists [], []; repeat split; auto|].
  destruct (byte_eqb x x2f) eqn:E.
  - apply byte_eqb_eq in E. subst x. exists [], (root :: parts). repeat split; auto.
  - exists (x :: root), parts. repeat split; auto. intros [I|I]; [|auto]. subst x. discriminate E.
Qed.
