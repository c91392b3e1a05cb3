From Verif Require Import Base Tac Wire Cid Pb Reader Visit SpecFile.

Section v.
Context (X : ext).
Notation dbg := (ext_dbg X).

(** ** Inversion lemmas for the reader *)

Definition fs_of (f : flat) : option N := u_filesize (f_data f).

Lemma from_parts_ok f off md fr : from_parts X f off md = Ok fr ->
  (u_type (f_data f) = File \/ u_type (f_data f) = Raw)
  /\ u_hashtype (f_data f) = None /\ u_fanout (f_data f) = None
  /\ length (f_links f) = length (u_blocksizes (f_data f))
  /\ exists fs s, fs_of f = Some fs /\ @add64 read_failed dbg off fs = Ok s
     /\ fr = FileReader off (if is_nil (f_links f) then Chunk s else TreeCoverage s) (f_links f)
               (own_data f) (u_blocksizes (f_data f)) md fs.
Proof.
  unfold from_parts, fs_of, own_data. intros H.
  assert (T : u_type (f_data f) = File \/ u_type (f_data f) = Raw).
  { destruct (u_type (f_data f)); try discriminate H; auto. }
  split; [exact T|].
  assert (H' : (if negb (Nat.eqb (length (f_links f)) (length (u_blocksizes (f_data f))))
      then Err (FileErr LinksAndBlocksizesMismatch)
      else if opt (u_data (f_data f)) true is_nil && negb (opt (u_filesize (f_data f)) 0 (fun n => n) =? 0) && is_nil (f_links f)
      then Err (FileErr NoLinksNoContent)
      else
        match u_hashtype (f_data f), u_fanout (f_data f) with
        | None, None =>
            do e <- (if is_nil (f_links f)
                     then do s <- add64 dbg off (opt (u_filesize (f_data f)) (blen (opt (u_data (f_data f)) [] (fun d => d))) (fun n => n)); Ok (Chunk s)
                     else match u_filesize (f_data f) with
                          | Some fs => do s <- add64 dbg off fs; Ok (TreeCoverage s)
                          | None => Err (FileErr IntermediateNodeWithoutFileSize)
                          end);
            do fs <- unwrap (u_filesize (f_data f));
            Ok (FileReader off e (f_links f) (opt (u_data (f_data f)) [] (fun d => d)) (u_blocksizes (f_data f)) md fs)
        | ht, fa => Err (FileErr (UnexpectedRawOrFileProperties ht fa))
        end) = Ok fr) by (destruct T as [T|T]; rewrite T in H; exact H).
  clear H. rename H' into H.
  destruct (Nat.eqb_spec (length (f_links f)) (length (u_blocksizes (f_data f)))) as [L|]; cbn [negb] in H; [|discriminate].
  destruct (opt (u_data (f_data f)) true is_nil && _ && _); [discriminate|].
  destruct (u_hashtype (f_data f)); [discriminate|]. destruct (u_fanout (f_data f)); [discriminate|].
  repeat (split; [first [reflexivity|assumption]|]).
  apply bind_ok in H as (e & He & H). apply bind_ok in H as (fs & Hf & H).
  destruct (u_filesize (f_data f)) as [n|]; cbn in Hf; [|discriminate]. injection Hf as <-.
  cbn [opt] in He.
  exists n. destruct (is_nil (f_links f)).
  - apply bind_ok in He as (s & Hs & He). injection He as <-. exists s. injection H as <-. auto.
  - apply bind_ok in He as (s & Hs & He). injection He as <-. exists s. injection H as <-. auto.
Qed.

Lemma from_parts_intro f off md fs :
  plain_file (f_data f) -> length (f_links f) = length (u_blocksizes (f_data f)) ->
  fs_of f = Some fs -> (f_links f = [] -> own_data f = [] -> fs = 0) -> off + fs < two64 ->
  from_parts X f off md
  = Ok (FileReader off (if is_nil (f_links f) then Chunk (off + fs) else TreeCoverage (off + fs)) (f_links f)
          (own_data f) (u_blocksizes (f_data f)) md fs).
Proof.
  intros (T & H1 & H2) L Hf Hz Ho. unfold from_parts, fs_of, own_data in *.
  rewrite H1, H2, Hf, L, Nat.eqb_refl. cbn [negb opt].
  assert (Z : opt (u_data (f_data f)) true is_nil && negb (fs =? 0) && is_nil (f_links f) = false).
  { destruct (f_links f); [|apply andb_false_r]. cbn [is_nil]. rewrite andb_true_r.
    destruct (u_data (f_data f)) as [[|x d]|]; cbn [opt is_nil andb]; [|reflexivity|];
      rewrite Hz; reflexivity. }
  rewrite Z, (add64_ok (E := read_failed) dbg off fs Ho). cbn [bind unwrap].
  assert (D : opt (u_data (f_data f)) [] (fun d : bytes => d) = match u_data (f_data f) with Some d => d | None => [] end)
    by (destruct (u_data (f_data f)); reflexivity).
  destruct T as [T|T]; rewrite T; destruct (is_nil (f_links f)); cbn [bind]; rewrite D; reflexivity.
Qed.

Lemma add64_mod {E} a c s : @add64 E dbg a c = Ok s -> s = (a + c) mod two64 /\ s < two64.
Proof.
  unfold add64. destruct (N.ltb_spec (a + c) two64).
  - intros H1. injection H1 as <-. rewrite N.mod_small by assumption. auto.
  - destruct dbg; intros H1; [discriminate|]. injection H1 as <-. split; [reflexivity|].
    apply N.mod_lt. unfold two64. lia.
Qed.

Lemma is_nil_true {A} (l : list A) : is_nil l = true <-> l = [].
Proof. destruct l; cbn; split; congruence. Qed.
Lemma is_nil_false {A} (l : list A) : is_nil l = false <-> l <> [].
Proof. destruct l; cbn; split; congruence. Qed.

(** what an accepted non-root block looks like *)
Lemma tr_continue_ok tr b r fr : tr_continue_walk X tr b r = Ok fr ->
  check_is_suitable_next (tr_last_ending tr) (tr_last_offset tr) r = None
  /\ exists f, try_parse dbg b = Ok f /\ no_metadata (f_data f)
     /\ from_parts X f (fst r) (tr_metadata tr) = Ok fr.
Proof.
  unfold tr_continue_walk, from_continued. intros H.
  destruct (check_is_suitable_next _ _ r); [discriminate|]. split; [reflexivity|].
  apply bind_ok in H as (f & Hf & H). apply map_err_ok in Hf. exists f. split; [exact Hf|].
  unfold no_metadata.
  destruct (u_mode (f_data f)); [discriminate|]. destruct (u_mtime (f_data f)); [discriminate|]. auto.
Qed.

Lemma tr_continue_intro tr b r f :
  check_is_suitable_next (tr_last_ending tr) (tr_last_offset tr) r = None ->
  try_parse dbg b = Ok f -> no_metadata (f_data f) ->
  tr_continue_walk X tr b r = from_parts X f (fst r) (tr_metadata tr).
Proof.
  intros Hs Hp [H1 H2]. unfold tr_continue_walk, from_continued. rewrite Hs, Hp. cbn [map_err bind].
  rewrite H1, H2. reflexivity.
Qed.

(** ** continue_walk *)

(** one successful call: the block, its parse, and the two cases *)
Lemma continue_ok v b k out ov k' : continue_walk X v b k = (Ok (out, ov), k') ->
  exists c r pending f fs e,
    fv_pending v = (c, r) :: pending
    /\ check_is_suitable_next (tr_last_ending (fv_state v)) (tr_last_offset (fv_state v)) r = None
    /\ try_parse dbg b = Ok f /\ no_metadata (f_data f) /\ plain_file (f_data f)
    /\ length (f_links f) = length (u_blocksizes (f_data f))
    /\ fs_of f = Some fs /\ @add64 read_failed dbg (fst r) fs = Ok e
    /\ ((f_links f = [] /\ maybe_target_slice X (own_data f) r (fv_range v) = Ok out
         /\ ov = match pending with [] => None | _ =>
                   Some (FileVisit pending (fv_range v) (Traversal (Chunk e) (fst r) fs (tr_metadata (fv_state v)))) end)
        \/ (f_links f <> [] /\ out = [] /\ exists sel,
              select_links X 0 (fst r) (combine (f_links f) (u_blocksizes (f_data f))) (fv_range v) = Ok sel
              /\ ov = Some (FileVisit (sel ++ pending) (fv_range v)
                              (Traversal (TreeCoverage e) (fst r) fs (tr_metadata (fv_state v)))))).
Proof.
  unfold continue_walk. destruct (fv_pending v) as [|[c r] pending] eqn:Hp; [discriminate|].
  destruct (tr_continue_walk X (fv_state v) b r) as [fr| | |] eqn:Ht; try discriminate.
  apply tr_continue_ok in Ht as (Hs & f & Hf & Hm & Hfr).
  apply from_parts_ok in Hfr as (T & H1 & H2 & L & fs & e & Hfs & He & ->).
  unfold fr_content. cbn [fr_links fr_data fr_offset fr_end fr_file_size fr_metadata fr_blocksizes].
  intros H. exists c, r, pending, f, fs, e.
  repeat (split; [first [reflexivity|assumption|exact (conj T (conj H1 H2))]|]).
  destruct (is_nil (f_links f)) eqn:En; cbn in H.
  - left. split; [apply is_nil_true; exact En|].
    destruct (maybe_target_slice X (own_data f) r (fv_range v)) as [s| | |]; try discriminate.
    destruct pending as [|p ps]; injection H as <- <- _; auto.
  - right. split; [apply is_nil_false; exact En|].
    destruct (select_links X 0 (fst r) _ (fv_range v)) as [sel| | |]; cbn in H; try discriminate.
    injection H as <- <- _. eauto.
Qed.

Lemma start_ok t b out size md ov : visit_start X t b = Ok (out, size, md, ov) ->
  exists f e,
    try_parse dbg b = Ok f /\ plain_file (f_data f)
    /\ length (f_links f) = length (u_blocksizes (f_data f))
    /\ md = metadata_of (f_data f)
    /\ fs_of f = Some size /\ @add64 read_failed dbg 0 size = Ok e
    /\ ((f_links f = [] /\ maybe_target_slice X (own_data f) (0, blen (own_data f)) t = Ok out /\ ov = None)
        \/ (f_links f <> [] /\ out = [] /\ exists sel,
              select_links X 0 0 (combine (f_links f) (u_blocksizes (f_data f))) t = Ok sel
              /\ ov = match sel with [] => None | _ =>
                        Some (FileVisit sel t (Traversal (TreeCoverage e) 0 size md)) end)).
Proof.
  unfold visit_start, from_block. intros H. apply bind_ok in H as (fr & Hfr & H).
  apply bind_ok in Hfr as (f & Hf & Hfr). apply map_err_ok in Hf.
  apply from_parts_ok in Hfr as (T & H1 & H2 & L & fs & e & Hfs & He & ->).
  exists f, e. split; [exact Hf|]. split; [exact (conj T (conj H1 H2))|]. split; [exact L|].
  unfold start_from_reader, fr_content in H.
  cbn [fr_links fr_data fr_offset fr_end fr_file_size fr_metadata fr_blocksizes] in H.
  destruct (is_nil (f_links f)) eqn:En; cbn in H.
  - destruct (maybe_target_slice X (own_data f) _ t) as [s| | |]; cbn in H; try discriminate.
    injection H as <- <- <- <-. split; [reflexivity|]. split; [exact Hfs|]. split; [exact He|].
    left. split; [apply is_nil_true; exact En|]. auto.
  - destruct (select_links X 0 0 _ t) as [sel| | |]; cbn in H; try discriminate.
    assert (P : size = fs /\ md = metadata_of (f_data f) /\ out = [] /\
       ov = match sel with [] => None | _ => Some (FileVisit sel t (Traversal (TreeCoverage e) 0 fs (metadata_of (f_data f)))) end)
      by (destruct sel; injection H as <- <- <- <-; auto).
    destruct P as (-> & -> & -> & ->). split; [reflexivity|]. split; [exact Hfs|]. split; [exact He|].
    right. split; [apply is_nil_false; exact En|]. split; [reflexivity|]. exists sel. auto.
Qed.

(** ** Determinism *)

Lemma pending_links_ok v c others : pending_links v = Ok (c, others) ->
  exists r rest, fv_pending v = (c, r) :: rest /\ others = map fst rest.
Proof.
  unfold pending_links. destruct (fv_pending v) as [|[c0 r0] rest]; [discriminate|].
  intros H. injection H as -> <-. eauto.
Qed.

Lemma continue_cache v b k1 k2 : fst (continue_walk X v b k1) = fst (continue_walk X v b k2).
Proof.
  unfold continue_walk. destruct (fv_pending v) as [|[c r] pending]; [reflexivity|].
  destruct (tr_continue_walk X (fv_state v) b r) as [fr| | |]; try reflexivity.
  destruct (fr_content fr) as [[content|z base] tr]; [|reflexivity].
  destruct (maybe_target_slice X content r (fv_range v)); try reflexivity.
  destruct pending; reflexivity.
Qed.

Lemma continues_det get v bs1 as1 out1 bs2 as2 out2 :
  continues X (store get) v bs1 as1 out1 None -> continues X (store get) v bs2 as2 out2 None ->
  bs1 = bs2 /\ as1 = as2 /\ out1 = out2.
Proof.
  intros H1. remember (@None file_visit) as ov eqn:Eov. revert bs2 as2 out2.
  induction H1 as [v|v c o b k k' out v' bs asked o2 ov Hp Hg Hc H1 IH|v c o b k k' out Hp Hg Hc];
    intros bs2 as2 out2' H2; [discriminate| |]; subst.
  - inversion H2 as [|v0 c0 o0 b0 k0 k0' out0 v0' bs0 asked0 o20 ov0 Hp0 Hg0 Hc0 H0|v0 c0 o0 b0 k0 k0' out0 Hp0 Hg0 Hc0]; subst;
      rewrite Hp in Hp0; injection Hp0 as <- <-; unfold store in *; rewrite Hg in Hg0; injection Hg0 as <-;
      pose proof (continue_cache v b k k0) as E; rewrite Hc, Hc0 in E; cbn in E; injection E as -> Ev; [|discriminate].
    subst v0'. destruct (IH eq_refl _ _ _ H0) as (-> & -> & ->). auto.
  - inversion H2 as [|v0 c0 o0 b0 k0 k0' out0 v0' bs0 asked0 o20 ov0 Hp0 Hg0 Hc0 H0|v0 c0 o0 b0 k0 k0' out0 Hp0 Hg0 Hc0]; subst;
      rewrite Hp in Hp0; injection Hp0 as <- <-; unfold store in *; rewrite Hg in Hg0; injection Hg0 as <-;
      pose proof (continue_cache v b k k0) as E; rewrite Hc, Hc0 in E; cbn in E; injection E as Ev; [discriminate|].
    subst. auto.
Qed.

Lemma reads_det get t root out1 out2 : reads X get t root out1 -> reads X get t root out2 -> out1 = out2.
Proof.
  intros (bs1 & as1 & H1) (bs2 & as2 & H2).
  inversion H1 as [r0 o1 s1 m1 S1|r0 o1 s1 m1 v1 b1 a1 oo1 ov1 S1 C1]; subst;
    inversion H2 as [r0 o2 s2 m2 S2|r0 o2 s2 m2 v2 b2 a2 oo2 ov2 S2 C2]; subst; rewrite S1 in S2; try discriminate.
  - injection S2; congruence.
  - injection S2 as -> -> -> ->. destruct (continues_det _ _ _ _ _ _ _ _ C1 C2) as (_ & _ & ->). reflexivity.
Qed.

(** ** Reading well-formed DAGs *)

Definition lo (t : option range) : N := match t with Some r => fst r | None => 0 end.
Definition hi (t : option range) : N := match t with Some r => snd r | None => two64 end.
Definition sl (t : option range) (o : N) (c : bytes) : bytes :=
  firstn (N.to_nat (hi t - N.max (lo t) o)) (skipn (N.to_nat (lo t - o)) c).
Definition inr (s e : N) (t : option range) : Prop := s <= hi t /\ lo t <= e /\ lo t <= hi t /\ s <= e.

Lemma in_range_spec s e t : e < two64 -> s <= e ->
  (block_is_in_target_range (s, e) t = true <-> inr s e t).
Proof.
  intros He Hs. unfold block_is_in_target_range, inr, lo, hi. destruct t as [[a b]|]; cbn [fst snd].
  - rewrite N.leb_le. lia.
  - split; [unfold two64 in *; lia|reflexivity].
Qed.

Lemma sl_app t o (c1 c2 : bytes) : sl t o (c1 ++ c2) = sl t o c1 ++ sl t (o + blen c1) c2.
Proof.
  unfold sl. rewrite skipn_app, firstn_app. f_equal. rewrite skipn_length. unfold blen.
  f_equal; [|f_equal]; lia.
Qed.

Lemma sl_out t o (c : bytes) : ~ inr o (o + blen c) t -> sl t o c = [].
Proof.
  unfold inr, sl, blen. intros H.
  destruct (N.le_gt_cases (lo t) (o + N.of_nat (length c))) as [H1|H1].
  - replace (N.to_nat (hi t - N.max (lo t) o)) with O by lia. reflexivity.
  - rewrite skipn_all2 by lia. apply firstn_nil.
Qed.

Lemma get_range_intro {A} (l : list A) s e : s <= e -> e <= N.of_nat (length l) ->
  get_range l s e = Some (firstn (N.to_nat (e - s)) (skipn (N.to_nat s) l)).
Proof.
  intros H1 H2. unfold get_range.
  destruct (N.leb_spec s e); [|lia]. destruct (N.leb_spec e (N.of_nat (length l))); [|lia]. reflexivity.
Qed.

Lemma firstn_min {A} n (l : list A) : firstn n l = firstn (Nat.min n (length l)) l.
Proof.
  destruct (Nat.le_ge_cases n (length l)).
  - rewrite Nat.min_l by assumption. reflexivity.
  - rewrite Nat.min_r, firstn_all, firstn_all2 by lia. reflexivity.
Qed.

Lemma maybe_slice_ok t o (c : bytes) : o + blen c < two64 ->
  maybe_target_slice X c (o, o + blen c) t = Ok (sl t o c).
Proof.
  intros Ho. destruct (block_is_in_target_range (o, o + blen c) t) eqn:E.
  - pose proof E as E'. apply in_range_spec in E'; [|exact Ho|lia]. unfold inr in E'.
    destruct t as [[a b]|]; cbn [lo hi fst snd] in E'.
    2:{ unfold maybe_target_slice, sl, lo, hi. f_equal. rewrite N.sub_0_l. cbn [N.to_nat skipn].
        rewrite firstn_all2; [reflexivity|]. unfold blen, two64 in *. lia. }
    unfold maybe_target_slice, target_slice, sl, slice_index. rewrite E. cbn [negb fst snd lo hi].
    assert (F : forall n m, n = m -> firstn n (skipn (N.to_nat (a - o)) c) = firstn m (skipn (N.to_nat (a - o)) c)) by congruence.
    destruct (N.ltb_spec a o).
    + rewrite sub64_ok by lia. cbn [bind]. rewrite get_range_intro by (unfold blen in *; lia). cbn [unwrap].
      replace (a - o) with 0 by lia. cbn [N.to_nat skipn]. rewrite (firstn_min (N.to_nat (b - N.max a o))).
      f_equal. f_equal. unfold blen in *. lia.
    + destruct (N.ltb_spec (o + blen c) b).
      * rewrite sub64_ok by lia. cbn [bind]. rewrite sub64_ok by lia. cbn [bind].
        rewrite get_range_intro by (unfold blen in *; lia). cbn [unwrap].
        rewrite (firstn_min (N.to_nat (b - N.max a o))), (firstn_min (N.to_nat (_ - (a - o)))). rewrite skipn_length.
        f_equal. f_equal. unfold blen in *. lia.
      * rewrite sub64_ok by lia. cbn [bind]. rewrite sub64_ok by lia. cbn [bind].
        rewrite add64_ok by (unfold two64 in *; lia). cbn [bind].
        rewrite get_range_intro by (unfold blen in *; lia). cbn [unwrap]. f_equal. f_equal. lia.
  - assert (N0 : ~ inr o (o + blen c) t).
    { intros H. apply in_range_spec in H; [congruence|exact Ho|lia]. }
    rewrite (sl_out _ _ _ N0). destruct t as [t|]; [|discriminate].
    unfold maybe_target_slice, target_slice. rewrite E. reflexivity.
Qed.

(** internal: from a list of pending links to the end *)
Section rd.
Context (get : cid -> option bytes).

Definition rd (t : option range) (pending : list pending_link) (tr : traversal) (out : bytes) : Prop :=
  match pending with
  | [] => out = []
  | _ => exists bs asked, continues X (store get) (FileVisit pending t tr) bs asked out None
  end.

(** the last leaf ended at [e] (if the range goes on) *)
Definition ended (t : option range) (tr : traversal) (e : N) : Prop :=
  (exists e', tr_last_ending tr = Chunk e' /\ (e <= hi t -> e' = e)) /\ inr e e t \/
  (exists e', tr_last_ending tr = Chunk e' /\ hi t < e).

Lemma rd_leaf t c r rest tr b f fs e out out2 :
  check_is_suitable_next (tr_last_ending tr) (tr_last_offset tr) r = None ->
  get c = Some b -> try_parse dbg b = Ok f -> no_metadata (f_data f) ->
  from_parts X f (fst r) (tr_metadata tr)
    = Ok (FileReader (fst r) (Chunk e) [] (own_data f) (u_blocksizes (f_data f)) (tr_metadata tr) fs) ->
  maybe_target_slice X (own_data f) r t = Ok out ->
  rd t rest (Traversal (Chunk e) (fst r) fs (tr_metadata tr)) out2 ->
  rd t ((c, r) :: rest) tr (out ++ out2).
Proof.
  intros Hs Hg Hp Hm Hf Ho Hr. cbn [rd].
  pose proof (tr_continue_intro _ _ _ _ Hs Hp Hm) as Ht. rewrite Hf in Ht.
  assert (C : forall k, exists k', continue_walk X (FileVisit ((c, r) :: rest) t tr) b k =
     (Ok (out, match rest with [] => None | _ => Some (FileVisit rest t (Traversal (Chunk e) (fst r) fs (tr_metadata tr))) end), k')).
  { intros k. unfold continue_walk. cbn [fv_pending fv_state fv_range]. rewrite Ht.
    unfold fr_content. cbn [fr_links is_nil fr_data fr_end fr_offset fr_file_size fr_metadata]. rewrite Ho.
    destruct rest; eexists; reflexivity. }
  destruct (C None) as [k' C']. destruct rest as [|p rest].
  - cbn [rd] in Hr. subst. rewrite app_nil_r. exists [b], [c].
    eapply cont_last; [reflexivity|exact Hg|exact C'].
  - destruct Hr as (bs & asked & Hr). exists (b :: bs), (c :: asked).
    eapply cont_next; [reflexivity|exact Hg|exact C'|exact Hr].
Qed.

Lemma rd_node t c r rest tr b f fs e sel out2 :
  check_is_suitable_next (tr_last_ending tr) (tr_last_offset tr) r = None ->
  get c = Some b -> try_parse dbg b = Ok f -> no_metadata (f_data f) -> f_links f <> [] ->
  from_parts X f (fst r) (tr_metadata tr)
    = Ok (FileReader (fst r) (TreeCoverage e) (f_links f) (own_data f) (u_blocksizes (f_data f)) (tr_metadata tr) fs) ->
  select_links X 0 (fst r) (combine (f_links f) (u_blocksizes (f_data f))) t = Ok sel -> sel <> [] ->
  rd t (sel ++ rest) (Traversal (TreeCoverage e) (fst r) fs (tr_metadata tr)) out2 ->
  rd t ((c, r) :: rest) tr out2.
Proof.
  intros Hs Hg Hp Hm Hl Hf Hsel Hne Hr. cbn [rd].
  pose proof (tr_continue_intro _ _ _ _ Hs Hp Hm) as Ht. rewrite Hf in Ht.
  assert (C : continue_walk X (FileVisit ((c, r) :: rest) t tr) b None =
     (Ok ([], Some (FileVisit (sel ++ rest) t (Traversal (TreeCoverage e) (fst r) fs (tr_metadata tr)))), None)).
  { unfold continue_walk. cbn [fv_pending fv_state fv_range]. rewrite Ht.
    unfold fr_content. cbn [fr_links fr_data fr_end fr_offset fr_file_size fr_metadata fr_blocksizes].
    apply is_nil_false in Hl. rewrite Hl, Hsel. reflexivity. }
  destruct sel as [|p sel]; [congruence|]. cbn [app rd] in Hr. destruct Hr as (bs & asked & Hr).
  exists (b :: bs), (c :: asked). change out2 with ([] ++ out2).
  eapply cont_next; [reflexivity|exact Hg|exact C|exact Hr].
Qed.

Scheme dag_ind2 := Minimality for file_dag Sort Prop
  with dags_ind2 := Minimality for file_dags Sort Prop.
Combined Scheme dag_dags_ind from dag_ind2, dags_ind2.

(** state before the children of a node that ends at [e] from offset [o] on *)
Definition before (t : option range) (tr : traversal) (o e : N) (some_left : Prop) : Prop :=
  (tr_last_ending tr = TreeCoverage e /\ tr_last_offset tr <= o /\ inr o e t /\ some_left)
  \/ ended t tr o.

Lemma ended_suitable t tr o e : ended t tr o -> inr o e t ->
  check_is_suitable_next (tr_last_ending tr) (tr_last_offset tr) (o, e) = None.
Proof.
  unfold ended, inr. intros [[(e' & -> & H) Hi]|(e' & -> & H)] Hr; [|lia].
  unfold check_is_suitable_next. cbn [fst]. rewrite H by lia. rewrite N.eqb_refl. reflexivity.
Qed.

Lemma before_suitable t tr o e E P : before t tr o E P -> inr o e t -> e <= E ->
  check_is_suitable_next (tr_last_ending tr) (tr_last_offset tr) (o, e) = None.
Proof.
  intros [(He & Ho & Hi & _)|H] Hr Hle; [|eapply ended_suitable; eassumption].
  rewrite He. unfold check_is_suitable_next. cbn [fst snd].
  destruct (N.ltb_spec E e); [lia|]. rewrite !andb_false_r. destruct (N.ltb_spec o (tr_last_offset tr)); [lia|].
  reflexivity.
Qed.

Lemma dag_reads t :
  (forall f d, file_dag X get f d ->
     forall c b o rest tr out2,
     get c = Some b -> try_parse dbg b = Ok f -> no_metadata (f_data f) ->
     o + blen d < two64 -> inr o (o + blen d) t ->
     check_is_suitable_next (tr_last_ending tr) (tr_last_offset tr) (o, o + blen d) = None ->
     (forall tr', ended t tr' (o + blen d) -> rd t rest tr' out2) ->
     rd t ((c, (o, o + blen d)) :: rest) tr (sl t o d ++ out2))
  /\ (forall ls ds, file_dags X get ls ds ->
     length ls = length ds /\
     forall n o e rest tr out2,
     e = o + blen (concat ds) -> e < two64 -> before t tr o e (ls <> []) ->
     exists sel, select_links X n o (combine ls (map blen ds)) t = Ok sel
       /\ (ls <> [] -> inr o e t -> sel <> [])
       /\ ((forall tr', ended t tr' e -> rd t rest tr' out2) -> rd t (sel ++ rest) tr (sl t o (concat ds) ++ out2))).
Proof.
  apply dag_dags_ind.
  - (* leaf *)
    intros f Hpl Hl Hb Hfs c b o rest tr out2 Hg Hp Hm Ho Hin Hs Hk.
    pose proof (from_parts_intro f o (tr_metadata tr) (blen (own_data f)) Hpl) as Hf.
    rewrite Hl, Hb in Hf. specialize (Hf eq_refl Hfs).
    assert (Hz : @nil pblink = [] -> own_data f = [] -> blen (own_data f) = 0) by (intros _ ->; reflexivity).
    specialize (Hf Hz Ho). cbn [is_nil] in Hf.
    eapply rd_leaf; [exact Hs|exact Hg|exact Hp|exact Hm|rewrite Hb; exact Hf| |].
    + apply maybe_slice_ok. exact Ho.
    + apply Hk. unfold ended. cbn [tr_last_ending].
      destruct (N.le_gt_cases (o + blen (own_data f)) (hi t)).
      * left. split; [eauto|]. unfold inr in *. lia.
      * right. eauto.
  - (* node *)
    intros f cs Hpl Hl Hb Hfs Hd [Hlen IH] c b o rest tr out2 Hg Hp Hm Ho Hin Hs Hk.
    pose proof (from_parts_intro f o (tr_metadata tr) (blen (concat cs)) Hpl) as Hf.
    rewrite Hb, map_length in Hf. specialize (Hf Hlen Hfs). specialize (Hf (fun H => match Hl H with end) Ho).
    pose proof (proj2 (is_nil_false _) Hl) as Hnl. rewrite Hnl in Hf.
    destruct (IH 0%nat o (o + blen (concat cs)) rest
               (Traversal (TreeCoverage (o + blen (concat cs))) o (blen (concat cs)) (tr_metadata tr)) out2
               eq_refl Ho) as (sel & S1 & S2 & S3).
    { left. cbn. split; [reflexivity|]. split; [lia|]. split; [exact Hin|exact Hl]. }
    eapply rd_node with (sel := sel); [exact Hs|exact Hg|exact Hp|exact Hm|exact Hl|rewrite Hb; exact Hf| | |].
    + rewrite Hb. exact S1.
    + apply S2; assumption.
    + apply S3. exact Hk.
  - (* no links *)
    split; [reflexivity|]. intros n o e rest tr out2 -> He Hb. exists []. cbn [combine map select_links].
    split; [reflexivity|]. split; [congruence|]. intros Hk. cbn [concat app].
    destruct Hb as [(_ & _ & _ & H)|H]; [congruence|].
    assert (S0 : sl t o [] = []) by (unfold sl; rewrite skipn_nil; apply firstn_nil).
    rewrite S0. apply Hk. cbn [concat]. rewrite blen_nil, N.add_0_r. exact H.
  - (* links *)
    intros l c b f d ls ds Hc Hg Hp Hm Hd IHd Hds [Hlen IH].
    split; [cbn; congruence|]. intros n o e rest tr out2 -> He Hb.
    cbn [concat] in *. rewrite blen_app in *.
    cbn [combine map select_links]. fold dbg. rewrite (add64_ok (E := read_failed)) by lia. cbn [bind].
    destruct (block_is_in_target_range (o, o + blen d) t) eqn:Ein.
    + apply in_range_spec in Ein; [|lia|lia].
      unfold to_pending. unfold link_cid in Hc.
      assert (Hc' : ext_cid_decode X (opt (l_hash l) [] (fun h => h)) = Some c)
        by (destruct (l_hash l); exact Hc).
      rewrite Hc'. cbn [bind].
      assert (B' : forall tr', ended t tr' (o + blen d) -> before t tr' (o + blen d) (o + (blen d + blen (concat ds))) (ls <> []))
        by (intros tr' H; right; exact H).
      assert (Hsel : exists sel, select_links X (S n) (o + blen d) (combine ls (map blen ds)) t = Ok sel
         /\ forall tr', ended t tr' (o + blen d) ->
            (forall tr'', ended t tr'' (o + (blen d + blen (concat ds))) -> rd t rest tr'' out2) ->
            rd t (sel ++ rest) tr' (sl t (o + blen d) (concat ds) ++ out2)).
      { destruct (N.le_gt_cases (o + blen d) (hi t)).
        - destruct (IH (S n) (o + blen d) (o + (blen d + blen (concat ds))) rest
             (Traversal (Chunk (o + blen d)) 0 0 (tr_metadata tr)) out2) as (sel & S1 & _ & _); [lia|exact He| |].
          + apply B'. left. cbn. split; [eauto|]. unfold inr in *. lia.
          + exists sel. split; [exact S1|]. intros tr' H' Hk.
            destruct (IH (S n) (o + blen d) (o + (blen d + blen (concat ds))) rest tr' out2) as (sel' & S1' & _ & S3); [lia|exact He|auto|].
            rewrite S1 in S1'. injection S1' as <-. apply S3. exact Hk.
        - destruct (IH (S n) (o + blen d) (o + (blen d + blen (concat ds))) rest
             (Traversal (Chunk (o + blen d)) 0 0 (tr_metadata tr)) out2) as (sel & S1 & _ & _); [lia|exact He| |].
          + apply B'. right. cbn. eauto.
          + exists sel. split; [exact S1|]. intros tr' H' Hk.
            destruct (IH (S n) (o + blen d) (o + (blen d + blen (concat ds))) rest tr' out2) as (sel' & S1' & _ & S3); [lia|exact He|auto|].
            rewrite S1 in S1'. injection S1' as <-. apply S3. exact Hk. }
      destruct Hsel as (sel & S1 & S3). rewrite S1. cbn [bind].
      exists ((c, (o, o + blen d)) :: sel). split; [reflexivity|]. split; [congruence|].
      intros Hk. cbn [app]. rewrite sl_app, <- app_assoc.
      eapply IHd; [exact Hg|exact Hp|exact Hm|lia|exact Ein| |].
      * eapply before_suitable; [exact Hb|exact Ein|lia].
      * intros tr' H'. apply S3; assumption.
    + assert (Nin : ~ inr o (o + blen d) t).
      { intros H. apply in_range_spec in H; [congruence|lia|lia]. }
      assert (B' : before t tr (o + blen d) (o + (blen d + blen (concat ds))) (ls <> [])).
      { destruct Hb as [(H1 & H2 & H3 & _)|H].
        - left. split; [exact H1|]. split; [lia|]. unfold inr in *. split; [lia|].
          intros ->. inversion Hds; subst. cbn in H3. lia.
        - right. unfold ended in *. destruct H as [[(e' & H1 & H2) H3]|(e' & H1 & H2)].
          + exfalso. unfold inr in *. lia.
          + right. exists e'. split; [exact H1|lia]. }
      destruct (IH (S n) (o + blen d) (o + (blen d + blen (concat ds))) rest tr out2) as (sel & S1 & S2 & S3); [lia|exact He|exact B'|].
      exists sel. split; [exact S1|]. split.
      * intros _ Hi. destruct B' as [(_ & _ & H3 & H4)|H]; [apply S2; assumption|].
        destruct Hb as [(H1 & _)|H']; [|].
        { exfalso. unfold ended in H. rewrite H1 in H. destruct H as [[(? & ? & _) _]|(? & ? & _)]; discriminate. }
        exfalso. unfold ended, inr in *. destruct H' as [[_ ?]|(? & _ & ?)]; lia.
      * intros Hk. rewrite sl_app, (sl_out t o d Nin). cbn [app]. apply S3. exact Hk.
Qed.

End rd.
End v.
