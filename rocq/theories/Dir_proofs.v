(** * Dir_proofs: proofs about resolving *)
From Coq Require Import Permutation.
From Verif Require Import Base Tac Wire Utf8 Cid Pb Reader Dir SpecFile SpecDir Parse_safety Parsed.

Section proofs.
Context (X : ext).
Let dbg := ext_dbg X.

Lemma link_name_of l : link_name l = name_of l.
Proof. unfold link_name, name_of, opt. destruct (l_name l); reflexivity. Qed.

Lemma convert_ok nth l c : link_cid X l = Some c -> try_convert_cid X nth l = Ok c.
Proof.
  unfold link_cid, try_convert_cid, opt. intros H.
  destruct (l_hash l); rewrite H; reflexivity.
Qed.
Lemma convert_none nth l : link_cid X l = None -> try_convert_cid X nth l = Err (invalid_cid_of nth l).
Proof.
  unfold link_cid, try_convert_cid, opt. intros H.
  destruct (l_hash l); rewrite H; reflexivity.
Qed.

(** ** Plain directories *)

Lemma is_nil_true {A} (l : list A) : is_nil l = true <-> l = [].
Proof. destruct l; cbn; split; congruence. Qed.

Lemma check_dir_ok f :
  u_type (f_data f) = Directory ->
  (supported_dir (f_data f) /\ check_directory_supported f = Ok f) \/
  (~ supported_dir (f_data f) /\
   check_directory_supported f =
     Err (DirProps (u_filesize (f_data f)) (u_blocksizes (f_data f)) (u_hashtype (f_data f))
            (u_fanout (f_data f)) (u_data (f_data f)))).
Proof.
  intros T. unfold check_directory_supported, supported_dir.
  destruct f as [ls u]. cbn [f_data] in *. destruct u; cbn in *. subst.
  destruct u_filesize; cbn [orb]; [right; split; [intros (?&?&?); congruence|reflexivity]|].
  destruct u_blocksizes; cbn [orb is_nil negb]; [|right; split; [intros (?&?&?&?); congruence|reflexivity]].
  destruct u_hashtype; cbn [orb]; [right; split; [intros (?&?&?&?&?); congruence|reflexivity]|].
  destruct u_fanout; cbn [orb]; [right; split; [intros (?&?&?&?&?&?); congruence|reflexivity]|].
  destruct u_data as [[|x d]|]; cbn [opt is_nil negb];
    [left; intuition|right; split; [intros (?&?&?&?&?&[?|?]); congruence|reflexivity]|left; intuition].
Qed.

Lemma check_shard_ok f :
  u_type (f_data f) = HAMTShard ->
  (supported_shard (f_data f) /\ check_supported f = Ok tt) \/
  (~ supported_shard (f_data f) /\
   (~ (u_fanout (f_data f) = Some 256 /\ u_hashtype (f_data f) = Some 34) /\
    check_supported f = Err (UnsupportedProperties (u_hashtype (f_data f)) (u_fanout (f_data f)))
    \/ (u_fanout (f_data f) = Some 256 /\ u_hashtype (f_data f) = Some 34) /\
    check_supported f = Err (UnexpectedProperties (u_filesize (f_data f)) (u_blocksizes (f_data f))))).
Proof.
  intros T. unfold check_supported, supported_shard.
  destruct f as [ls u]. cbn [f_data] in *. destruct u; cbn in *. subst. cbn.
  assert (S : forall o n, is_some_n o n = true <-> o = Some n).
  { intros [m|] n; cbn; [rewrite N.eqb_eq|]; split; congruence. }
  destruct (is_some_n u_fanout 256) eqn:E1; cbn [negb orb].
  2:{ right. assert (u_fanout <> Some 256) by (rewrite <- S; congruence).
      split; [intros (?&?&?); congruence|]. left. split; [intros [? ?]; congruence|reflexivity]. }
  apply S in E1. subst.
  destruct (is_some_n u_hashtype 34) eqn:E2; cbn [negb orb].
  2:{ right. assert (u_hashtype <> Some 34) by (rewrite <- S; congruence).
      split; [intros (?&?&?&?); congruence|]. left. split; [intros [? ?]; congruence|reflexivity]. }
  apply S in E2. subst.
  destruct u_filesize; cbn [orb]; [right; split; [intros (?&?&?&?&?); congruence|right; auto]|].
  destruct u_blocksizes; cbn [orb is_nil negb]; [left; intuition|right; split; [intros (?&?&?&?&?); congruence|right; auto]].
Qed.

Lemma resolve_lists block links needle k :
  lists X block links -> resolve X block needle k = (resolve_plain X links needle, k).
Proof.
  intros L. unfold resolve. destruct L as [f P S|n P|e n P]; rewrite P; [|reflexivity..].
  pose proof S as (T & _). rewrite T.
  destruct (check_dir_ok f T) as [[_ C]|[C _]]; [|tauto]. rewrite C. reflexivity.
Qed.

Lemma matching_nil nth links needle :
  matching nth links needle = [] <-> forall l, In l links -> name_of l <> needle.
Proof.
  revert nth. induction links as [|l ls IH]; intros nth; cbn [matching]; [split; [intros _ l []|reflexivity]|].
  rewrite link_name_of. destruct (bytes_eqb (name_of l) needle) eqn:E.
  - apply bytes_eqb_eq in E. split; [discriminate|]. intros H. exfalso. apply (H l); [left; reflexivity|exact E].
  - apply bytes_eqb_neq in E. rewrite IH. split; intros H l0.
    + intros [->|I]; [exact E|apply H; exact I].
    + intros I. apply H. right. exact I.
Qed.

Lemma matching_cons nth links needle i l more :
  matching nth links needle = (i, l) :: more ->
  exists pre post, links = pre ++ l :: post /\ i = (nth + length pre)%nat /\ name_of l = needle
    /\ (forall l, In l pre -> name_of l <> needle) /\ matching (S i) post needle = more.
Proof.
  revert nth. induction links as [|x ls IH]; intros nth; cbn [matching]; [discriminate|].
  rewrite link_name_of. destruct (bytes_eqb (name_of x) needle) eqn:E.
  - intros H. injection H as -> -> <-. apply bytes_eqb_eq in E.
    exists [], ls. cbn. split; [reflexivity|]. split; [lia|]. split; [exact E|]. split; [intros ? []|reflexivity].
  - apply bytes_eqb_neq in E. intros H. destruct (IH _ H) as (pre & post & -> & -> & N & P & M).
    exists (x :: pre), post. cbn. split; [reflexivity|]. split; [lia|]. split; [exact N|]. split; [|exact M].
    intros l0 [->|I]; auto.
Qed.

(** the four ways in which looking for a name in a list of links can end *)
Definition plain_case (links : list pblink) (needle : bytes) (r : outcome resolve_error maybe_resolved) : Prop :=
  ((forall l, In l links -> name_of l <> needle) /\ r = Ok NotFound)
  \/ (exists pre l post, links = pre ++ l :: post /\ name_of l = needle
        /\ (forall l, In l pre -> name_of l <> needle)
        /\ ((link_cid X l = None /\ r = Err (RLookup (LInvalidCid (invalid_cid_of (length pre) l))))
            \/ exists c, link_cid X l = Some c
               /\ (((forall l, In l post -> name_of l <> needle) /\ r = Ok (Found c))
                   \/ exists mid l2 post2, post = mid ++ l2 :: post2 /\ name_of l2 = needle
                        /\ (forall l, In l mid -> name_of l <> needle)
                        /\ r = Err (RLookup (LMultiple
                                 (match link_cid X l2 with
                                  | Some c2 => Two (length pre, c) (S (length pre) + length mid, c2)%nat
                                  | None => OneValid (length pre, c)
                                              (invalid_cid_of (S (length pre) + length mid)%nat l2)
                                  end)))))).

Lemma resolve_plain_case links needle : plain_case links needle (resolve_plain X links needle).
Proof.
  unfold resolve_plain, plain_case. destruct (matching 0 links needle) as [|[i l] more] eqn:M.
  - left. split; [apply (proj1 (matching_nil 0 links needle) M)|reflexivity].
  - right. destruct (matching_cons _ _ _ _ _ _ M) as (pre & post & -> & -> & N & P & M2).
    rewrite Nat.add_0_l in *.
    exists pre, l, post. split; [reflexivity|]. split; [exact N|]. split; [exact P|].
    destruct (link_cid X l) as [c|] eqn:C.
    + right. exists c. split; [reflexivity|]. rewrite (convert_ok _ _ _ C). cbn [map_err bind].
      destruct more as [|[j l2] more2].
      * left. split; [apply (proj1 (matching_nil _ _ _) M2)|reflexivity].
      * right. destruct (matching_cons _ _ _ _ _ _ M2) as (mid & post2 & -> & -> & N2 & P2 & M3).
        exists mid, l2, post2. split; [reflexivity|]. split; [exact N2|]. split; [exact P2|].
        unfold multiple_of, link_cid, opt. destruct (l_hash l2); reflexivity.
    + left. split; [reflexivity|]. rewrite (convert_none _ _ C). reflexivity.
Qed.

(** ** partition *)

Lemma utf8_first n x : utf8_valid (x :: n) = true -> cont x = false.
Proof.
  cbn [utf8_valid]. unfold cont, inr. pose proof (b2n_lt x).
  destruct (N.leb_spec (b2n x) 0x7f); intros H1.
  - apply andb_false_iff. left. apply N.leb_gt. lia.
  - destruct n as [|y n]; [discriminate|].
    destruct ((0xc2 <=? b2n x) && (b2n x <=? 0xdf)) eqn:E; [lia|].
    destruct n as [|z n]; [discriminate|].
    destruct (b2n x =? 0xe0) eqn:E2; [lia|].
    destruct (_ || _) eqn:E3 in H1; [lia|].
    destruct (b2n x =? 0xed) eqn:E4; [lia|].
    destruct n as [|t n]; [discriminate|].
    destruct (b2n x =? 0xf0) eqn:E5; [lia|].
    destruct ((0xf1 <=? b2n x) && _) eqn:E6 in H1; [lia|].
    destruct (b2n x =? 0xf4) eqn:E7; [lia|discriminate].
Qed.

Lemma str_from_2 {E} p n : length p = 2%nat -> n <> [] -> utf8_valid n = true -> @str_from E (p ++ n) 2 = Ok n.
Proof.
  intros L NE V. destruct p as [|a [|b [|? ?]]]; cbn in L; try lia.
  destruct n as [|x n]; [congruence|]. unfold str_from, is_char_boundary.
  cbn. rewrite (utf8_first _ _ V). reflexivity.
Qed.

Lemma partition_shard get links its : shard_links X get links its ->
  forall nth needle found work,
  let q := work ++ map fst (own_buckets its) in
  let r := partition X nth links needle found work in
  match found, hits needle its with
  | None, [] => r = Ok (None, q)
  | None, [d] => r = Ok (Some d, q)
  | None, d :: _ :: _ => exists m, r = Err (LMultiple m) /\ multiple_into_inner m = d
  | Some (_, d), [] => r = Ok (Some d, q)
  | Some (_, d), _ :: _ => exists m, r = Err (LMultiple m) /\ multiple_into_inner m = d
  end.
Proof.
  induction 1 as [|l p n c ls its N L NE V C H IH|l c b f sub ls its N C G P SU H1 _ H2 IH];
    intros nth needle found work q r; subst q r; cbn [partition].
  - cbn. rewrite app_nil_r. destruct found as [[]|]; reflexivity.
  - rewrite link_name_of, N, blen_app.
    assert (blen p = 2) by (unfold blen; rewrite L; reflexivity).
    assert (0 < blen n) by (destruct n; [congruence|rewrite blen_cons; lia]).
    destruct (N.ltb_spec 2 (blen p + blen n)); [|lia].
    rewrite str_from_2 by assumption. cbn [bind].
    unfold own_buckets, hits, own_entries. cbn [flat_map app filter].
    fold (own_buckets its). fold (own_entries its). cbn [fst].
    destruct (bytes_eqb n needle) eqn:E.
    + cbn [map snd]. fold (hits needle its).
      destruct found as [[i d]|].
      * eexists. split; [reflexivity|]. unfold multiple_of. brk; reflexivity.
      * rewrite (convert_ok _ _ _ C). cbn [map_err bind].
        specialize (IH (S nth) needle (Some (nth, c)) work). cbn zeta in IH.
        destruct (hits needle its); exact IH.
    + destruct (N.eqb_spec (blen p + blen n) 2); [lia|].
      specialize (IH (S nth) needle found work). cbn zeta in IH.
      fold (hits needle its). exact IH.
  - rewrite link_name_of.
    assert (EL : blen (name_of l) = 2) by (unfold blen; rewrite N; reflexivity).
    rewrite EL. cbn [bind]. change (2 <? 2) with false. change (2 =? 2) with true. cbn [bind].
    rewrite (convert_ok _ _ _ C). cbn [map_err bind].
    specialize (IH (S nth) needle found (work ++ [c])). cbn zeta in IH.
    unfold own_buckets, hits, own_entries. cbn [flat_map app].
    fold (own_buckets its). fold (own_entries its). fold (hits needle its).
    cbn [map fst]. rewrite <- app_assoc in IH. cbn [app] in IH. exact IH.
Qed.

(** ** Breadth first order *)

Definition bucket : Type := cid * shard.
Definition kids (a : list bucket) : list bucket := flat_map (fun b => own_buckets (snd b)) a.

Inductive qo : list bucket -> list bucket -> Prop :=
| qo_nil : qo [] []
| qo_cons : forall (b : bucket) q o, qo (q ++ own_buckets (snd b)) o -> qo (b :: q) (b :: o).

Lemma qo_app a : forall b o, qo (b ++ kids a) o -> qo (a ++ b) (a ++ o).
Proof.
  induction a as [|x a IH]; intros b o H; cbn [app].
  - cbn in H. rewrite app_nil_r in H. exact H.
  - constructor. rewrite <- app_assoc. apply IH. rewrite <- app_assoc. exact H.
Qed.

Definition row_height (a : list bucket) : nat := list_max (map (fun b => S (height (snd b))) a).

Lemma list_max_cons x l : list_max (x :: l) = Nat.max x (list_max l).
Proof. reflexivity. Qed.

Lemma height_buckets its : height its = row_height (own_buckets its).
Proof.
  unfold height, row_height, own_buckets. induction its as [|[n c|c s] its IH]; [reflexivity|..];
    cbn [map flat_map app height_of]; rewrite !list_max_cons, IH; reflexivity.
Qed.

Lemma kids_height a h : (row_height a <= S h)%nat -> (row_height (kids a) <= h)%nat.
Proof. clear dbg X.
  unfold kids. induction a as [|[c s] a IH]; intros H; [cbn; lia|].
  unfold row_height in H |- *. cbn [map flat_map snd] in *. rewrite list_max_cons in H.
  rewrite map_app, list_max_app. fold (row_height (own_buckets s)). rewrite <- height_buckets.
  apply Nat.max_lub_iff in H as [H1 H2].
  apply Nat.max_lub; [lia|]. apply IH. exact H2.
Qed.

Fixpoint iter_kids (d : nat) (a : list bucket) : list bucket :=
  match d with O => a | S d => kids (iter_kids d a) end.

Lemma iter_kids_S d a : iter_kids (S d) a = iter_kids d (kids a).
Proof. induction d as [|d IH]; [reflexivity|]. cbn [iter_kids] in *. rewrite IH. reflexivity. Qed.

Lemma level_iter d its : level d its = iter_kids d (own_buckets its).
Proof. induction d as [|d IH]; [reflexivity|]. cbn [level iter_kids]. rewrite IH. reflexivity. Qed.

Lemma qo_rows h : forall a, (row_height a <= h)%nat ->
  qo a (concat (map (fun d => iter_kids d a) (seq 0 h))).
Proof. clear dbg X.
  induction h as [|h IH]; intros a H.
  - destruct a as [|b a]; [constructor|]. unfold row_height in H. cbn [map] in H.
    rewrite list_max_cons in H. apply Nat.max_lub_iff in H as [H _]. lia.
  - cbn [seq map concat]. rewrite <- (app_nil_r a) at 1.
    apply qo_app. cbn [app]. rewrite <- seq_shift, map_map.
    erewrite map_ext; [apply IH; apply kids_height; exact H|]. intros d. apply iter_kids_S.
Qed.

Lemma qo_bfs its : qo (own_buckets its) (breadth_first its).
Proof. clear dbg X.
  unfold breadth_first. erewrite map_ext by (intros; apply level_iter).
  apply qo_rows. rewrite height_buckets. lia.
Qed.

(** ** Entries and counts along the order *)

Definition entries_in (q : list bucket) : list (bytes * cid) := flat_map (fun b => entries (snd b)) q.

Lemma entries_split its : Permutation (entries its) (own_entries its ++ entries_in (own_buckets its)).
Proof.
  unfold entries, own_entries, own_buckets, entries_in.
  induction its as [|[n c|c s] its IH]; cbn [flat_map app entries_of snd]; [constructor|constructor; exact IH|].
  fold (entries s) in *. etransitivity; [apply Permutation_app_head; exact IH|].
  rewrite !app_assoc. apply Permutation_app_tail. apply Permutation_app_comm.
Qed.

Lemma entries_in_app a b : entries_in (a ++ b) = entries_in a ++ entries_in b.
Proof. apply flat_map_app. Qed.

Lemma qo_entries q o : qo q o -> Permutation (entries_in q) (flat_map (fun b => own_entries (snd b)) o).
Proof.
  induction 1 as [|b q o H IH]; [constructor|]. cbn [flat_map].
  etransitivity; [|apply Permutation_app_head; exact IH].
  rewrite entries_in_app. change (entries_in (b :: q)) with (entries (snd b) ++ entries_in q).
  etransitivity; [apply Permutation_app_tail; apply entries_split|].
  rewrite <- app_assoc. apply Permutation_app_head. apply Permutation_app_comm.
Qed.

Lemma bfs_entries its :
  Permutation (entries its) (flat_map own_entries (its :: map snd (breadth_first its))).
Proof.
  etransitivity; [apply entries_split|]. cbn [flat_map]. apply Permutation_app_head.
  etransitivity; [apply qo_entries; apply qo_bfs|].
  rewrite flat_map_concat_map, (flat_map_concat_map _ (map _ _)), map_map. reflexivity.
Qed.

Lemma count_split its : bucket_count its = list_sum (map (fun b => S (bucket_count (snd b))) (own_buckets its)).
Proof.
  unfold bucket_count, own_buckets. induction its as [|[n c|c s] its IH]; [reflexivity|..];
    cbn [flat_map map app buckets_of snd]; unfold list_sum in *; cbn [fold_right]; rewrite IH; reflexivity.
Qed.

Lemma qo_length q o : qo q o -> length o = list_sum (map (fun b => S (bucket_count (snd b))) q).
Proof. clear dbg X.
  induction 1 as [|b q o H IH]; [reflexivity|]. cbn [length]. rewrite IH.
  rewrite map_app, list_sum_app, <- count_split. unfold list_sum. cbn [map fold_right]. fold list_sum.
  change (fold_right Init.Nat.add 0%nat) with list_sum. lia.
Qed.

Lemma bfs_length its : length (breadth_first its) = bucket_count its.
Proof. etransitivity; [apply (qo_length _ _ (qo_bfs its))|symmetry; apply count_split]. Qed.

(** ** Lookups over the queue *)

(** a bucket of the queue is in the store *)
Definition in_store (get : cid -> option bytes) (b : bucket) : Prop :=
  exists blk, get (fst b) = Some blk /\ sharded X get blk (snd b).

Lemma links_store get links its : shard_links X get links its -> Forall (in_store get) (own_buckets its).
Proof.
  induction 1 as [|l p n c ls its N L NE V C H IH|l c b f sub ls its N C G P SU H1 _ H2 IH].
  - constructor.
  - exact IH.
  - unfold own_buckets. cbn [flat_map app]. constructor; [|exact IH].
    exists b. split; [exact G|]. exists f. auto.
Qed.

(** what the first shard with hits answers *)
Definition answers (d : cid) (ds : list cid) (r : outcome lookup_error maybe_resolved) : Prop :=
  match ds with
  | [] => r = Ok (Found d)
  | _ => exists m, r = Err (LMultiple m) /\ multiple_into_inner m = d
  end.

Lemma conclude_shard get links its needle k nth work :
  shard_links X get links its ->
  let q := work ++ map fst (own_buckets its) in
  let r := conclude (partition X nth links needle None work) needle k in
  match hits needle its with
  | [] => match q with [] => fst r = Ok NotFound | _ => fst r = Ok (NeedToLoadMore (Lookup q needle)) end
  | d :: ds => answers d ds (fst r)
  end.
Proof.
  intros S q r. pose proof (partition_shard _ _ _ S nth needle None work) as P. cbn zeta in P.
  subst r. destruct (hits needle its) as [|d [|d2 ds]]; [rewrite P..|].
  - fold q. destruct q; reflexivity.
  - reflexivity.
  - destruct P as (m & P & M). rewrite P. exists m. split; [reflexivity|exact M].
Qed.

Lemma continue_shard get c cids needle blk its k :
  sharded X get blk its ->
  let q := cids ++ map fst (own_buckets its) in
  let r := lk_continue_walk X (Lookup (c :: cids) needle) blk k in
  match hits needle its with
  | [] => match q with [] => fst r = Ok NotFound | _ => fst r = Ok (NeedToLoadMore (Lookup q needle)) end
  | d :: ds => answers d ds (fst r)
  end.
Proof.
  intros (f & P & SU & S) q r. subst r. unfold lk_continue_walk. cbn [lk_links lk_needle].
  rewrite P. pose proof SU as (T & _). rewrite T. cbn [is_hamt].
  destruct (check_shard_ok f T) as [[_ C]|[C _]]; [|tauto]. rewrite C.
  apply (conclude_shard get (f_links f) its needle k 0 cids S).
Qed.

Lemma answers_finished d ds r : answers d ds r -> finished r.
Proof. destruct ds; cbn; [intros ->; exact I|intros (m & -> & _); exact I]. Qed.

Lemma look_hit get needle q o :
  qo q o -> Forall (in_store get) q ->
  forall pre (b : bucket) post d ds, o = pre ++ b :: post ->
  (forall b', In b' pre -> hits needle (snd b') = []) -> hits needle (snd b) = d :: ds ->
  exists r, continues_lookup X get (Lookup (map fst q) needle) (map fst (pre ++ [b])) r /\ answers d ds r.
Proof.
  induction 1 as [|b0 q o H IH]; intros F pre b post d ds E PRE HIT; [destruct pre; discriminate|].
  inv F. match goal with K : in_store get b0 |- _ => destruct K as (blk & G & SH) end.
  pose proof (continue_shard get (fst b0) (map fst q) needle blk (snd b0) None SH) as CS. cbn zeta in CS.
  destruct (lk_continue_walk X (Lookup (fst b0 :: map fst q) needle) blk None) as [r k'] eqn:LK.
  cbn [fst] in CS.
  destruct pre as [|b1 pre].
  - cbn [app] in E. injection E as <- <-. rewrite HIT in CS.
    exists r. split; [|exact CS]. cbn [app map].
    eapply look_last; [reflexivity|exact G|exact LK|eapply answers_finished; exact CS].
  - cbn [app] in E. injection E as <- ->.
    rewrite (PRE b0) in CS by (left; reflexivity).
    destruct (IH) with (pre := pre) (b := b) (post := post) (d := d) (ds := ds) as (r2 & L & A);
      [|reflexivity|intros; apply PRE; right; assumption|exact HIT|].
    { apply Forall_app. split; [assumption|]. destruct SH as (f & _ & _ & SL). eapply links_store; exact SL. }
    exists r2. split; [|exact A]. cbn [app map].
    rewrite map_app in L.
    destruct (map fst q ++ map fst (own_buckets (snd b0))) as [|c cs] eqn:Q.
    + exfalso. inv L; discriminate.
    + subst r. eapply look_more; [reflexivity|exact G|exact LK|exact L].
Qed.

Lemma look_miss get needle q o :
  qo q o -> Forall (in_store get) q -> q <> [] ->
  (forall b', In b' o -> hits needle (snd b') = []) ->
  continues_lookup X get (Lookup (map fst q) needle) (map fst o) (Ok NotFound).
Proof.
  induction 1 as [|b0 q o H IH]; intros F NE PRE; [congruence|].
  inv F. match goal with K : in_store get b0 |- _ => destruct K as (blk & G & SH) end.
  pose proof (continue_shard get (fst b0) (map fst q) needle blk (snd b0) None SH) as CS. cbn zeta in CS.
  destruct (lk_continue_walk X (Lookup (fst b0 :: map fst q) needle) blk None) as [r k'] eqn:LK.
  cbn [fst] in CS. rewrite (PRE b0) in CS by (left; reflexivity).
  rewrite <- map_app in CS.
  destruct (q ++ own_buckets (snd b0)) as [|c cs] eqn:Q; cbn [map] in CS.
  - inv H. cbn [map]. eapply look_last; [reflexivity|exact G|exact LK|exact I].
  - subst r. cbn [map]. eapply look_more; [reflexivity|exact G|exact LK|].
    change (fst c :: map fst cs) with (map fst (c :: cs)). apply IH; [|congruence|intros; apply PRE; right; assumption].
    rewrite <- Q. apply Forall_app. split; [assumption|]. destruct SH as (f & _ & _ & SL). eapply links_store; exact SL.
Qed.

Lemma resolve_shard get block its needle k :
  clean k -> sharded X get block its ->
  let q := map fst (own_buckets its) in
  let r := resolve X block needle k in
  match hits needle its with
  | [] => match q with [] => fst r = Ok NotFound | _ => fst r = Ok (NeedToLoadMore (Lookup q needle)) end
  | d :: ds => exists r', fst r = map_err into_resolve_error r' /\ answers d ds r'
  end.
Proof.
  intros CK (f & P & SU & S) q r. subst r. unfold resolve. rewrite P.
  pose proof SU as (T & _). rewrite T.
  unfold lookup_or_start.
  destruct (check_shard_ok f T) as [[_ C]|[C _]]; [|tauto]. rewrite C.
  assert (E : opt k [] (fun c : dcache => c) = []) by (destruct CK as [-> | ->]; reflexivity).
  rewrite E. pose proof (conclude_shard get (f_links f) its needle None 0 [] S) as CS. cbn zeta in CS.
  cbn [app] in CS. fold q in CS.
  destruct (conclude _ _ _) as [r' k']. cbn [fst] in *.
  destruct (hits needle its).
  - destruct q; rewrite CS; reflexivity.
  - exists r'. split; [reflexivity|exact CS].
Qed.

(** ** Determinism *)

Lemma continue_cache v b k1 k2 : fst (lk_continue_walk X v b k1) = fst (lk_continue_walk X v b k2).
Proof.
  unfold lk_continue_walk, conclude. destruct (lk_links v); [reflexivity|].
  repeat brk; reflexivity.
Qed.

Lemma clean_resolve k1 k2 block needle : clean k1 -> clean k2 ->
  fst (resolve X block needle k1) = fst (resolve X block needle k2).
Proof.
  intros C1 C2. unfold resolve, lookup_or_start.
  assert (E1 : opt k1 [] (fun c : dcache => c) = []) by (destruct C1 as [-> | ->]; reflexivity).
  assert (E2 : opt k2 [] (fun c : dcache => c) = []) by (destruct C2 as [-> | ->]; reflexivity).
  rewrite E1, E2. clear. destruct (try_parse _ _) as [f|[]| |]; try reflexivity.
  destruct (u_type _); try reflexivity.
  - destruct (check_directory_supported f); reflexivity.
  - destruct (check_supported f); try reflexivity.
Qed.

Lemma continues_det get v a r : continues_lookup X get v a r ->
  forall a' r', continues_lookup X get v a' r' -> a = a' /\ r = r'.
Proof.
  induction 1 as [v c o b k k' r P G L F|v c o b k k' v' a r P G L H IH]; intros a' r' H2; inv H2;
    match goal with
    | P2 : lk_pending_links v = Ok (?c2, _), G2 : get ?c2 = Some ?b2, L2 : lk_continue_walk X v ?b2 ?kk = _ |- _ =>
        rewrite P in P2; injection P2 as <- <-; rewrite G in G2; injection G2 as <-;
        pose proof (continue_cache v b k kk) as CC; rewrite L, L2 in CC; cbn [fst] in CC
    end.
  - auto.
  - subst r. destruct F.
  - subst r'. match goal with F : finished _ |- _ => destruct F end.
  - injection CC as <-. match goal with K : continues_lookup X get v' _ _ |- _ => destruct (IH _ _ K) as [-> ->] end. auto.
Qed.

Lemma looks_det get block needle a r a' r' :
  looks_up X get block needle a r -> looks_up X get block needle a' r' -> a = a' /\ r = r'.
Proof.
  intros H1 H2. inv H1; inv H2;
    match goal with
    | A : resolve X block needle ?k1 = _, B : resolve X block needle ?k2 = _, C1 : clean ?k1, C2 : clean ?k2 |- _ =>
        pose proof (clean_resolve k1 k2 block needle C1 C2) as CC; rewrite A, B in CC; cbn [fst] in CC
    end.
  - auto.
  - subst r. match goal with F : finished (Ok (NeedToLoadMore _)) |- _ => destruct F end.
  - subst r'. match goal with F : finished (Ok (NeedToLoadMore _)) |- _ => destruct F end.
  - injection CC as <-.
    match goal with A : continues_lookup X get _ a ?r1, B : continues_lookup X get _ a' ?r2 |- _ =>
      destruct (continues_det _ _ _ _ A _ _ B) as [-> ->] end. auto.
Qed.

(** ** The answer of a lookup in a sharded directory *)

Lemma lookup_root_hit get block its needle d ds :
  sharded X get block its -> hits needle its = d :: ds ->
  exists r, looks_up X get block needle [] (map_err into_resolve_error r) /\ answers d ds r.
Proof.
  intros SH HIT.
  pose proof (resolve_shard get block its needle None (or_introl eq_refl) SH) as R. cbn zeta in R. rewrite HIT in R.
  destruct R as (r & R & A). exists r. split; [|exact A].
  destruct (resolve X block needle None) as [r0 k'] eqn:E. cbn [fst] in R. subst r0.
  eapply looks_once; [left; reflexivity|exact E|]. apply answers_finished in A. destruct r; exact A.
Qed.

Lemma lookup_hit get block its needle pre (b : bucket) post d ds :
  sharded X get block its -> breadth_first its = pre ++ b :: post ->
  hits needle its = [] -> (forall b', In b' pre -> hits needle (snd b') = []) ->
  hits needle (snd b) = d :: ds ->
  exists r, looks_up X get block needle (map fst (pre ++ [b])) (map_err into_resolve_error r) /\ answers d ds r.
Proof.
  intros SH BF H0 HP HIT.
  pose proof (resolve_shard get block its needle None (or_introl eq_refl) SH) as R. cbn zeta in R. rewrite H0 in R.
  destruct SH as (f & P & SU & SL). pose proof (links_store _ _ _ SL) as ST.
  destruct (look_hit get needle _ _ (qo_bfs its) ST pre b post d ds BF HP HIT) as (r & L & A).
  exists r. split; [|exact A].
  destruct (resolve X block needle None) as [r0 k'] eqn:E. cbn [fst] in R.
  destruct (map fst (own_buckets its)) as [|c cs] eqn:Q; [exfalso; inv L; discriminate|].
  subst r0. eapply looks_more; [left; reflexivity|exact E|]. exact L.
Qed.

Lemma lookup_miss get block its needle :
  sharded X get block its ->
  hits needle its = [] -> (forall b', In b' (breadth_first its) -> hits needle (snd b') = []) ->
  looks_up X get block needle (map fst (breadth_first its)) (Ok NotFound).
Proof.
  intros SH H0 HP.
  pose proof (resolve_shard get block its needle None (or_introl eq_refl) SH) as R. cbn zeta in R. rewrite H0 in R.
  destruct SH as (f & P & SU & SL). pose proof (links_store _ _ _ SL) as ST.
  destruct (resolve X block needle None) as [r0 k'] eqn:E. cbn [fst] in R.
  destruct (own_buckets its) as [|b bs] eqn:Q; cbn [map] in R.
  - subst r0. pose proof (qo_bfs its) as QB. rewrite Q in QB. inv QB. cbn [map].
    eapply looks_once; [left; reflexivity|exact E|exact I].
  - subst r0. change (@Ok resolve_error _ NotFound) with (map_err into_resolve_error (@Ok lookup_error _ NotFound)).
    eapply looks_more; [left; reflexivity|exact E|].
    change (fst b :: map fst bs) with (map fst (b :: bs)).
    apply look_miss; [rewrite <- Q; apply qo_bfs|assumption|discriminate|exact HP].
Qed.

Lemma first_hit needle (o : list bucket) :
  (forall b, In b o -> hits needle (snd b) = [])
  \/ exists pre b post d ds, o = pre ++ b :: post /\ (forall b', In b' pre -> hits needle (snd b') = [])
       /\ hits needle (snd b) = d :: ds.
Proof.
  induction o as [|b o IH]; [left; intros ? []|].
  destruct (hits needle (snd b)) as [|d ds] eqn:H.
  - destruct IH as [IH|(pre & b1 & post & d & ds & -> & P & Q)].
    + left. intros b' [<-|I]; auto.
    + right. exists (b :: pre), b1, post, d, ds. split; [reflexivity|]. split; [|exact Q].
      intros b' [<-|I]; auto.
  - right. exists [], b, o, d, ds. split; [reflexivity|]. split; [intros ? []|exact H].
Qed.

Lemma firstn_hd {A B} (pre : list (A * B)) b post :
  firstn (S (length pre)) (map fst (pre ++ b :: post)) = map fst (pre ++ [b]).
Proof.
  induction pre as [|x pre IH]; [reflexivity|]. cbn [length app map firstn] in *. rewrite IH. reflexivity.
Qed.

(** every lookup in a sharded directory ends, in one of these ways *)
Lemma lookup_cases get block its needle :
  sharded X get block its ->
  (hits needle its = [] /\ (forall b, In b (breadth_first its) -> hits needle (snd b) = [])
   /\ looks_up X get block needle (map fst (breadth_first its)) (Ok NotFound))
  \/ (exists pre post s d ds r, its :: map snd (breadth_first its) = pre ++ s :: post
        /\ (forall s', In s' pre -> hits needle s' = []) /\ hits needle s = d :: ds
        /\ answers d ds r
        /\ looks_up X get block needle (firstn (length pre) (map fst (breadth_first its)))
             (map_err into_resolve_error r)).
Proof.
  intros SH. destruct (hits needle its) as [|d ds] eqn:H0.
  - destruct (first_hit needle (breadth_first its)) as [M|(pre & b & post & d & ds & E & P & Q)].
    + left. split; [reflexivity|]. split; [exact M|]. apply lookup_miss; assumption.
    + right. destruct (lookup_hit get block its needle pre b post d ds SH E H0 P Q) as (r & L & A).
      exists (its :: map snd pre), (map snd post), (snd b), d, ds, r.
      split; [rewrite E, map_app; reflexivity|].
      split; [intros s' [<-|I]; [exact H0|apply in_map_iff in I as (b' & <- & I); auto]|].
      split; [exact Q|]. split; [exact A|].
      cbn [length]. rewrite map_length, E. pose proof (firstn_hd pre b post) as FH. cbn [bucket] in *.
      unfold bucket in *. rewrite FH. exact L.
  - right. destruct (lookup_root_hit get block its needle d ds SH H0) as (r & L & A).
    exists [], (map snd (breadth_first its)), its, d, ds, r.
    split; [reflexivity|]. split; [intros ? []|]. split; [exact H0|]. split; [exact A|exact L].
Qed.

(** ** From entries to hits *)

Definition hits_in (needle : bytes) (es : list (bytes * cid)) : list cid :=
  map snd (filter (fun e => bytes_eqb (fst e) needle) es).

Lemma hits_in_app n a b : hits_in n (a ++ b) = hits_in n a ++ hits_in n b.
Proof. unfold hits_in. rewrite filter_app, map_app. reflexivity. Qed.

Lemma hits_in_In n es c : In c (hits_in n es) <-> In (n, c) es.
Proof.
  unfold hits_in. rewrite in_map_iff. split.
  - intros ([n' c'] & <- & H). apply filter_In in H as [I E]. cbn [fst snd] in *.
    apply bytes_eqb_eq in E. subst. exact I.
  - intros I. exists (n, c). split; [reflexivity|]. apply filter_In. split; [exact I|apply bytes_eqb_refl].
Qed.

Lemma hits_in_nil n es : ~ In n (map fst es) -> hits_in n es = [].
Proof.
  intros H. destruct (hits_in n es) as [|c cs] eqn:E; [reflexivity|].
  exfalso. apply H. assert (I : In c (hits_in n es)) by (rewrite E; left; reflexivity).
  apply hits_in_In in I. apply (in_map fst) in I. exact I.
Qed.

Lemma hits_in_perm n a b : Permutation a b -> Permutation (hits_in n a) (hits_in n b).
Proof.
  intros P. unfold hits_in. apply Permutation_map. induction P as [|x l l' P IH|x y l|l1 l2 l3 P1 IH1 P2 IH2]; cbn [filter].
  - constructor.
  - destruct (bytes_eqb _ _); [constructor|]; exact IH.
  - destruct (bytes_eqb _ _), (bytes_eqb _ _); try reflexivity. constructor.
  - etransitivity; eassumption.
Qed.

Lemma hits_all its needle :
  Permutation (hits_in needle (entries its)) (flat_map (hits needle) (its :: map snd (breadth_first its))).
Proof.
  etransitivity; [apply hits_in_perm; apply bfs_entries|].
  generalize (its :: map snd (breadth_first its)) as ss. intros ss.
  induction ss as [|s ss IH]; [constructor|]. cbn [flat_map]. rewrite hits_in_app.
  apply Permutation_app; [reflexivity|exact IH].
Qed.

Lemma only_hits es n c : only_entry es n c -> hits_in n es = [c].
Proof.
  intros (pre & post & -> & A & B). rewrite hits_in_app. rewrite (hits_in_nil _ _ A).
  change ((n, c) :: post) with ([(n, c)] ++ post). rewrite hits_in_app, (hits_in_nil _ _ B).
  cbn. rewrite bytes_eqb_refl. reflexivity.
Qed.

Lemma lookup_sound get block its needle asked c :
  sharded X get block its -> looks_up X get block needle asked (Ok (Found c)) -> In (needle, c) (entries its).
Proof.
  intros SH L. destruct (lookup_cases get block its needle SH) as [(_ & _ & L2)|(pre & post & s & d & ds & r & E & P & H & A & L2)].
  - destruct (looks_det _ _ _ _ _ _ _ L L2) as [_ EQ]. discriminate.
  - destruct (looks_det _ _ _ _ _ _ _ L L2) as [_ EQ].
    apply hits_in_In. apply (Permutation_in _ (Permutation_sym (hits_all its needle))). rewrite E.
    apply in_flat_map. exists s. split; [apply in_or_app; right; left; reflexivity|]. rewrite H.
    destruct ds; cbn in A; [subst r; cbn in EQ; injection EQ as ->; left; reflexivity|].
    destruct A as (m & -> & _). discriminate.
Qed.

Lemma lookup_not_found get block its needle asked :
  sharded X get block its -> looks_up X get block needle asked (Ok NotFound) ->
  ~ In needle (map fst (entries its)) /\ asked = map fst (breadth_first its).
Proof.
  intros SH L. destruct (lookup_cases get block its needle SH) as [(H0 & H & L2)|(pre & post & s & d & ds & r & E & P & H & A & L2)].
  - destruct (looks_det _ _ _ _ _ _ _ L L2) as [-> _]. split; [|reflexivity].
    intros I. apply in_map_iff in I as ([n c] & N & I). cbn in N. subst n.
    apply hits_in_In in I. apply (Permutation_in _ (hits_all its needle)) in I.
    apply in_flat_map in I as (s & [<-|I] & J); [rewrite H0 in J; exact J|].
    apply in_map_iff in I as (b & <- & I). rewrite (H b I) in J. exact J.
  - destruct (looks_det _ _ _ _ _ _ _ L L2) as [_ EQ].
    destruct ds; cbn in A; [subst r; discriminate|]. destruct A as (m & -> & _). discriminate.
Qed.

Lemma lookup_complete get block its needle c :
  sharded X get block its -> only_entry (entries its) needle c ->
  exists asked, looks_up X get block needle asked (Ok (Found c)).
Proof.
  intros SH O. apply only_hits in O. pose proof (hits_all its needle) as PM. rewrite O in PM.
  destruct (lookup_cases get block its needle SH) as [(H0 & H & L2)|(pre & post & s & d & ds & r & E & P & H & A & L2)].
  - exfalso. apply Permutation_length_1_inv in PM.
    assert (I : In c (flat_map (hits needle) (its :: map snd (breadth_first its)))) by (rewrite PM; left; reflexivity).
    apply in_flat_map in I as (s & [<-|I] & J); [rewrite H0 in J; exact J|].
    apply in_map_iff in I as (b & <- & I). rewrite (H b I) in J. exact J.
  - apply Permutation_length_1_inv in PM. rewrite E, flat_map_app in PM.
    assert (Z : flat_map (hits needle) pre = []).
    { clear -P. induction pre as [|x pre IH]; [reflexivity|]. cbn. rewrite (P x) by (left; reflexivity).
      apply IH. intros; apply P; right; assumption. }
    rewrite Z in PM. cbn [app flat_map] in PM. rewrite H in PM. cbn [app] in PM. injection PM as -> PM.
    destruct ds; [|discriminate]. cbn in A. subst r. eexists. exact L2.
Qed.

Lemma lookup_absent get block its needle :
  sharded X get block its -> ~ In needle (map fst (entries its)) ->
  looks_up X get block needle (map fst (breadth_first its)) (Ok NotFound).
Proof.
  intros SH N. apply hits_in_nil in N. pose proof (hits_all its needle) as PM. rewrite N in PM.
  apply Permutation_nil in PM.
  destruct (lookup_cases get block its needle SH) as [(H0 & H & L2)|(pre & post & s & d & ds & r & E & P & H & A & L2)]; [exact L2|].
  exfalso. rewrite E, flat_map_app in PM. apply app_eq_nil in PM as [_ PM]. cbn in PM. rewrite H in PM. discriminate.
Qed.

Lemma lookup_bfs get block its needle asked r :
  sharded X get block its -> looks_up X get block needle asked r ->
  (exists rest, map fst (breadth_first its) = asked ++ rest) /\ (length asked <= bucket_count its)%nat.
Proof.
  intros SH L.
  assert (K : exists rest, map fst (breadth_first its) = asked ++ rest).
  { destruct (lookup_cases get block its needle SH) as [(H0 & H & L2)|(pre & post & s & d & ds & r2 & E & P & H & A & L2)];
      destruct (looks_det _ _ _ _ _ _ _ L L2) as [-> _].
    - exists []. rewrite app_nil_r. reflexivity.
    - exists (skipn (length pre) (map fst (breadth_first its))). symmetry. apply firstn_skipn. }
  split; [exact K|]. destruct K as (rest & K). rewrite <- bfs_length, <- (map_length fst), K, app_length. lia.
Qed.

(** ** Caches, pending links, panics *)

Lemma resolve_cache_clean block needle k : clean k -> clean (snd (resolve X block needle k)).
Proof.
  intros C. unfold resolve, lookup_or_start, conclude.
  destruct (try_parse _ _) as [f|[]| |]; try exact C.
  destruct (u_type _); try exact C.
  - destruct (check_directory_supported f); exact C.
  - destruct (check_supported f); try exact C.
    destruct (partition _ _ _ _ _ _) as [[[c|] [|x q]]| | |]; cbn; unfold clean; auto.
Qed.

Lemma continue_cache_clean v b k : clean k -> clean (snd (lk_continue_walk X v b k)).
Proof.
  intros C. unfold lk_continue_walk, conclude. destruct (lk_links v); [exact C|].
  destruct (try_parse _ _) as [f|[]| |]; try exact C; try (right; reflexivity).
  destruct (is_hamt _); [|exact C].
  destruct (check_supported f); try exact C.
  destruct (partition _ _ _ _ _ _) as [[[c0|] [|x q]]| | |]; cbn; unfold clean; auto.
Qed.

(** a link name which [&name[2..]] can slice *)
Definition sliceable (l : pblink) : Prop :=
  (length (name_of l) <= 2)%nat \/ is_char_boundary (name_of l) 2 = true.

Lemma partition_total links : forall nth needle found work,
  (forall l, In l links -> sliceable l) ->
  (exists r, partition X nth links needle found work = Ok r) \/ (exists e, partition X nth links needle found work = Err e).
Proof.
  induction links as [|l ls IH]; intros nth needle found work S; cbn [partition]; [eauto|].
  assert (S' : forall l, In l ls -> sliceable l) by (intros; apply S; right; assumption).
  rewrite link_name_of. specialize (S l (or_introl eq_refl)).
  assert (H : exists h, (if 2 <? blen (name_of l) then do s <- str_from (name_of l) 2; @Ok lookup_error _ (bytes_eqb s needle) else Ok false) = Ok h).
  { destruct (N.ltb_spec 2 (blen (name_of l))); [|eauto].
    unfold sliceable in S. destruct S as [S|S]; [unfold blen in *; lia|].
    unfold str_from. rewrite S. cbn. eauto. }
  destruct H as (h & ->). cbn [bind].
  assert (CV : (exists c, try_convert_cid X nth l = Ok c) \/ exists e, try_convert_cid X nth l = Err e).
  { unfold try_convert_cid. brk; eauto. }
  destruct h.
  - destruct found; [eauto|]. destruct CV as [(c & ->)|(e & ->)]; cbn [map_err bind]; [apply IH; exact S'|eauto].
  - destruct (blen (name_of l) =? 2); [|apply IH; exact S'].
    destruct CV as [(c & ->)|(e & ->)]; cbn [map_err bind]; [apply IH; exact S'|eauto].
Qed.

Lemma partition_panics links : forall nth needle found work,
  partition X nth links needle found work = Panic ->
  exists l, In l links /\ (2 < length (name_of l))%nat /\ is_char_boundary (name_of l) 2 = false.
Proof.
  intros nth needle found work P.
  destruct (existsb (fun l => (2 <? blen (name_of l)) && negb (is_char_boundary (name_of l) 2)) links) eqn:E.
  - apply existsb_exists in E as (l & I & E). exists l. split; [exact I|].
    apply andb_true_iff in E as [E1 E2]. apply negb_true_iff in E2. split; [|exact E2]. unfold blen in E1. lia.
  - exfalso. destruct (partition_total links nth needle found work) as [(r & R)|(e & R)]; [|congruence..].
    intros l I. unfold sliceable.
    assert (F : (2 <? blen (name_of l)) && negb (is_char_boundary (name_of l) 2) = false).
    { destruct (_ && _) eqn:F; [|reflexivity]. rewrite <- E. symmetry. apply existsb_exists. eauto. }
    apply andb_false_iff in F as [F|F]; [left; unfold blen in F; lia|right; apply negb_false_iff in F; exact F].
Qed.

Lemma unsliceable l : (2 < length (name_of l))%nat -> is_char_boundary (name_of l) 2 = false -> splits_char l.
Proof.
  unfold splits_char. destruct (name_of l) as [|a [|b [|x n]]]; cbn [length]; intros L H; try lia.
  unfold is_char_boundary in H. cbn [nth_error] in H. apply negb_false_iff in H.
  unfold cont, inr in H. apply andb_true_iff in H as [H1 H2]. exists a, b, x, n. split; [reflexivity|]. lia.
Qed.

Lemma partition_no_diverge links nth needle found work : partition X nth links needle found work <> Diverge.
Proof.
  revert nth found work. induction links as [|l ls IH]; intros nth found work; cbn [partition]; [discriminate|].
  destruct (if 2 <? blen (link_name l) then _ else _) as [hit| | |] eqn:E; cbn [bind]; try discriminate.
  2:{ exfalso. destruct (2 <? _) in E; [|discriminate]. unfold str_from in E. destruct (is_char_boundary _ _); discriminate. }
  unfold try_convert_cid. destruct hit.
  - destruct found; [discriminate|]. destruct (ext_cid_decode _ _); cbn [bind map_err]; [apply IH|discriminate].
  - destruct (_ =? _); [|apply IH]. destruct (ext_cid_decode _ _); cbn [bind map_err]; [apply IH|discriminate].
Qed.

Lemma conclude_panic r needle k : fst (conclude r needle k) = Panic -> r = Panic.
Proof. destruct r as [[[c|] [|x q]]| | |]; cbn; congruence. Qed.
Lemma conclude_diverge r needle k : fst (conclude r needle k) = Diverge -> r = Diverge.
Proof. destruct r as [[[c|] [|x q]]| | |]; cbn; congruence. Qed.

Lemma resolve_plain_no_panic links needle :
  resolve_plain X links needle <> Panic /\ resolve_plain X links needle <> Diverge.
Proof.
  unfold resolve_plain. destruct (matching 0 links needle) as [|[i l] more]; [split; discriminate|].
  unfold try_convert_cid. repeat (brk; cbn [bind map_err]); split; discriminate.
Qed.

(** the ways in which a block can make a lookup panic or hang *)
Definition bad_block (block : bytes) : Prop :=
  try_parse dbg block = Panic \/ try_parse dbg block = Diverge
  \/ exists f l, try_parse dbg block = Ok f /\ supported_shard (f_data f) /\ In l (f_links f) /\ splits_char l.

Lemma resolve_bad block needle k :
  fst (resolve X block needle k) = Panic \/ fst (resolve X block needle k) = Diverge -> bad_block block.
Proof.
  unfold resolve, bad_block. fold dbg. intros H.
  destruct (try_parse dbg block) as [f|[]| |] eqn:P; cbn [fst] in *.
  - right. right. destruct (u_type (f_data f)) eqn:T; cbn [fst] in *; try (intuition discriminate).
    + destruct (check_dir_ok f T) as [[_ C]|[_ C]]; rewrite C in *; cbn [fst] in *;
        [pose proof (resolve_plain_no_panic (f_links f) needle); tauto|intuition discriminate].
    + unfold lookup_or_start in *. destruct (check_shard_ok f T) as [[S C]|[_ [[_ C]|[_ C]]]]; rewrite C in *;
        cbn [fst] in *; [|intuition discriminate..].
      destruct (conclude _ _ _) as [r k'] eqn:E. cbn [fst] in H.
      exists f. destruct (partition X 0 (f_links f) needle None (opt k [] (fun c => c))) as [pr| | |] eqn:PP.
      * exfalso. destruct pr as [[c|] [|x q]]; cbn in E; inv E; intuition discriminate.
      * exfalso. cbn in E; inv E; intuition discriminate.
      * apply partition_panics in PP as (l & I & L & B). exists l. split; [reflexivity|]. split; [exact S|].
        split; [exact I|]. apply unsliceable; assumption.
      * exfalso. eapply partition_no_diverge. exact PP.
  - intuition discriminate.
  - pose proof (resolve_plain_no_panic (n_links n) needle). tauto.
  - pose proof (resolve_plain_no_panic (n_links n) needle). tauto.
  - auto.
  - auto.
Qed.

Lemma continue_bad v block k : lk_links v <> [] ->
  fst (lk_continue_walk X v block k) = Panic \/ fst (lk_continue_walk X v block k) = Diverge -> bad_block block.
Proof.
  intros NE. unfold lk_continue_walk, bad_block. fold dbg. intros H. destruct (lk_links v) as [|c cs]; [congruence|].
  destruct (try_parse dbg block) as [f|[]| |] eqn:P; cbn [fst] in *; try (intuition discriminate).
  right. right. destruct (u_type (f_data f)) eqn:T; cbn [fst is_hamt] in *; try (intuition discriminate).
  destruct (check_shard_ok f T) as [[S C]|[_ [[_ C]|[_ C]]]]; rewrite C in *;
    cbn [fst] in *; [|intuition discriminate..].
  exists f. destruct (partition X 0 (f_links f) (lk_needle v) None cs) as [pr| | |] eqn:PP.
  - exfalso. destruct pr as [[d|] [|x q]]; cbn in *; intuition discriminate.
  - exfalso. cbn in *; intuition discriminate.
  - apply partition_panics in PP as (l & I & L & B). exists l. split; [reflexivity|]. split; [exact S|].
    split; [exact I|]. apply unsliceable; assumption.
  - exfalso. eapply partition_no_diverge. exact PP.
Qed.

Lemma ascii_not_split block f l :
  try_parse dbg block = Ok f -> In l (f_links f) -> ascii_prefix l -> ~ splits_char l.
Proof.
  intros P I (a & b & rest & N & A & B) (a' & b' & x & rest' & N' & C).
  rewrite N in N'. injection N' as <- <- ->.
  apply try_parse_parsed in P as [P _]. rewrite Forall_forall in P. apply P in I as [I _].
  unfold name_of in N. destruct (l_name l) as [n|]; [|discriminate]. subst n.
  cbn [utf8_valid] in I. destruct (N.leb_spec (b2n a) 0x7f); [|lia]. destruct (N.leb_spec (b2n b) 0x7f); [|lia].
  apply (utf8_first rest' x) in I. unfold cont, inr in I. lia.
Qed.

Lemma conclude_more r needle k v : fst (conclude r needle k) = Ok (NeedToLoadMore v) -> lk_links v <> [].
Proof. destruct r as [[[c|] [|x q]]| | |]; cbn; intros E; try discriminate. injection E as <-. discriminate. Qed.
Lemma resolve_plain_final links needle v : resolve_plain X links needle <> Ok (NeedToLoadMore v).
Proof.
  unfold resolve_plain. destruct (matching 0 links needle) as [|[i l] more]; [discriminate|].
  unfold try_convert_cid. repeat (brk; cbn [bind map_err]); discriminate.
Qed.
Lemma more_pending block needle k v : fst (resolve X block needle k) = Ok (NeedToLoadMore v) -> lk_links v <> [].
Proof.
  unfold resolve, lookup_or_start. destruct (try_parse _ _) as [f|[]| |]; cbn [fst]; try discriminate;
    try (intros E; exfalso; eapply resolve_plain_final; exact E).
  destruct (u_type (f_data f)); cbn [fst]; try discriminate.
  - destruct (check_directory_supported f); cbn [fst]; try discriminate.
    intros E; exfalso; eapply resolve_plain_final; exact E.
  - destruct (check_supported f); try (cbn; discriminate).
    destruct (conclude _ _ _) as [r k'] eqn:E. cbn [fst].
    intros E2. apply map_err_ok in E2. subst r. eapply conclude_more. rewrite E. reflexivity.
Qed.
Lemma more_pending_walk v b k v' : fst (lk_continue_walk X v b k) = Ok (NeedToLoadMore v') -> lk_links v' <> [].
Proof.
  unfold lk_continue_walk. destruct (lk_links v); [discriminate|].
  destruct (try_parse _ _) as [f|[]| |]; cbn [fst]; try discriminate.
  destruct (is_hamt _); cbn [fst]; try discriminate.
  destruct (check_supported f); cbn [fst]; try discriminate. apply conclude_more.
Qed.

Lemma partition_work nth links needle : forall found work o q,
  partition X nth links needle found work = Ok (o, q) ->
  exists new, q = work ++ new /\ map (fun l => link_cid X l) (filter (fun l => Nat.eqb (length (name_of l)) 2) links) = map Some new.
Proof.
  revert nth. induction links as [|l ls IH]; intros nth found work o q; cbn [partition].
  - intros H. inv H. exists []. rewrite app_nil_r. split; reflexivity.
  - rewrite link_name_of.
    destruct (if 2 <? blen (name_of l) then _ else _) as [hit| | |] eqn:E; try discriminate. cbn [bind].
    cbn [filter].
    assert (HL : hit = true -> Nat.eqb (length (name_of l)) 2 = false).
    { intros ->. destruct (N.ltb_spec 2 (blen (name_of l))); [|discriminate]. apply Nat.eqb_neq. unfold blen in *. lia. }
    destruct hit.
    + rewrite HL by reflexivity. destruct found; [discriminate|]. intros H.
      apply bind_ok in H as (c & _ & H). eapply IH; exact H.
    + destruct (N.eqb_spec (blen (name_of l)) 2) as [E2|E2].
      * replace (Nat.eqb (length (name_of l)) 2) with true by (symmetry; apply Nat.eqb_eq; unfold blen in E2; lia).
        intros H. apply bind_ok in H as (c & C & H). apply map_err_ok in C.
        destruct (IH _ _ _ _ _ H) as (new & -> & M). exists (c :: new). rewrite <- app_assoc. split; [reflexivity|].
        cbn [map]. rewrite M. f_equal.
        destruct (link_cid X l) eqn:K; [apply (convert_ok nth) in K|apply (convert_none nth) in K]; congruence.
      * replace (Nat.eqb (length (name_of l)) 2) with false by (symmetry; apply Nat.eqb_neq; unfold blen in E2; lia).
        intros H. eapply IH; exact H.
Qed.

End proofs.
