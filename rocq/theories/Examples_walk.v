(** * Examples_walk: small trees used as witnesses and counterexamples *)
From Verif Require Import Base Tac Wire Utf8 Cid Pb Reader Visit Dir Walk SpecFile SpecDir SpecWalk
  SpecText Text_proofs Dir_proofs Walk_proofs Walk_paths Walk_sim Examples_file Examples_dir.

Definition symm (t : bytes) : flat := Flat [] (UnixFs Symlink (Some t) None [] None None None None).
(** a directory with mode 0755 and a modification time *)
Definition dirmd (ls : list pblink) : flat :=
  Flat ls (UnixFs Directory None None [] None None (Some 493) (Some (UnixTime 5 None))).

(** 10 = { f = 11 (a file of several blocks), l = 12 (a symlink),
           s = 13 (sharded: bucket 14 { a = 1, bucket 15 {} }, d = 16 { x = 3 }, bucket 15 {}) }
    20 = sharded: d = 21 (an empty directory), bucket 15
    22 = sharded: bucket 14
    23 = { a = 24 { . = 3 }, b = 3 } *)
Definition t_msg (n : N) : flat :=
  match n with
  | 10 => dirm [nlnk 11 [x66]; nlnk 12 [x6c]; nlnk 13 [x73]]
  | 11 => ex_root
  | 12 => symm [x2e; x2e]
  | 13 => shardm [nlnk 14 [x30; x31]; nlnk 16 [x30; x32; x64]; nlnk 15 [x30; x33]]
  | 14 => shardm [nlnk 1 [x30; x30; x61]; nlnk 15 [x30; x35]]
  | 15 => shardm []
  | 16 => dirmd [nlnk 3 [x78]]
  | 20 => shardm [nlnk 21 [x30; x30; x64]; nlnk 15 [x30; x31]]
  | 21 => dirm []
  | 22 => shardm [nlnk 14 [x30; x31]]
  | 23 => dirm [nlnk 24 [x61]; nlnk 3 [x62]]
  | 24 => dirm [nlnk 3 [x2e]]
  | _ => ex_msg n
  end.
Definition t_get (c : cid) : option bytes :=
  match cid_digest c with [x] => Some (flat_write (t_msg (b2n x))) | _ => None end.
Definition t_ids : list N := [1; 2; 3; 4; 5; 10; 11; 12; 13; 14; 15; 16; 20; 21; 22].
Lemma t_parse dbg n : In n t_ids -> t_get (idc n) = Some (flat_write (t_msg n)) /\ try_parse dbg (flat_write (t_msg n)) = Ok (t_msg n).
Proof.
  intros H. cbn in H. repeat (destruct H as [<- |H]; [destruct dbg; vm_compute; split; reflexivity|]). destruct H.
Qed.

Definition f_tree := FsFile (MData None None) [x61; x62; x63; x64].
Definition x_tree := FsFile (MData None None) [x64].
Definition a_tree := FsFile (MData None None) [x61; x62].
Definition d_tree := FsDir (MData (Some 493) (Some (5%Z, 0))) [([x78], idc 3, x_tree)].
Definition b_items := [ShEntry [x61] (idc 1) a_tree; ShBucket (idc 15) []].
Definition s_tree := FsShard (MData None None) [ShBucket (idc 14) b_items; ShEntry [x64] (idc 16) d_tree; ShBucket (idc 15) []].
Definition t_tree := FsDir (MData None None)
  [([x66], idc 11, f_tree); ([x6c], idc 12, FsSymlink (MData None None) [x2e; x2e]); ([x73], idc 13, s_tree)].
Definition u_tree := FsShard (MData None None) [ShEntry [x64] (idc 21) (FsDir (MData None None) []); ShBucket (idc 15) []].
Definition v_tree := FsShard (MData None None) [ShBucket (idc 14) b_items].

Definition w_tree := FsDir (MData None None)
  [([x61], idc 24, FsDir (MData None None) [([x2e], idc 3, x_tree)]); ([x62], idc 3, x_tree)].

Lemma plain1 x : x <> x2e -> x <> x2f -> plain_name [x].
Proof. intros H1 H2. split; [discriminate|]. split; [congruence|]. intros [H|[]]. congruence. Qed.

Lemma loose1 x : x <> x2f -> loose_name [x].
Proof. intros H. split; [discriminate|]. intros [H2|[]]. congruence. Qed.

(** for any store with the blocks above *)
Section ex.
Context (X : ext) (HX : ext_ok X) (get : cid -> option bytes)
  (HG : forall n, In n t_ids -> get (idc n) = Some (flat_write (t_msg n))).
Lemma t_parse_in n : In n t_ids -> get (idc n) = Some (flat_write (t_msg n)) /\ try_parse (ext_dbg X) (flat_write (t_msg n)) = Ok (t_msg n).
Proof. intros H. split; [apply HG, H|apply t_parse, H]. Qed.

Lemma t_file_dag_in : file_dag X get ex_root [x61; x62; x63; x64].
Proof.
  assert (C : forall n f d ls ds, In n t_ids -> t_msg n = f ->
     no_metadata (f_data f) -> file_dag X get f d -> file_dags X get ls ds ->
     file_dags X get (lnk n :: ls) (d :: ds)).
  { intros n f d ls ds Hn E M D R. destruct (t_parse_in n Hn) as [G P].
    eapply dags_cons; [apply idc_decode, HX|exact G|exact P|subst f; exact M|subst f; exact D|exact R]. }
  assert (L : forall t d, (t = File \/ t = Raw) -> file_dag X get (leafm t d) d).
  { intros t d H. apply (dag_leaf X get (leafm t d)); try reflexivity. repeat split. exact H. }
  assert (S2 : file_dag X get (ex_msg 2) [x63]).
  { apply (dag_node X get (ex_msg 2) [[x63]; []]); try reflexivity; [repeat split; left; reflexivity|discriminate|].
    eapply (C 4); [cbn; tauto|reflexivity|split; reflexivity|apply L; auto|].
    eapply (C 5); [cbn; tauto|reflexivity|split; reflexivity|apply L; auto|constructor]. }
  apply (dag_node X get ex_root [[x61; x62]; [x63]; [x64]]); try reflexivity; [repeat split; left; reflexivity|discriminate|].
  eapply (C 1); [cbn; tauto|reflexivity|split; reflexivity|apply L; auto|].
  eapply (C 2); [cbn; tauto|reflexivity|split; reflexivity|exact S2|].
  eapply (C 3); [cbn; tauto|reflexivity|split; reflexivity|apply L; auto|constructor].
Qed.

Lemma t_leaf n t d : In n t_ids -> t_msg n = leafm t d -> (t = File \/ t = Raw) -> blen d < two64 ->
  stored X get (idc n) (FsFile (MData None None) d).
Proof.
  intros Hn E T L. destruct (t_parse_in n Hn) as [G P]. rewrite E in *.
  change (MData None None) with (says (f_data (leafm t d))). eapply stored_file; [exact G|exact P| |exact L].
  apply (dag_leaf X get (leafm t d)); try reflexivity. repeat split. exact T.
Qed.

Lemma t_stored_dir n f es md : In n t_ids -> t_msg n = f -> md = says (f_data f) -> supported_dir (f_data f) ->
  stored_entries X get (f_links f) es -> stored X get (idc n) (FsDir md es).
Proof. intros Hn E -> S H. destruct (t_parse_in n Hn) as [G P]. rewrite E in *. eapply stored_dir; eassumption. Qed.
Lemma t_stored_shard n f its md : In n t_ids -> t_msg n = f -> md = says (f_data f) -> supported_shard (f_data f) ->
  stored_items X get (f_links f) its -> stored X get (idc n) (FsShard md its).
Proof. intros Hn E -> S H. destruct (t_parse_in n Hn) as [G P]. rewrite E in *. eapply stored_shard; eassumption. Qed.
Lemma t_entry n x t ls es : x <> x2f -> stored X get (idc n) t ->
  stored_entries X get ls es -> stored_entries X get (nlnk n [x] :: ls) (([x], idc n, t) :: es).
Proof. intros H2 H3 H4. apply entries_cons; [reflexivity|apply loose1; assumption|apply nlnk_cid, HX|exact H3|exact H4]. Qed.
Lemma t_item n p q x t ls its : x <> x2e -> x <> x2f -> utf8_valid [x] = true -> stored X get (idc n) t ->
  stored_items X get ls its -> stored_items X get (nlnk n [p; q; x] :: ls) (ShEntry [x] (idc n) t :: its).
Proof.
  intros H1 H2 H3 H4 H5. apply (items_entry X get _ [p; q] [x]); [reflexivity|reflexivity|apply plain_loose, plain1; assumption|apply valid_text, H3|apply nlnk_cid, HX|exact H4|exact H5].
Qed.
Lemma t_bucket n p q f sub ls its : In n t_ids -> t_msg n = f -> supported_shard (f_data f) ->
  stored_items X get (f_links f) sub ->
  stored_items X get ls its -> stored_items X get (nlnk n [p; q] :: ls) (ShBucket (idc n) sub :: its).
Proof.
  intros Hn E S H1 H2. destruct (t_parse_in n Hn) as [G P]. rewrite E in *.
  eapply (items_bucket X get _ [p; q]); [reflexivity|reflexivity|apply nlnk_cid, HX|exact G|exact P|exact S|exact H1|exact H2].
Qed.
Lemma dir_ok ls : supported_dir (f_data (dirm ls)).
Proof. repeat split. left. reflexivity. Qed.

Lemma t_b : stored_items X get (f_links (t_msg 14)) b_items.
Proof.
  apply t_item; [discriminate|discriminate|reflexivity|apply (t_leaf 1 Raw); [cbn; tauto|reflexivity|auto|reflexivity]|].
  eapply t_bucket; [cbn; tauto|reflexivity|apply shardm_ok|constructor|constructor].
Qed.
Lemma t_stored_in : stored X get (idc 10) t_tree.
Proof.
  eapply t_stored_dir; [cbn; tauto|reflexivity|reflexivity|apply dir_ok|].
  apply t_entry; [discriminate| |].
  { destruct (t_parse_in 11 ltac:(cbn; tauto)) as [G P].
    apply (stored_file X get (idc 11) _ ex_root _ G P); [apply t_file_dag_in|reflexivity]. }
  apply t_entry; [discriminate| |].
  { destruct (t_parse_in 12 ltac:(cbn; tauto)) as [G P].
    apply (stored_symlink X get (idc 12) _ (symm [x2e; x2e]) G P). reflexivity. }
  apply t_entry; [discriminate| |constructor].
  eapply t_stored_shard; [cbn; tauto|reflexivity|reflexivity|apply shardm_ok|].
  eapply t_bucket; [cbn; tauto|reflexivity|apply shardm_ok|exact t_b|].
  apply t_item; [discriminate|discriminate|reflexivity| |].
  { eapply t_stored_dir; [cbn; tauto|reflexivity|reflexivity|repeat split; left; reflexivity|].
    apply t_entry; [discriminate|apply (t_leaf 3 File); [cbn; tauto|reflexivity|auto|reflexivity]|constructor]. }
  eapply t_bucket; [cbn; tauto|reflexivity|apply shardm_ok|constructor|constructor].
Qed.
Lemma u_stored_in : stored X get (idc 20) u_tree.
Proof.
  eapply t_stored_shard; [cbn; tauto|reflexivity|reflexivity|apply shardm_ok|].
  apply t_item; [discriminate|discriminate|reflexivity| |].
  { eapply t_stored_dir; [cbn; tauto|reflexivity|reflexivity|apply dir_ok|constructor]. }
  eapply t_bucket; [cbn; tauto|reflexivity|apply shardm_ok|constructor|constructor].
Qed.
Lemma v_stored_in : stored X get (idc 22) v_tree.
Proof.
  eapply t_stored_shard; [cbn; tauto|reflexivity|reflexivity|apply shardm_ok|].
  eapply t_bucket; [cbn; tauto|reflexivity|apply shardm_ok|exact t_b|constructor].
Qed.
End ex.
Definition t_has n (H : In n t_ids) := proj1 (t_parse true n H).
Definition t_stored X HX := t_stored_in X HX t_get t_has.
Definition u_stored X HX := u_stored_in X HX t_get t_has.
Definition v_stored X HX := v_stored_in X HX t_get t_has.
Lemma w_parse dbg n : In n [23; 24] -> t_get (idc n) = Some (flat_write (t_msg n)) /\ try_parse dbg (flat_write (t_msg n)) = Ok (t_msg n).
Proof. intros H. cbn in H. repeat (destruct H as [<- |H]; [destruct dbg; vm_compute; split; reflexivity|]). destruct H. Qed.
Lemma w_stored X : ext_ok X -> stored X t_get (idc 23) w_tree.
Proof.
  intros HX. assert (L : stored X t_get (idc 3) x_tree) by (apply (t_leaf X t_get t_has 3 File); [cbn; tauto|reflexivity|auto|reflexivity]).
  assert (D : forall n f es, In n [23; 24] -> t_msg n = f -> MData None None = says (f_data f) -> supported_dir (f_data f) ->
    stored_entries X t_get (f_links f) es -> stored X t_get (idc n) (FsDir (MData None None) es)).
  { intros n f es Hn E M S H. destruct (w_parse (ext_dbg X) n Hn) as [G P]. rewrite E, M in *. eapply stored_dir; eassumption. }
  eapply D; [cbn; tauto|reflexivity|reflexivity|apply dir_ok|].
  apply t_entry; [exact HX|discriminate| |].
  { eapply D; [cbn; tauto|reflexivity|reflexivity|apply dir_ok|].
    apply t_entry; [exact HX|discriminate|exact L|constructor]. }
  apply t_entry; [exact HX|discriminate|exact L|constructor].
Qed.

Lemma no_dots_parts evs : forallb (fun e => negb (existsb (bytes_eqb dot) (tl (parts (path_seen e))))) evs = true -> no_dots evs.
Proof.
  intros H e He D. rewrite forallb_forall in H. specialize (H e He). apply dotted_parts in D. apply negb_true_iff in H.
  assert (T : existsb (bytes_eqb dot) (tl (parts (path_seen e))) = true) by (apply existsb_exists; exists dot; split; [exact D|reflexivity]).
  congruence.
Qed.

Lemma t_walkable : walkable (sights true [] (idc 10) t_tree).
Proof.
  split; [|apply no_dots_parts; vm_compute; reflexivity].
  intros pre c p md c' p' post H. cbn -[idc] in H.
  repeat (destruct pre as [|? pre]; [discriminate H|injection H as _ H]). destruct pre; discriminate H.
Qed.

(** the store of the blocks above, and nothing else *)
Definition o_get (c : cid) : option bytes :=
  match cid_digest c with [x] => if existsb (N.eqb (b2n x)) t_ids then t_get c else None | _ => None end.
Lemma o_ids n : In n t_ids -> o_get (idc n) = Some (flat_write (t_msg n)).
Proof. intros H. cbn in H. repeat (destruct H as [<- |H]; [vm_compute; reflexivity|]). destruct H. Qed.
Lemma o_some c b : o_get c = Some b -> exists n, In n t_ids /\ b = flat_write (t_msg n).
Proof.
  unfold o_get, t_get. destruct (cid_digest c) as [|x [|? ?]]; try discriminate.
  destruct (existsb _ t_ids) eqn:E; [|discriminate]. intros [= <-]. exists (b2n x). split; [|reflexivity].
  apply existsb_exists in E as (m & Hm & E). apply N.eqb_eq in E. rewrite E. exact Hm.
Qed.
Lemma o_orderly X : ext_ok X -> orderly X o_get.
Proof.
  intros HX c b H. apply o_some in H as (n & Hn & ->). destruct (t_parse (ext_dbg X) n Hn) as [_ P]. rewrite P.
  split; [discriminate|]. split; [discriminate|]. intros f [= <-].
  assert (LF : forall t d, blen d < two64 -> orderly_file X o_get (leafm t d)).
  { intros t d L. split; [exists (blen d); split; [reflexivity|intros _; cbn; lia]|]. intros [|i]; discriminate. }
  assert (NF : forall ls fs zs, sumN zs <= fs ->
    (forall i l, nth_error ls i = Some l -> exists n z, l = lnk n /\ In n t_ids /\ nth_error zs i = Some z
       /\ exists g, t_msg n = g /\ u_filesize (f_data g) = Some z) -> orderly_file X o_get (nodem ls fs zs)).
  { intros ls fs zs L A. split; [exists fs; split; [reflexivity|intros _; exact L]|]. intros i l c0 b Hl Hc Hg.
    destruct (A i l Hl) as (m & z & -> & Hm & Hz & g & Eg & Sz). rewrite (idc_decode X m HX) in Hc. injection Hc as <-.
    rewrite (o_ids m Hm) in Hg. injection Hg as <-. exists (t_msg m). split; [apply t_parse, Hm|]. intros _ z' size Hz' Hs.
    cbn [nodem f_data u_blocksizes] in Hz'. rewrite Eg in Hs. rewrite Hz in Hz'. rewrite Sz in Hs. injection Hz' as <-. injection Hs as <-. lia. }
  assert (DF : forall ls (u : unixfs), (forall l, In l ls -> exists m x, l = nlnk m [x] /\ x <> x2e /\ x <> x2f) -> orderly_dir (Flat ls u)).
  { intros ls u A l Hl. destruct (A l Hl) as (m & x & -> & H1 & H2). exists [x]. split; [reflexivity|apply plain1; assumption]. }
  assert (SF : forall ls (u : unixfs), (forall l, In l ls -> (exists m p q x, l = nlnk m [p; q; x] /\ x <> x2e /\ x <> x2f /\ utf8_valid [x] = true)
      \/ exists m p q, l = nlnk m [p; q] /\ In m t_ids /\ u_type (f_data (t_msg m)) = HAMTShard) -> orderly_shard X o_get (Flat ls u)).
  { intros ls u A l Hl. destruct (A l Hl) as [(m & p & q & x & -> & H1 & H2 & H3)|(m & p & q & -> & Hm & T)]; exists [p; q].
    - exists [x]. repeat split; [apply valid_text, H3|]. left. apply plain1; assumption.
    - exists []. repeat split; [exists []; split; [constructor|reflexivity]|]. right. split; [reflexivity|]. intros c0 b g Hc Hg Pg. rewrite (nlnk_cid X m _ HX) in Hc. injection Hc as <-.
      rewrite (o_ids m Hm) in Hg. injection Hg as <-. destruct (t_parse (ext_dbg X) m Hm) as [_ P2]. rewrite P2 in Pg. injection Pg as <-. exact T. }
  assert (FX : orderly_file X o_get ex_root).
  { apply NF; [cbn; lia|]. intros [|[|[|i]]] l E; cbn in E; try (destruct i; discriminate E); injection E as <-; eexists _, _; (split; [reflexivity|]);
     (split; [cbn; tauto|]); (split; [reflexivity|]); eexists; split; reflexivity. }
  assert (F2 : orderly_file X o_get (t_msg 2)).
  { apply NF; [cbn; lia|]. intros [|[|i]] l E; cbn in E; try (destruct i; discriminate E); injection E as <-; eexists _, _; (split; [reflexivity|]);
     (split; [cbn; tauto|]); (split; [reflexivity|]); eexists; split; reflexivity. }
  cbn in Hn. repeat (destruct Hn as [<- |Hn]); try destruct Hn.
  all: cbn -[nlnk lnk leafm nodem]; try exact Logic.I; try (apply LF; reflexivity); try exact FX; try exact F2.
  1,5,7: apply DF; cbn -[nlnk]; intros l Hl; repeat (destruct Hl as [<- |Hl]); try destruct Hl; eexists _, _; repeat split; discriminate.
  all: apply SF; cbn -[nlnk]; intros l Hl; repeat (destruct Hl as [<- |Hl]); try destruct Hl.
  all: first [left; eexists _, _, _, _; split; [reflexivity|split; [discriminate|split; [discriminate|reflexivity]]]
             |right; eexists _, _, _; split; [reflexivity|split; [cbn; tauto|reflexivity]]].
Qed.
