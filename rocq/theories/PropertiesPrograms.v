(** * PropertiesPrograms: C54-C60, the example programs (/repo/examples) *)
From Coq Require Import Arith Permutation.
From Verif Require Import Base Tac Wire Utf8 SpecText Text_proofs Cid Pb Dagpb Parse_safety Reader Visit Dir Builder Walk Adder SpecAdder Adder_proofs Adder_thms
  SpecFile Visit_proofs Visit_thms SpecDir Dir_proofs SpecWalk Walk_proofs Walk_paths Walk_steps Walk_thms
  Examples_file Examples_dir Examples_walk PropertiesFile PropertiesDir PropertiesWalk
  Programs SpecPrograms Listing_proofs Store_proofs Programs_proofs.

(** ** C54: the block store *)

(** the store is where it should be *)
Theorem C54_dir : forall ipfs dir, blocks_place ipfs dir <-> dir = blocks_dir ipfs.
Proof. exact place_dir. Qed.
Print Assumptions C54_dir.
(** Every Cid has exactly one file, and [as_path] finds it without panicking *)
Theorem C54_path : forall E ipfs dir c, blocks_place ipfs dir -> exists path, @as_path E dir (cid_bytes c) = Ok path
  /\ forall p, block_file dir c p <-> p = path.
Proof.
  intros E ipfs dir c PL. destruct (@as_path_file E dir c (place_good _ _ PL)) as (path & A & B).
  exists path. split; [exact A|]. intros p. split; [intros H; eapply block_file_unique; eassumption|intros ->; exact B].
Qed.
Print Assumptions C54_path.
(** for other keys, it panics on those of less than two bytes only *)
Theorem C54_short_keys : forall E root key, @as_path E root key = Panic <-> (length key < 2)%nat.
Proof.
  intros E root key. unfold as_path. cbv zeta. destruct (base32_model key) as (_ & _ & L & _). unfold blen in L.
  set (n := length (base32_upper key)) in *. destruct (Nat.leb_spec 3 n); cbn [assert bind].
  - replace (length (firstn 2 (skipn (n - 3) (base32_upper key)))) with 2%nat.
    + cbn [Nat.eqb assert bind]. split; [discriminate|lia].
    + rewrite firstn_length, skipn_length. fold n. lia.
  - split; [lia|reflexivity].
Qed.
Print Assumptions C54_short_keys.
(** different Cids have different files *)
Theorem C54_injective : forall X dir c c' path, ext_ok X -> cid_wf c = true -> cid_wf c' = true ->
  block_file dir c path -> block_file dir c' path -> c = c'.
Proof. intros X dir c c' path HX W W' B B'. apply (cid_bytes_inj X c c' HX W W'). eapply block_file_key; eassumption. Qed.
Print Assumptions C54_injective.
(** so that any blocks can be kept, and others not *)
Theorem C54_store : forall ipfs dir kept, blocks_place ipfs dir -> exists fs,
  stocked fs dir (holding kept) /\ forall c, holding kept c = None -> on_disk fs dir c (CannotOpen 2).
Proof.
  intros ipfs dir kept PL.
  exists (fun p => match find (fun kb => match @as_path Empty_set dir (cid_bytes (fst kb)) with Ok q => bytes_eqb q p | _ => false end) kept with
                   | Some (_, b) => Contents b | None => CannotOpen 2 end).
  assert (F : forall c p, block_file dir c p ->
    find (fun kb => match @as_path Empty_set dir (cid_bytes (fst kb)) with Ok q => bytes_eqb q p | _ => false end) kept
    = find (fun kb => bytes_eqb (cid_bytes (fst kb)) (cid_bytes c)) kept).
  { intros c p B. induction kept as [|[c' b'] kept IH]; [reflexivity|]. cbn [find fst].
    destruct (C54_path Empty_set ipfs dir c' PL) as (q & A & U). rewrite A.
    replace (bytes_eqb q p) with (bytes_eqb (cid_bytes c') (cid_bytes c)); [rewrite IH; reflexivity|].
    destruct (bytes_eqb (cid_bytes c') (cid_bytes c)) eqn:E1; destruct (bytes_eqb q p) eqn:E2; try reflexivity; exfalso.
    - apply bytes_eqb_eq in E1. rewrite E1 in A. destruct (C54_path Empty_set ipfs dir c PL) as (q' & A' & U').
      rewrite A' in A. injection A as ->. apply U' in B. subst q. rewrite bytes_eqb_refl in E2. discriminate.
    - apply bytes_eqb_eq in E2. subst q. rewrite (block_file_key dir dir c' c p (proj2 (U p) eq_refl) B), bytes_eqb_refl in E1. discriminate. }
  split.
  - intros c b p H B. rewrite (F c p B). unfold holding in H. destruct (find _ kept) as [[? ?]|]; congruence.
  - intros c H p B. rewrite (F c p B). unfold holding in H. destruct (find _ kept) as [[? ?]|]; congruence.
Qed.
Print Assumptions C54_store.
(** the test vectors of RFC 4648, and the file of an identity hash *)
Example C54_rfc4648 :
  base32_upper [] = [] /\ base32_upper [x66] = [x4d; x59] /\ base32_upper [x66; x6f] = [x4d; x5a; x58; x51]
  /\ base32_upper [x66; x6f; x6f] = [x4d; x5a; x58; x57; x36]
  /\ base32_upper [x66; x6f; x6f; x62] = [x4d; x5a; x58; x57; x36; x59; x51]
  /\ base32_upper [x66; x6f; x6f; x62; x61] = [x4d; x5a; x58; x57; x36; x59; x54; x42]
  /\ base32_upper [x66; x6f; x6f; x62; x61; x72] = [x4d; x5a; x58; x57; x36; x59; x54; x42; x4f; x49].
Proof. vm_compute. repeat split; reflexivity. Qed.
(** /q, cid 01 55 00 01 05: "AFKQAAIF", in /q/blocks/AI *)
Example C54_instance : @as_path Empty_set (blocks_dir [x2f; x71]) (cid_bytes (idc 5))
  = Ok [x2f; x71; x2f; x62; x6c; x6f; x63; x6b; x73; x2f; x41; x49; x2f; x41; x46; x4b; x51; x41; x41; x49; x46; x2e; x64; x61; x74; x61].
Proof. vm_compute. reflexivity. Qed.
Example C54_nonvacuous : cid_wf (idc 5) = true /\ (exists dir, blocks_place [x2f; x71] dir) /\ blocks_place [] [x62; x6c; x6f; x63; x6b; x73].
Proof. split; [reflexivity|]. split; [exists (blocks_dir [x2f; x71]); apply C54_dir; reflexivity|apply C54_dir; reflexivity]. Qed.
(** the store of the examples: /blocks *)
Definition ex_dir : bytes := blocks_dir [x2f].
Lemma ex_place : blocks_place [x2f] ex_dir. Proof. apply C54_dir. reflexivity. Qed.

(** a store with the blocks of the examples *)
Definition kept_blocks : list (cid * bytes) := map (fun n => (idc n, flat_write (t_msg n))) t_ids.
Lemma kept_has n : In n t_ids -> holding kept_blocks (idc n) = Some (flat_write (t_msg n)).
Proof. intros H. cbn in H. repeat (destruct H as [<- |H]; [vm_compute; reflexivity|]). destruct H. Qed.
Lemma kept_tree X : ext_ok X -> stored X (holding kept_blocks) (idc 10) t_tree.
Proof. intros HX. exact (t_stored_in X HX _ kept_has). Qed.
Lemma kept_file X : ext_ok X -> stored X (holding kept_blocks) (idc 11) f_tree.
Proof.
  intros HX. destruct (t_parse (ext_dbg X) 11 ltac:(cbn; tauto)) as [_ P].
  apply (stored_file X _ (idc 11) (flat_write ex_root) ex_root); [apply (kept_has 11); cbn; tauto|exact P| |reflexivity].
  exact (t_file_dag_in X HX _ kept_has).
Qed.

Lemma kept_below X : ext_ok X -> blocks_below X (holding kept_blocks) [idc 11] (map (fun n => (idc n, flat_write (t_msg n))) [11; 1; 2; 4; 5; 3]).
Proof.
  intros HX.
  assert (Q : forall n ds more bs, In n t_ids -> map (link_cid X) (f_links (t_msg n)) = map Some ds ->
     blocks_below X (holding kept_blocks) (ds ++ more) bs -> blocks_below X (holding kept_blocks) (idc n :: more) ((idc n, flat_write (t_msg n)) :: bs)).
  { intros n ds more bs I M B. eapply one_block; [apply kept_has, I|apply t_parse, I|exact M|exact B]. }
  cbn [map]. apply (Q 11 [idc 1; idc 2; idc 3]); [cbn; tauto|cbn -[link_cid lnk idc]; rewrite !(idc_decode X _ HX); reflexivity|].
  apply (Q 1 []); [cbn; tauto|reflexivity|]. apply (Q 2 [idc 4; idc 5]); [cbn; tauto|cbn -[link_cid lnk idc]; rewrite !(idc_decode X _ HX); reflexivity|].
  apply (Q 4 []); [cbn; tauto|reflexivity|]. apply (Q 5 []); [cbn; tauto|reflexivity|]. apply (Q 3 []); [cbn; tauto|reflexivity|]. constructor.
Qed.

(** ** C55: cat *)

(** cat prints the content of a file and counts the bytes of its blocks *)
Theorem C55_cat : forall X ipfs dir fs get c md content, blocks_place ipfs dir ->
  stored X get c (FsFile md content) -> stocked fs dir get ->
  exists blocks, blocks_below X get [c] blocks
  /\ (all_bytes (map snd blocks) < two64 -> forall fuel, (length blocks <= fuel)%nat ->
      cat_walk X fuel fs dir c = (Ok (all_bytes (map snd blocks), blen content), content)).
Proof.
  intros X ipfs dir fs get c md content PL S St. inversion S as [c' b f content' Gc P D Z E1 E2| | | ]; subst.
  destruct (proj2 (C16_reads_all X get b f content P D Z content) eq_refl) as (bs & asked & V).
  pose proof (visit_below X get c b bs asked content Gc V) as BB. exists ((c, b) :: combine asked bs). split; [exact BB|].
  pose proof (visit_lengths X get b bs asked content V) as LE.
  assert (ES : map snd ((c, b) :: combine asked bs) = b :: bs) by (cbn [map snd]; rewrite (map_snd_combine asked bs LE); reflexivity).
  rewrite ES, all_bytes_sum. intros B fuel L. cbn [length] in L. rewrite combine_length in L.
  assert (SN : Forall (sound fs dir) ((c, b) :: combine asked bs)).
  { apply Forall_forall. intros [d b'] I T. cbn [fst snd]. apply (read_stocked fs dir get d b' (place_good _ _ PL) St).
    pose proof (below_stored X get _ _ BB) as H. rewrite Forall_forall in H. exact (H _ I). }
  exact (walk_reads X get fs dir c b bs asked content Gc V B Z _ [] fuel (eq_sym (app_nil_r _)) SN ltac:(lia)).
Qed.
Print Assumptions C55_cat.
(** It prints what is in each block as soon as it is read, and when one cannot
    be opened or read it stops with that error *)
Theorem C55_damaged : forall X ipfs dir fs get c md content blocks, blocks_place ipfs dir ->
  stored X get c (FsFile md content) -> blocks_below X get [c] blocks -> all_bytes (map snd blocks) < two64 ->
  content = concat (map (fun kb => payload X (snd kb)) blocks)
  /\ forall pre d b post err fuel, blocks = pre ++ (d, b) :: post -> Forall (fun kb => intact fs dir get (fst kb)) pre ->
     unreadable fs dir d err -> (length blocks <= fuel)%nat ->
     cat_walk X fuel fs dir c = (Err err, concat (map (fun kb => payload X (snd kb)) pre)).
Proof.
  intros X ipfs dir fs get c md content blocks PL S BB B. inversion S as [c' b f content' Gc P D Z E1 E2| | | ]; subst.
  destruct (proj2 (C16_reads_all X get b f content P D Z content) eq_refl) as (bs & asked & V).
  pose proof (visit_below X get c b bs asked content Gc V) as BB'. pose proof (below_det X get _ _ BB _ BB') as EB. subst blocks. clear BB'.
  pose proof (visit_lengths X get b bs asked content V) as LE.
  assert (ES : map snd ((c, b) :: combine asked bs) = b :: bs) by (cbn [map snd]; rewrite (map_snd_combine asked bs LE); reflexivity).
  rewrite ES, all_bytes_sum in B. split; [exact (visit_payload X get c b bs asked content V)|].
  intros pre d b' post err fuel EC F U L. cbn [length] in L. rewrite combine_length in L.
  assert (SN : Forall (sound fs dir) pre).
  { apply Forall_forall. intros [d' b2] I T. cbn [fst snd]. rewrite Forall_forall in F. specialize (F _ I). cbn [fst] in F.
    apply (read_intact fs dir get d' b2 (place_good _ _ PL) F).
    pose proof (below_stored X get _ _ BB) as H. rewrite Forall_forall in H. apply (H (d', b2)). rewrite EC. apply in_or_app. left. exact I. }
  exact (walk_reads X get fs dir c b bs asked content Gc V B Z pre ((d, b') :: post) fuel EC SN ltac:(lia) err (read_unreadable fs dir d err (place_good _ _ PL) U)).
Qed.
Print Assumptions C55_damaged.
(** directories and symlinks are refused, nothing is printed *)
Theorem C55_not_a_file : forall X ipfs dir fs get c n b, blocks_place ipfs dir ->
  stored X get c n -> (forall md content, n <> FsFile md content) -> get c = Some b -> blen b < two64 ->
  stocked fs dir get ->
  forall fuel, exists t, cat_walk X fuel fs dir c = (Err (Traversal_ (UnexpectedType t)), [])
  /\ match n with FsDir _ _ => t = Directory | FsShard _ _ => t = HAMTShard | _ => t = Symlink end.
Proof.
  intros X ipfs dir fs get c n b PL S NF Gc Z St fuel. unfold cat_walk. rewrite (read_stocked fs _ get c b (place_good _ _ PL) St Gc). cbn [bind].
  rewrite add64_ok by lia. cbn [bind]. unfold visit_start, from_block.
  destruct S as [c b' f content Gc' P D Z'|c b' f Gc' P T|c b' f es Gc' P SD SE|c b' f its Gc' P SD SI];
    [exfalso; eapply NF; reflexivity|..]; rewrite Gc in Gc'; injection Gc' as <-; rewrite P; cbn [map_err bind].
  - exists Symlink. unfold from_parts. rewrite T. auto.
  - exists Directory. unfold from_parts. destruct SD as (T & _). rewrite T. auto.
  - exists HAMTShard. unfold from_parts. destruct SD as (T & _). rewrite T. auto.
Qed.
Print Assumptions C55_not_a_file.
(** the program: exit code and output *)
Theorem C55_main : forall X ipfs dir fs get cid_of_str arg c, blocks_place ipfs dir -> cid_of_str arg = Some c ->
  (forall md content, stored X get c (FsFile md content) -> stocked fs dir get ->
     exists blocks, blocks_below X get [c] blocks
     /\ (all_bytes (map snd blocks) < two64 -> forall fuel, (length blocks <= fuel)%nat ->
         cat_main X cid_of_str fuel fs (Some arg) (Some ipfs) = (Ok 0, content)))
  /\ (forall md content blocks pre d b post (err : program_error read_failed) fuel, stored X get c (FsFile md content) -> blocks_below X get [c] blocks ->
     all_bytes (map snd blocks) < two64 -> blocks = pre ++ (d, b) :: post ->
     Forall (fun kb => intact fs dir get (fst kb)) pre -> unreadable fs dir d err -> (length blocks <= fuel)%nat ->
     cat_main X cid_of_str fuel fs (Some arg) (Some ipfs) = (Ok 1, concat (map (fun kb => payload X (snd kb)) pre)))
  /\ (forall n b fuel, stored X get c n -> (forall md content, n <> FsFile md content) -> get c = Some b -> blen b < two64 ->
     stocked fs dir get -> cat_main X cid_of_str fuel fs (Some arg) (Some ipfs) = (Ok 1, [])).
Proof.
  intros X ipfs dir fs get f arg c PL A. pose proof (proj1 (C54_dir _ _) PL) as PD. unfold cat_main, main, ok_or. rewrite A, <- PD.
  split; [|split].
  - intros md content S St. destruct (C55_cat X ipfs dir fs get c md content PL S St) as (blocks & B & H). exists blocks. split; [exact B|].
    intros Z fuel L. rewrite (H Z fuel L). reflexivity.
  - intros md content blocks pre d b post err fuel S B Z EB F U L.
    destruct (C55_damaged X ipfs dir fs get c md content blocks PL S B Z) as [_ H]. rewrite (H pre d b post err fuel EB F U L). reflexivity.
  - intros n b fuel S N Gc Z St. destruct (C55_not_a_file X ipfs dir fs get c n b PL S N Gc Z St fuel) as (t & -> & _). reflexivity.
Qed.
Print Assumptions C55_main.
Example C55_nonvacuous : forall X, ext_ok X -> exists fs get blocks, blocks_place [x2f] ex_dir /\ stocked fs ex_dir get
  /\ stored X get (idc 11) (FsFile (MData None None) [x61; x62; x63; x64])
  /\ blocks_below X get [idc 11] blocks /\ length blocks = 6%nat /\ all_bytes (map snd blocks) < two64.
Proof.
  intros X HX. destruct (C54_store [x2f] ex_dir kept_blocks ex_place) as (fs & St & At). exists fs, (holding kept_blocks), (map (fun n => (idc n, flat_write (t_msg n))) [11; 1; 2; 4; 5; 3]).
  split; [exact ex_place|]. split; [exact St|]. split; [exact (kept_file X HX)|]. split; [exact (kept_below X HX)|split; [reflexivity|vm_compute; reflexivity]].
Qed.
(** the third block is missing: the bytes of the first leaf are printed *)
Example C55_damaged_nonvacuous : forall X, ext_ok X -> exists fs, let blocks := map (fun n => (idc n, flat_write (t_msg n))) [11; 1; 2; 4; 5; 3] in
  blocks_below X (holding kept_blocks) [idc 11] blocks
  /\ blocks = map (fun n => (idc n, flat_write (t_msg n))) [11; 1] ++ (idc 2, flat_write (t_msg 2)) :: map (fun n => (idc n, flat_write (t_msg n))) [4; 5; 3]
  /\ Forall (fun kb => intact fs ex_dir (holding kept_blocks) (fst kb)) (map (fun n => (idc n, flat_write (t_msg n))) [11; 1])
  /\ @unreadable read_failed fs ex_dir (idc 2) (OpeningFailed 2)
  /\ concat (map (fun kb => payload X (snd kb)) (map (fun n => (idc n, flat_write (t_msg n))) [11; 1])) = [x61; x62].
Proof.
  intros X HX. destruct (C54_store [x2f] ex_dir (map (fun n => (idc n, flat_write (t_msg n))) [11; 1]) ex_place) as (fs & St & At). exists fs. cbv zeta.
  split; [exact (kept_below X HX)|]. split; [reflexivity|]. split; [|split].
  - repeat constructor; cbn [fst].
    + exists (flat_write (t_msg 11)). split; [vm_compute; reflexivity|]. intros p. apply St. vm_compute. reflexivity.
    + exists (flat_write (t_msg 1)). split; [vm_compute; reflexivity|]. intros p. apply St. vm_compute. reflexivity.
  - left. exists 2. split; [|reflexivity]. apply At. vm_compute. reflexivity.
  - cbn [map snd concat]. unfold payload. rewrite (proj2 (t_parse (ext_dbg X) 11 ltac:(cbn; tauto))), (proj2 (t_parse (ext_dbg X) 1 ltac:(cbn; tauto))). reflexivity.
Qed.

(** ** C56: add *)

(** add reports the balanced tree of its input, however it arrives: [slices]
    are the buffers filled one after the other; then the input ends *)
Theorem C56_add : forall X slices rest, ext_ok X -> Forall (fun s => s <> []) slices ->
  (rest = [] \/ exists more, rest = Some [] :: more) -> blen (concat slices) <= max_content ->
  exists tree, canonical 262144 174 (concat slices) tree
  /\ exists report, add_main X (map Some slices ++ rest) = Ok report
     /\ ar_blocks report = N.of_nat (length (nodes tree))
     /\ ar_bytes report = all_bytes (map snd (tree_blocks X tree))
     /\ ar_cid report = Cid true 0x70 0x12 (ext_sha256 X (block X tree))
     /\ ar_input report = blen (concat slices).
Proof.
  intros X slices rest HX NE R Hc. destruct (add_main_ok X slices rest HX NE R Hc) as (r & C & E).
  exists r. split; [exact C|]. eexists. split; [exact E|]. cbn [ar_blocks ar_bytes ar_cid ar_input].
  rewrite all_bytes_sum, map_map. repeat split; reflexivity.
Qed.
Print Assumptions C56_add.
(** the "second" Cid printed is never another one: both are version 1 *)
Theorem C56_same_cid : forall X slices rest, ext_ok X -> Forall (fun s => s <> []) slices ->
  (rest = [] \/ exists more, rest = Some [] :: more) -> blen (concat slices) <= max_content ->
  exists report, add_main X (map Some slices ++ rest) = Ok report /\ ar_cidv1 report = ar_cid report /\ cid_v1 (ar_cid report) = true.
Proof.
  intros X slices rest HX NE R Hc. destruct (add_main_ok X slices rest HX NE R Hc) as (r & C & E).
  eexists. split; [exact E|]. split; reflexivity.
Qed.
Print Assumptions C56_same_cid.
(** an error while reading the input is a panic *)
Theorem C56_input_error : forall X slices more, ext_ok X -> Forall (fun s => s <> []) slices -> blen (concat slices) <= max_content ->
  add_main X (map Some slices ++ None :: more) = Panic.
Proof. exact add_main_fails. Qed.
Print Assumptions C56_input_error.
(** cat prints what was added, from any store with the blocks of the tree, and
    counts the same *)
Theorem C56_read_back : forall X slices ipfs dir fs get, ext_ok X -> Forall (fun s => s <> []) slices -> blen (concat slices) <= max_content ->
  blocks_place ipfs dir -> stocked fs dir get ->
  (forall tree c b, canonical 262144 174 (concat slices) tree -> In (c, b) (tree_blocks X tree) -> get c = Some b) ->
  exists report, add_main X (map Some slices) = Ok report
  /\ forall fuel, (N.to_nat (ar_blocks report) <= fuel)%nat ->
     cat_walk X fuel fs dir (ar_cid report) = (Ok (ar_bytes report, ar_input report), concat slices).
Proof.
  intros X slices ipfs dir fs get HX NE Hc PL St Hg.
  destruct (add_main_ok X slices [] HX NE (or_introl eq_refl) Hc) as (r & C & E). rewrite app_nil_r in E.
  eexists. split; [exact E|]. cbn [ar_blocks ar_bytes ar_cid ar_input]. intros fuel L. rewrite Nat2N.id in L.
  assert (Hm : moderate 262144 174) by (split; vm_compute; congruence).
  assert (Hb : 2 <= 174 \/ blen (concat slices) <= 262144) by (left; lia).
  assert (Hg' : forall cd b, In (cd, b) (tree_blocks X r) -> get cd = Some b) by (intros cd b; apply Hg, C).
  destruct (adder_dag X HX get 262144 174 (concat slices) r default_cfg Hm Hb Hc C Hg') as (f & P & _ & D).
  pose proof (adder_nodes X HX get 262144 174 (concat slices) r default_cfg Hm Hb Hc C Hg') as HN.
  assert (Gr : get (block_cid X (block X r)) = Some (block X r)).
  { apply HN. destruct r; cbn [nodes]; [left; reflexivity|apply in_or_app; right; left; reflexivity]. }
  assert (S : stored X get (block_cid X (block X r)) (FsFile (says (f_data f)) (concat slices))).
  { eapply stored_file; [exact Gr|exact P|exact D|]. unfold max_content, two64 in *. lia. }
  destruct (C55_cat X ipfs dir fs get _ _ _ PL S St) as (blocks & B & H).
  assert (EB : blocks = parents_first X r).
  { eapply below_det; [exact B|]. rewrite <- (app_nil_r (parents_first X r)). apply (ftree_below X HX get r [] []); [exact HN|constructor]. }
  pose proof (parents_first_perm X r) as PP. rewrite <- EB in PP.
  assert (LB : length blocks = length (nodes r)) by (rewrite (Permutation_length PP); unfold tree_blocks; rewrite map_length; reflexivity).
  assert (SB : all_bytes (map snd blocks) = sumN (map (fun b => blen (snd b)) (tree_blocks X r))).
  { rewrite all_bytes_sum. rewrite map_map. exact (sum_perm _ _ (Permutation_map (fun b => blen (snd b)) PP)). }
  rewrite <- SB. apply H; [|lia].
  pose proof (canonical_weight 262144 174 _ r ltac:(lia) Hb Hc C) as W.
  pose proof (tsize_weight X HX r) as W2. rewrite tsize_total in W2. rewrite SB. unfold weight, two63, two64, cblock in *. lia.
Qed.
Print Assumptions C56_read_back.
Example C56_nonvacuous : forall X, ext_ok X -> exists fs get, blocks_place [x2f] ex_dir /\ stocked fs ex_dir get
  /\ (forall tree c b, canonical 262144 174 (concat [[x61; x62]; [x63]]) tree -> In (c, b) (tree_blocks X tree) -> get c = Some b)
  /\ blen (concat [[x61; x62]; [x63]]) <= max_content.
Proof.
  intros X HX. set (t := FLeaf [x61; x62; x63]). destruct (C54_store [x2f] ex_dir (tree_blocks X t) ex_place) as (fs & St & _).
  exists fs, (holding (tree_blocks X t)). split; [exact ex_place|]. split; [exact St|]. split; [|vm_compute; congruence].
  intros tree c b C. assert (Ch : chunks (N.to_nat 262144) (concat [[x61; x62]; [x63]]) = [[x61; x62; x63]]).
  { unfold chunks, pieces. cbn [concat app length pieces_go]. destruct (N.to_nat 262144) as [|[|[|k]]] eqn:K; try (apply (f_equal N.of_nat) in K; rewrite N2Nat.id in K; discriminate K).
    clear K. cbn [firstn skipn]. rewrite firstn_nil, skipn_nil. reflexivity. }
  unfold canonical in C. rewrite Ch in C. cbn [map] in C. inversion C as [t'|ts r L B E]; [subst tree|cbn in L; lia].
  fold t. cbn [tree_blocks nodes map t In]. intros [I|[]]. unfold cblock_of in I. injection I as <- <-.
  unfold holding, tree_blocks. cbn [nodes map t find fst cblock_of]. rewrite bytes_eqb_refl. reflexivity.
Qed.

(** ** C57: paths of resolve *)

(** [cid_of_str] is how Cids are parsed; [parts] is what is between slashes *)
Theorem C57_after_ipfs : forall cid_of_str root parts, ~ In x2f root -> Forall (fun s => ~ In x2f s) parts ->
  path_try_from cid_of_str (slash_ipfs ++ root ++ slashed parts)
  = match cid_of_str root with Some c => Ok (c, filter (fun s => negb (is_nil s)) parts) | None => Err PathInvalidCid end.
Proof.
  intros f root parts N F. rewrite <- (parse_rest_ok f root parts N F). unfold path_try_from. rewrite splitn2_app. reflexivity.
Qed.
Print Assumptions C57_after_ipfs.
Theorem C57_bare : forall cid_of_str root parts, ~ In x2f root -> Forall (fun s => ~ In x2f s) parts ->
  root ++ slashed parts <> [] -> ~ occurs slash_ipfs (root ++ slashed parts) ->
  path_try_from cid_of_str (root ++ slashed parts)
  = match cid_of_str root with Some c => Ok (c, filter (fun s => negb (is_nil s)) parts) | None => Err PathInvalidCid end.
Proof.
  intros f root parts N F NE NO. rewrite <- (parse_rest_ok f root parts N F). unfold path_try_from. rewrite (splitn2_none _ _ NO).
  destruct (root ++ slashed parts); [congruence|reflexivity].
Qed.
Print Assumptions C57_bare.
(** each string is cut at its slashes in exactly one way, so that the two above
    tell all but the invalid paths: the empty one and those with "/ipfs/" later on *)
Theorem C57_cut : forall s, exists root parts, (s = root ++ slashed parts /\ ~ In x2f root /\ Forall (fun p => ~ In x2f p) parts)
  /\ forall root' parts', s = root' ++ slashed parts' -> ~ In x2f root' -> Forall (fun p => ~ In x2f p) parts' -> root' = root /\ parts' = parts.
Proof.
  intros s. destruct (cut_slashes s) as (root & parts & E & N & F). exists root, parts. split; [auto|].
  intros root' parts' E' N' F'. pose proof (split_slashed parts root ltac:(constructor; assumption)) as S1.
  pose proof (split_slashed parts' root' ltac:(constructor; assumption)) as S2. rewrite <- E in S1. rewrite <- E', S1 in S2.
  injection S2 as -> ->. auto.
Qed.
Print Assumptions C57_cut.
Theorem C57_invalid : forall cid_of_str s, path_try_from cid_of_str s = Err InvalidPath
  <-> s = [] \/ (occurs slash_ipfs s /\ forall t, s <> slash_ipfs ++ t).
Proof.
  intros f s. assert (PR : forall p, parse_rest f p <> Err InvalidPath).
  { intros p. destruct (cut_slashes p) as (root & parts & -> & N & F). rewrite (parse_rest_ok f root parts N F). destruct (f root); discriminate. }
  destruct (cut_slashes s) as (root & parts & E & N & F). split.
  - intros H. destruct s as [|x s]; [left; reflexivity|]. right. split.
    + unfold path_try_from in H. destruct (splitn2 slash_ipfs (x :: s)) as [[|y a] [b|]] eqn:S; cbn [bind] in H.
      * exfalso. exact (PR b H).
      * cbn [splitn2] in S. destruct (prefix_of slash_ipfs (x :: s)); [discriminate|]. destruct (splitn2 slash_ipfs s). discriminate.
      * clear - S. assert (G : forall s a b, splitn2 slash_ipfs s = (a, Some b) -> occurs slash_ipfs s).
        { induction s0 as [|z s0 IH]; intros a0 b0 S0; cbn [splitn2] in S0;
            [pose proof (prefix_of_spec slash_ipfs []) as H | pose proof (prefix_of_spec slash_ipfs (z :: s0)) as H];
            destruct (prefix_of slash_ipfs _) as [r|]; [exists [], r; exact H|discriminate|exists [], r; exact H|].
          destruct (splitn2 slash_ipfs s0) as [a1 b1] eqn:S1. injection S0 as <- ->. destruct (IH _ _ eq_refl) as (p & q & ->). exists (z :: p), q. reflexivity. }
        exact (G _ _ _ S).
      * exfalso. exact (PR (y :: a) H).
    + intros t T. rewrite T in H. unfold path_try_from in H. rewrite splitn2_app in H. cbn [bind] in H. exact (PR t H).
  - intros [->|[(a & b & ->) NP]]; [reflexivity|]. unfold path_try_from.
    destruct (splitn2_some slash_ipfs a b) as (a' & b' & -> & E'). destruct a' as [|y a']; [exfalso; exact (NP b' E')|reflexivity].
Qed.
Print Assumptions C57_invalid.
(** "From<Cid> is the same as parsing from a string representation" *)
Theorem C57_from : forall cid_of_str s c, s <> [] -> ~ In x2f s -> cid_of_str s = Some c ->
  path_try_from cid_of_str s = Ok (path_from c).
Proof.
  intros f s c NE N H. pose proof (C57_bare f s [] N ltac:(constructor)) as B. cbn [slashed filter] in B. rewrite app_nil_r in B. rewrite B; [rewrite H; reflexivity|exact NE|].
  intros (a & b & ->). apply N, in_or_app. right. left. reflexivity.
Qed.
Print Assumptions C57_from.
(** The prefix "/ipfs/" is not just optional: without it, no part of the path
    but the last may be "ipfs" *)
Theorem C57_prefix_refuted : forall cid_of_str s c, s <> [] -> ~ In x2f s -> cid_of_str s = Some c ->
  path_try_from cid_of_str (slash_ipfs ++ s ++ slash_ipfs ++ [x78]) = Ok (c, [[x69; x70; x66; x73]; [x78]])
  /\ path_try_from cid_of_str (s ++ slash_ipfs ++ [x78]) = Err InvalidPath.
Proof.
  intros f s c NE N H. split.
  - pose proof (C57_after_ipfs f s [[x69; x70; x66; x73]; [x78]] N) as B. cbn [slashed app] in B. cbn [slash_ipfs app].
    cbn [slash_ipfs app] in B. rewrite B; [rewrite H; reflexivity|].
    repeat constructor; cbn; intros I; repeat (destruct I as [I|I]; [discriminate I|]); exact I.
  - apply C57_invalid. right. split; [exists s, [x78]; reflexivity|]. intros t E. destruct s as [|y s]; [congruence|].
    injection E as -> _. apply N. left. reflexivity.
Qed.
Print Assumptions C57_prefix_refuted.
Example C57_nonvacuous : ~ In x2f [x51; x6d] /\ Forall (fun s => ~ In x2f s) [[x61]; []; [x62; x63]]
  /\ filter (fun s => negb (is_nil s)) [[x61]; []; [x62; x63]] = [[x61]; [x62; x63]]
  /\ [x51; x6d] ++ slashed [[x61]; []; [x62; x63]] = [x51; x6d; x2f; x61; x2f; x2f; x62; x63].
Proof.
  split; [|split; [|split; reflexivity]].
  - cbn. intros I. repeat (destruct I as [I|I]; [discriminate I|]). exact I.
  - repeat constructor; cbn; intros I; repeat (destruct I as [I|I]; [discriminate I|]); exact I.
Qed.

(** ** C58: resolve *)

Section c58.
Context (X : ext) (ipfs dir : bytes) (fs : disk) (get : cid -> option bytes) (c : cid) (n : fsnode).
(** a path that leads somewhere *)
Theorem C58_found : forall path c' n', blocks_place ipfs dir -> stored X get c n -> unambiguous c n -> stocked fs dir get ->
  leads_to c n path c' n' ->
  exists N, forall fuel, (N <= fuel)%nat -> resolve_walk X fuel fs dir c path None = Ok (Some c').
Proof.
  intros path c' n' PL S U St L. destruct (path_found X dir get (place_good _ _ PL) path c n c' n' L S U) as (_ & N & reads & R & _ & H).
  exists N. intros fuel Lf. destruct (H fs [] fuel None Lf (or_introl eq_refl)) as [H1 _].
  destruct (H1 (stocked_all fs dir get reads St R)) as (k' & _ & E). rewrite app_nil_r in E. rewrite E. reflexivity.
Qed.
(** a name that is not there *)
Theorem C58_absent : forall path c' n' es s rest, blocks_place ipfs dir -> stored X get c n -> unambiguous c n -> stocked fs dir get ->
  leads_to c n path c' n' -> below_node n' = Some es -> ~ In s (map (fun e => fst (fst e)) es) ->
  exists N, forall fuel, (N <= fuel)%nat -> resolve_walk X fuel fs dir c (path ++ s :: rest) None = Ok None.
Proof.
  intros path c' n' es s rest PL S U St L B NI. pose proof (place_good _ _ PL) as G.
  destruct (path_found X dir get G path c n c' n' L S U) as (S' & N & reads & R & _ & H).
  destruct (segment_absent X get c' n' es s S' B NI) as (block & asked & Gc & LU).
  exists (Nat.max N (length asked)). intros fuel Lf.
  destruct (H fs (s :: rest) fuel None ltac:(lia) (or_introl eq_refl)) as [H1 _].
  destruct (H1 (stocked_all fs dir get reads St R)) as (k' & K & E). rewrite E.
  destruct (walk_segment X dir get G fs c' block s asked _ Gc LU fuel rest k' ltac:(lia) K) as [W _].
  destruct W as (k2 & _ & ->); [|reflexivity]. apply stocked_all; [exact St|]. constructor; [congruence|eapply looks_asked; eassumption].
Qed.
(** a name below a file or a symlink *)
Theorem C58_not_a_directory : forall path c' n' s rest, blocks_place ipfs dir -> stored X get c n -> unambiguous c n -> stocked fs dir get ->
  leads_to c n path c' n' -> below_node n' = None ->
  exists N t, (t = File \/ t = Raw \/ t = Symlink) /\ forall fuel, (N <= fuel)%nat ->
  resolve_walk X fuel fs dir c (path ++ s :: rest) None = Err (Traversal_ (RUnexpectedType t)).
Proof.
  intros path c' n' s rest PL S U St L B. pose proof (place_good _ _ PL) as G.
  destruct (path_found X dir get G path c n c' n' L S U) as (S' & N & reads & R & _ & H).
  destruct (segment_not_dir X get c' n' s S' B) as (block & t & Gc & T & LU).
  exists N, t. split; [exact T|]. intros fuel Lf.
  destruct (H fs (s :: rest) fuel None ltac:(lia) (or_introl eq_refl)) as [H1 _].
  destruct (H1 (stocked_all fs dir get reads St R)) as (k' & K & E). rewrite E.
  destruct (walk_segment X dir get G fs c' block s [] _ Gc LU fuel rest k' ltac:(cbn; lia) K) as [W _].
  destruct W as (k2 & _ & ->); [|reflexivity]. apply stocked_all; [exact St|]. constructor; [congruence|constructor].
Qed.
End c58.
Print Assumptions C58_found.
Print Assumptions C58_absent.
Print Assumptions C58_not_a_directory.
(** there are no other cases *)
Theorem C58_cases : forall path c n,
  (exists c' n', leads_to c n path c' n')
  \/ (exists pre s rest c' n' es, path = pre ++ s :: rest /\ leads_to c n pre c' n' /\ below_node n' = Some es
        /\ ~ In s (map (fun e => fst (fst e)) es))
  \/ (exists pre s rest c' n', path = pre ++ s :: rest /\ leads_to c n pre c' n' /\ below_node n' = None).
Proof.
  induction path as [|s path IH]; intros c n; [left; exists c, n; constructor|].
  destruct (below_node n) as [es|] eqn:B.
  - destruct (in_dec (list_eq_dec Byte.byte_eq_dec) s (map (fun e => fst (fst e)) es)) as [I|NI].
    + apply in_map_iff in I as ([[s' c1] n1] & E & I). cbn in E. subst s'.
      destruct (IH c1 n1) as [(c' & n' & L)|[(pre & s2 & rest & c' & n' & es' & -> & L & B' & N)|(pre & s2 & rest & c' & n' & -> & L & B')]].
      * left. exists c', n'. eapply leads_below; eassumption.
      * right. left. exists (s :: pre), s2, rest, c', n', es'. split; [reflexivity|]. split; [eapply leads_below; eassumption|auto].
      * right. right. exists (s :: pre), s2, rest, c', n'. split; [reflexivity|]. split; [eapply leads_below; eassumption|auto].
    + right. left. exists [], s, path, c, n, es. split; [reflexivity|]. split; [constructor|auto].
  - right. right. exists [], s, path, c, n. split; [reflexivity|]. split; [constructor|exact B].
Qed.
Print Assumptions C58_cases.
(** Whatever the path, there is one sequence of blocks the result depends on,
    the first one being that of [c]: it is the same for all disks with these
    blocks, and the first one of them that cannot be opened or read is reported *)
Theorem C58_damaged : forall X ipfs dir get c n path, blocks_place ipfs dir -> stored X get c n -> unambiguous c n ->
  exists N reads r, Forall (fun d => get d <> None) reads /\ (path = [] /\ reads = [] \/ exists more, reads = c :: more)
  /\ forall fs fuel, (N <= fuel)%nat ->
     (Forall (intact fs dir get) reads -> resolve_walk X fuel fs dir c path None = r)
     /\ (forall pre d post err, reads = pre ++ d :: post -> Forall (intact fs dir get) pre -> unreadable fs dir d err ->
         resolve_walk X fuel fs dir c path None = Err err).
Proof.
  intros X ipfs dir get c n path PL S U. pose proof (place_good _ _ PL) as G.
  assert (ST : forall pre c' n' s rest block asked r0 N reads, stored X get c' n' -> get c' = Some block -> looks_up X get block s asked r0 ->
     (forall c2, r0 <> Ok (Found c2)) ->
     Forall (fun d => get d <> None) reads -> (pre = [] /\ reads = [] /\ c' = c \/ exists more, reads = c :: more) ->
     (forall fs rest fuel k, (N <= fuel)%nat -> clean k ->
       (Forall (intact fs dir get) reads -> exists k', clean k' /\ resolve_walk X fuel fs dir c (pre ++ rest) k = resolve_walk X fuel fs dir c' rest k')
       /\ (forall pre' d post err, reads = pre' ++ d :: post -> Forall (intact fs dir get) pre' -> read_block fs dir d = Err err ->
           resolve_walk X fuel fs dir c (pre ++ rest) k = Err err)) ->
     exists N reads r, Forall (fun d => get d <> None) reads /\ (pre ++ s :: rest = [] /\ reads = [] \/ exists more, reads = c :: more)
     /\ forall fs fuel, (N <= fuel)%nat ->
     (Forall (intact fs dir get) reads -> resolve_walk X fuel fs dir c (pre ++ s :: rest) None = r)
     /\ (forall pre' d post err, reads = pre' ++ d :: post -> Forall (intact fs dir get) pre' -> unreadable fs dir d err ->
         resolve_walk X fuel fs dir c (pre ++ s :: rest) None = Err err)).
  { intros pre c' n' s rest block asked r0 N reads S' Gc LU NF R HD H.
    exists (Nat.max N (length asked)), (reads ++ c' :: asked), (answer r0). split; [|split].
    - apply Forall_app. split; [exact R|]. constructor; [congruence|eapply looks_asked; eassumption].
    - right. destruct HD as [(_ & -> & ->)|[more ->]]; eexists; reflexivity.
    - intros fs fuel L. destruct (H fs (s :: rest) fuel None ltac:(lia) (or_introl eq_refl)) as [H1 H2]. split.
      + intros F. apply Forall_app in F as [F1 F2]. destruct (H1 F1) as (k' & K & ->).
        destruct (walk_segment X dir get G fs c' block s asked r0 Gc LU fuel rest k' ltac:(lia) K) as [W _].
        destruct (W F2) as (k2 & _ & ->). destruct r0 as [[c2|v2|]|e| |]; try reflexivity. destruct (NF c2 eq_refl).
      + intros pre' d post err EC F UR. apply (read_unreadable fs dir d err G) in UR. apply app_eq_app in EC as (l & [[EC1 EC2]|[EC1 EC2]]).
        * destruct l as [|x l].
          -- rewrite app_nil_r in EC1. cbn [app] in EC2. subst pre'. destruct (H1 F) as (k' & K & ->).
             destruct (walk_segment X dir get G fs c' block s asked r0 Gc LU fuel rest k' ltac:(lia) K) as [_ W].
             eapply (W []); [symmetry; exact EC2|constructor|exact UR].
          -- cbn [app] in EC2. injection EC2 as <- EC2. eapply H2; eassumption.
        * subst pre'. apply Forall_app in F as [F1 F2]. destruct (H1 F1) as (k' & K & ->).
          destruct (walk_segment X dir get G fs c' block s asked r0 Gc LU fuel rest k' ltac:(lia) K) as [_ W]. eapply W; eassumption. }
  destruct (C58_cases path c n) as [(c' & n' & L)|[(pre & s & rest & c' & n' & es & -> & L & B & NI)|(pre & s & rest & c' & n' & -> & L & B)]];
    destruct (path_found X dir get G _ c n c' n' L S U) as (S' & N & reads & R & HD & H).
  - exists N, reads, (Ok (Some c')). split; [exact R|]. split; [exact HD|]. intros fs fuel Lf.
    destruct (H fs [] fuel None Lf (or_introl eq_refl)) as [H1 H2]. rewrite app_nil_r in H1, H2. split.
    + intros F. destruct (H1 F) as (k' & _ & ->). reflexivity.
    + intros pre d post err EC F UR. eapply H2; [exact EC|exact F|exact (read_unreadable fs dir d err G UR)].
  - destruct (segment_absent X get c' n' es s S' B NI) as (block & asked & Gc & LU).
    eapply ST; [exact S'|exact Gc|exact LU|discriminate|exact R| |exact H].
    destruct HD as [[-> ->]|HD]; [|right; exact HD]. left. inversion L; subst. auto.
  - destruct (segment_not_dir X get c' n' s S' B) as (block & t & Gc & T & LU).
    eapply ST; [exact S'|exact Gc|exact LU|discriminate|exact R| |exact H].
    destruct HD as [[-> ->]|HD]; [|right; exact HD]. left. inversion L; subst. auto.
Qed.
Print Assumptions C58_damaged.
Lemma unambiguous_intro c n : (forall es, below_node n = Some es -> NoDup (map (fun e => fst (fst e)) es)
  /\ forall s c' n', In (s, c', n') es -> unambiguous c' n') -> unambiguous c n.
Proof.
  intros H path c' n' es L B. destruct L as [|es' name c1 n1 rest c2 n2 B1 I L]; [exact (proj1 (H es B))|].
  destruct (H es' B1) as [_ H2]. exact (H2 _ _ _ I rest c2 n2 es L B).
Qed.
Example C58_nonvacuous : forall X, ext_ok X -> exists fs get, blocks_place [x2f] ex_dir /\ stocked fs ex_dir get /\ stored X get (idc 10) t_tree
  /\ unambiguous (idc 10) t_tree
  /\ leads_to (idc 10) t_tree [[x73]; [x64]; [x78]] (idc 3) x_tree
  /\ leads_to (idc 10) t_tree [[x73]] (idc 13) s_tree
  /\ (exists es, below_node s_tree = Some es /\ ~ In [x78] (map (fun e => fst (fst e)) es))
  /\ leads_to (idc 10) t_tree [[x66]] (idc 11) f_tree /\ below_node f_tree = None.
Proof.
  intros X HX. destruct (C54_store [x2f] ex_dir kept_blocks ex_place) as (fs & St & At). exists fs, (holding kept_blocks).
  split; [exact ex_place|]. split; [exact St|]. split; [exact (kept_tree X HX)|]. split.
  { assert (L : forall c md ct, unambiguous c (FsFile md ct)) by (intros; apply unambiguous_intro; discriminate).
    assert (NP : forall x y : byte, x <> y -> [x] <> [y]) by (intros x y N E; injection E; auto).
    apply unambiguous_intro. intros es E. injection E as <-. split.
    { cbn. repeat constructor; cbn; intros I; repeat (destruct I as [I|I]; [discriminate I|]); exact I. }
    intros s c' n' [E|[E|[E|[]]]]; injection E as <- <- <-; [apply L|apply unambiguous_intro; discriminate|].
    apply unambiguous_intro. intros es E. injection E as <-. split.
    { cbn. repeat constructor; cbn; intros I; repeat (destruct I as [I|I]; [discriminate I|]); exact I. }
    intros s c' n' [E|[E|[]]]; injection E as <- <- <-; [apply L|].
    apply unambiguous_intro. intros es E. injection E as <-. split; [cbn; repeat constructor; intros []|].
    intros s c' n' [E|[]]. injection E as <- <- <-. apply L. }
  assert (L1 : leads_to (idc 10) t_tree [[x73]] (idc 13) s_tree).
  { eapply leads_below; [reflexivity|right; right; left; reflexivity|constructor]. }
  split; [|split; [exact L1|split; [|split; [|reflexivity]]]].
  - eapply leads_below; [reflexivity|right; right; left; reflexivity|].
    eapply leads_below; [reflexivity|right; left; reflexivity|]. eapply leads_below; [reflexivity|left; reflexivity|constructor].
  - eexists. split; [reflexivity|]. cbn. intros I. repeat (destruct I as [I|I]; [discriminate I|]). exact I.
  - eapply leads_below; [reflexivity|left; reflexivity|constructor].
Qed.

(** ** C59: get *)

(** The property as stated is false: a symlink with a target that is not UTF-8
    makes get panic *)
Theorem C59_refuted : forall X ipfs dir fs get c fuel, blocks_place ipfs dir -> get c = Some (serialize_symlink_block [xff] []) -> stocked fs dir get ->
  stored X get c (FsSymlink (MData None None) [xff])
  /\ get_walk X (S fuel) fs dir c = (Panic, []).
Proof.
  intros X ipfs dir fs get c fuel PL Gc St. split.
  - destruct (symlink_parse (ext_dbg X) [xff] [] ltac:(vm_compute; reflexivity)) as (blk & E & P). cbn [app] in E. rewrite E in Gc.
    exact (stored_symlink X get c blk _ Gc P eq_refl).
  - unfold get_walk. cbn [get_loop]. replace (should_continue (walker_new c [])) with true by reflexivity.
    assert (PL' : exists others, w_pending_links (walker_new c []) = Ok (c, others)) by (eexists; reflexivity). destruct PL' as [others ->]. cbn [map_err bind fst].
    rewrite (read_stocked fs _ get c _ (place_good _ _ PL) St Gc).
    destruct (C44_walk X [xff] c [] None ltac:(vm_compute; reflexivity)) as (w & -> & _). reflexivity.
Qed.
Print Assumptions C59_refuted.
Lemma all_split (P : seen -> list continued -> Prop) e1 : forall e2 items, all P (e1 ++ e2) items ->
  exists i1 i2, items = i1 ++ i2 /\ all P e1 i1 /\ all P e2 i2.
Proof.
  induction e1 as [|e e1 IH]; intros e2 items A; [exists [], items; split; [reflexivity|split; [constructor|exact A]]|].
  cbn [app] in A. apply all_inv in A as (i0 & items' & R & A & ->). destruct (IH e2 items' A) as (i1 & i2 & -> & A1 & A2).
  exists (i0 ++ i1), i2. split; [apply app_assoc|]. split; [constructor; assumption|exact A2].
Qed.
Definition twin (e e' : seen) : Prop := e = e' \/ exists c c' p, e = SeenBucket c p /\ e' = SeenBucket c' p.
Lemma but_twin evs items : all reported_but evs items -> exists evs', Forall2 twin evs evs' /\ all reported evs' items.
Proof.
  intros A. induction A as [|e items evs items' R A (evs' & F & A')]; [exists []; split; constructor|].
  destruct R as [e items R|c c' p].
  - exists (e :: evs'). split; constructor; auto. left. reflexivity.
  - exists (SeenBucket c' p :: evs'). split; [constructor; [right; eauto|exact F]|constructor; [constructor|exact A']].
Qed.
Lemma smooth_stuck X evs items : all reported_but evs items -> smooth X evs ->
  forall pre it post, items = pre ++ it :: post -> ~ stuck X pre it /\ (dotted (path_told it) -> post = []).
Proof.
  intros A [ND S] pre it post E.
  assert (NDi : ~ dotted (path_told it)).
  { destruct (all_paths _ _ _ it but_path A) as (e & Ie & ->); [rewrite E; apply in_or_app; right; left; reflexivity|]. exact (ND e Ie). }
  split; [|intros D; destruct (NDi D)].
  intros [(pre0 & d & p & md & c' & p' & -> & ->)|[_ D]]; [|exact (NDi D)]. destruct (but_twin _ _ A) as (evs' & F & A').
  destruct (all_adjacent (fun _ => None) _ _ A' pre0 (WDirectory d p md) (WBucket c' p') post) as (pre1 & c1 & p1 & md1 & c2 & p2 & post1 & E1);
    [rewrite E, <- app_assoc; reflexivity|reflexivity|reflexivity|]. subst evs'.
  apply Forall2_app_inv_r in F as (l1 & l2 & F1 & F2 & ->). inversion F2 as [|x ? l3 ? T1 F3]; subst. inversion F3 as [|y ? l4 ? T2 F4]; subst.
  destruct T1 as [->|(? & ? & ? & _ & T1)]; [|discriminate T1].
  assert (Q : exists c0 p0, y = SeenBucket c0 p0) by (destruct T2 as [->|(? & ? & ? & -> & _)]; eauto). destruct Q as (c0 & p0 & ->).
  apply (S (l1 ++ [SeenDirectory c1 p1 md1]) (SeenBucket c0 p0) l4); [rewrite <- app_assoc; reflexivity|constructor].
Qed.
Lemma smooth_text X evs : smooth X evs -> text_targets evs.
Proof.
  intros [_ S] c p md target I. apply in_split in I as (l1 & l2 & ->). destruct (utf8_valid target) eqn:V; [apply valid_text, V|].
  exfalso. apply (S _ _ _ eq_refl). constructor. intros T. apply valid_text in T. congruence.
Qed.
Lemma no_dots_items evs items : all reported_but evs items -> no_dots evs -> no_dots_told items.
Proof. intros A ND it I. destruct (all_paths _ _ _ it but_path A I) as (e & Ie & ->). exact (ND e Ie). Qed.
Lemma trips_dec X before e : trips X before e \/ ~ trips X before e.
Proof.
  assert (DD : ext_dbg X = true /\ dotted (path_seen e) \/ ~ (ext_dbg X = true /\ dotted (path_seen e)))
    by (destruct (ext_dbg X), (dotted_dec (path_seen e)); intuition congruence).
  destruct DD as [[D1 D2]|ND]; [left; apply trips_dot; assumption|].
  destruct e as [| | |c p md target|c' p']; try (right; intros T; inversion T; tauto).
  - destruct (utf8_valid target) eqn:V; [right|left; constructor; intros T; apply valid_text in T; congruence].
    intros T; inversion T as [? ? ? ? ? NT| |]; subst; [|tauto]. apply NT, valid_text, V.
  - assert (D : before = [] \/ exists l x, before = l ++ [x]) by (destruct before as [|x l] using rev_ind; eauto).
    destruct D as [->|(l & x & ->)]; [right; intros T; inversion T as [|b ? ? ? ? ? E|]; [destruct b; discriminate E|tauto]|].
    destruct x; try (left; constructor; fail); right; intros T; inversion T as [|b ? ? ? ? ? E|]; try tauto; apply app_inj_tail in E as [_ E]; discriminate E.
Qed.
Lemma no_dots_snoc evs e : no_dots evs -> ~ dotted (path_seen e) -> no_dots (evs ++ [e]).
Proof. intros N D x I. apply in_app_or in I as [I|[<-|[]]]; [exact (N x I)|exact D]. Qed.
Lemma first_trip X evs : smooth X evs \/ exists before e after, evs = before ++ e :: after /\ smooth X before
  /\ (trips X before e \/ ~ trips X before e /\ dotted (path_seen e)).
Proof.
  induction evs as [|e evs IH] using rev_ind; [left; split; [intros x []|intros [|? ?] ? ? E; discriminate E]|].
  destruct IH as [S|(before & e0 & after & -> & S & T)].
  - destruct (trips_dec X evs e) as [T|T]; [right; exists evs, e, []; auto|].
    destruct (dotted_dec (path_seen e)) as [D|D]; [right; exists evs, e, []; auto|]. left. destruct S as [ND S].
    split; [apply no_dots_snoc; assumption|]. intros before e0 after E.
    destruct after as [|x after] using rev_ind.
    + apply app_inj_tail in E as [-> ->]. exact T.
    + clear IHafter. rewrite app_comm_cons, app_assoc in E. apply app_inj_tail in E as [-> _]. eapply S. reflexivity.
  - right. exists before, e0, (after ++ [e]). rewrite <- app_assoc. auto.
Qed.
Lemma trip_items X before e items its : trips X before e -> all reported_but before items -> reported_but e its ->
  exists it its', its = it :: its' /\ (stuck X items it \/ ~ stuck X items it /\ get_lines it = Panic).
Proof.
  intros T A R.
  assert (P : exists it its', its = it :: its' /\ path_told it = path_seen e).
  { destruct its as [|it its']; [|exists it, its'; split; [reflexivity|]; apply (but_path _ _ _ R); left; reflexivity].
    exfalso. inversion R as [? ? R'|]; subst. inversion R' as [| |? ? ? ? ? (pieces & N & _ & L & _)| |]; subst. destruct pieces; [congruence|discriminate]. }
  destruct P as (it & its' & -> & P).
  assert (DD : ext_dbg X = true /\ dotted (path_seen e) \/ ~ (ext_dbg X = true /\ dotted (path_seen e)))
    by (destruct (ext_dbg X), (dotted_dec (path_seen e)); intuition congruence).
  exists it, its'. split; [reflexivity|]. destruct DD as [[D1 D2]|ND]; [left; right; rewrite P; auto|].
  destruct T as [before c p md target NT|before c p md c' p'|before e D1 D2]; [| |tauto].
  - inversion R as [? ? R'|]; subst. inversion R'; subst. right. split.
    + intros [(? & ? & ? & ? & ? & ? & _ & E)|E]; [discriminate E|tauto].
    + cbn [get_lines]. destruct (utf8_valid target) eqn:V; [destruct NT; apply valid_text, V|reflexivity].
  - apply all_split in A as (i1 & i2 & -> & _ & A). apply all_inv in A as (i3 & i4 & R3 & A & ->). inversion A; subst.
    inversion R3 as [? ? R4|]; subst. inversion R4; subst.
    assert (Q : exists c0, it :: its' = [WBucket c0 p']) by (inversion R as [? ? R'|]; subst; [inversion R'; subst|]; eauto). destruct Q as [c0 Q].
    injection Q as -> ->. left. left. exists i1, c, p, md, c0, p'. split; reflexivity.
Qed.
(** lines are only added *)
Lemma get_grows X fs dir fuel : forall w k printed, exists r more, get_loop X fuel fs dir w k printed = (r, printed ++ more).
Proof.
  induction fuel as [|fuel IH]; intros w k printed; cbn [get_loop]; (destruct (should_continue w); [|exists (Ok tt), []; rewrite app_nil_r; reflexivity]).
  - exists Diverge, []. rewrite app_nil_r. reflexivity.
  - assert (N : forall r : outcome (program_error walk_error) unit, exists r' more, (r, printed) = (r', printed ++ more)) by (intros r; exists r, []; rewrite app_nil_r; reflexivity).
    destruct (do p <- _; _) as [buf|e| |]; [|apply (N (Err e))|apply N|apply N]. destruct (walk_next X w buf k) as [[r w'] k'].
    destruct (bind _ _) as [ls|e| |]; [|apply (N (Err e))|apply N|apply N].
    destruct (IH w' k' (printed ++ ls)) as (r' & more & ->). exists r', (ls ++ more). rewrite app_assoc. reflexivity.
Qed.
(** For every tree, and blocks of it missing or not: get reads one sequence of
    blocks, the first one being that of [c], and prints lines as they are known.
    If a block cannot be opened or read, it stops there with that error.  If all
    can be read, it ends with the listing of the tree, or, if the walk comes to
    something it trips over, panics after the lines of everything before.  A "."
    inside a path is something to trip over with debug assertions; without them
    this is said about everything before the first such path (see C72). *)
Theorem C59_exact : forall X ipfs dir get c n, blocks_place ipfs dir -> stored X get c n ->
  exists N reads, Forall (fun r => get (fst r) <> None) reads /\ hd_error (map fst reads) = Some c
  /\ (smooth X (sights true [] c n) /\ concat (map snd reads) = listing [] n
      /\ (forall fs fuel, Forall (fun r => intact fs dir get (fst r)) reads -> (N <= fuel)%nat -> get_walk X fuel fs dir c = (Ok tt, listing [] n))
     \/ exists before e after, sights true [] c n = before ++ e :: after /\ smooth X before
        /\ concat (map snd reads) = flat_map seen_lines before
        /\ (trips X before e
            /\ (forall fs fuel, Forall (fun r => intact fs dir get (fst r)) reads -> (N <= fuel)%nat ->
                get_walk X fuel fs dir c = (Panic, flat_map seen_lines before))
            \/ ext_dbg X = false /\ dotted (path_seen e)
            /\ (forall fs fuel, Forall (fun r => intact fs dir get (fst r)) reads -> (N <= fuel)%nat ->
                exists r more, get_walk X fuel fs dir c = (r, flat_map seen_lines before ++ more))))
  /\ (forall fs pre d ls post err fuel, reads = pre ++ (d, ls) :: post -> Forall (fun r => intact fs dir get (fst r)) pre ->
      unreadable fs dir d err -> (N <= fuel)%nat -> get_walk X fuel fs dir c = (Err err, concat (map snd pre))).
Proof.
  intros X ipfs dir get c n PL St. pose proof (place_good _ _ PL) as G.
  destruct (C39_exact X get c [] n (@in_nil _ _) St) as (items0 & A0 & H & R). pose proof (told_but _ _ A0) as A.
  assert (HD : forall bs asked items w, walks X (store get) (walker_new c []) bs asked items w -> asked <> [] -> hd_error asked = Some c).
  { intros bs asked items w HW NE. inversion HW as [|w0 c0 others b k k' it w1 bs' asked' items' w2 SC PL0 Gv K NX HW']; subst; [congruence|].
    cbn [hd_error]. f_equal. unfold w_pending_links in PL0. cbn in PL0. injection PL0 as -> _. reflexivity. }
  destruct (first_trip X (sights true [] c n)) as [S|(before & e & after & E & S & [T|[NT D]])].
  - destruct (R items0 [] (eq_sym (app_nil_r _)) (smooth_stuck X _ _ A S)) as (w & bs & asked & HW).
    destruct (H items0 w (ex_intro _ bs (ex_intro _ asked HW)) (or_intror (or_introl (no_dots_items _ _ A (proj1 S))))) as (rest & E & _ & SC & _).
    rewrite <- (app_nil_r items0) in E at 1. apply app_inv_head in E. subst rest.
    assert (SC' : should_continue w = false) by (destruct (should_continue w); [exfalso; apply SC; reflexivity|reflexivity]).
    destruct (all_lines _ _ A (smooth_text X _ S)) as (lss & F & C). rewrite sights_lines in C.
    destruct (walks_lengths X _ _ _ _ _ _ HW) as [L1 L2]. pose proof (forall2_len _ _ _ F) as L3.
    assert (LE : length asked = length lss) by congruence.
    exists (length bs), (combine asked lss).
    split. { apply Forall_forall. intros [d ls] I. apply in_combine_l in I. pose proof (walks_asked X get _ _ _ _ _ HW) as AS. rewrite Forall_forall in AS. exact (AS d I). }
    split. { rewrite (map_fst_combine asked lss LE). apply (HD _ _ _ _ HW). intros ->. inversion HW; subst. cbn in SC'. discriminate SC'. }
    split.
    + left. split; [exact S|]. split; [rewrite (map_snd_combine asked lss LE); exact C|]. intros fs fuel FI L.
      destruct (get_prefix X fs dir get G _ _ _ _ _ HW lss F None [] (or_introl eq_refl)) as [P _].
      destruct P as (k' & K' & P).
      { rewrite <- (map_fst_combine asked lss LE). apply Forall_map. exact FI. }
      unfold get_walk. replace fuel with (length bs + (fuel - length bs))%nat by lia. rewrite P, C. cbn [app].
      destruct (fuel - length bs)%nat; cbn [get_loop]; rewrite SC'; reflexivity.
    + intros fs pre d ls post err fuel EC FI U L.
      destruct (get_prefix X fs dir get G _ _ _ _ _ HW lss F None [] (or_introl eq_refl)) as [_ P].
      exact (P pre d ls post fuel err EC FI (read_unreadable fs dir d err G U) L).
  - rewrite E in A. destruct (all_split _ _ _ _ A) as (ip & ir & EI & A1 & A2). apply all_inv in A2 as (ie & ir' & Re & A2 & ->).
    destruct (trip_items X before e ip ie T A1 Re) as (it & ie' & -> & TR).
    destruct (R ip ((it :: ie') ++ ir') EI (smooth_stuck X _ _ A1 S)) as (w & bs & asked & HW).
    destruct (H ip w (ex_intro _ bs (ex_intro _ asked HW)) (or_intror (or_introl (no_dots_items _ _ A1 (proj1 S))))) as (rest & E2 & _ & SC & NX). rewrite EI in E2. apply app_inv_head in E2. subst rest.
    destruct (NX it (ie' ++ ir') eq_refl) as (cb & others & b & PLb & Gb & NX').
    assert (SC' : should_continue w = true) by (apply SC; discriminate).
    destruct (all_lines _ _ A1 (smooth_text X _ S)) as (lss & F & C).
    destruct (walks_lengths X _ _ _ _ _ _ HW) as [L1 L2]. pose proof (forall2_len _ _ _ F) as L3.
    assert (LE : length asked = length lss) by congruence.
    assert (LAST : forall fs k printed fuel, clean_cache k -> intact fs dir get cb -> get_loop X (Datatypes.S fuel) fs dir w k printed = (Panic, printed)).
    { intros fs k printed fuel K I. cbn [get_loop]. rewrite SC', PLb. cbn [map_err bind fst]. rewrite (read_intact fs dir get cb b G I Gb).
      destruct (NX' k K) as [NX1 NX2]. destruct TR as [ST|[NS GL]].
      - specialize (NX2 ST). destruct (walk_next X w b k) as [[r w1] k1]. cbn [fst] in NX2. subst r. reflexivity.
      - destruct (NX1 NS) as (w1 & k1 & ->). cbn [map_err bind]. rewrite GL. reflexivity. }
    exists (Datatypes.S (length bs)), (combine asked lss ++ [(cb, [])]).
    split. { apply Forall_app. split; [|constructor; [cbn [fst]; congruence|constructor]].
      apply Forall_forall. intros [d ls] I. apply in_combine_l in I. pose proof (walks_asked X get _ _ _ _ _ HW) as AS. rewrite Forall_forall in AS. exact (AS d I). }
    split. { rewrite map_app, (map_fst_combine asked lss LE). destruct asked as [|a asked]; [|exact (HD _ _ _ _ HW ltac:(discriminate))].
      inversion HW; subst. cbn [map app fst hd_error]. f_equal. unfold w_pending_links in PLb. cbn in PLb. injection PLb as -> _. reflexivity. }
    split.
    + right. exists before, e, after. split; [exact E|]. split; [exact S|].
      split. { rewrite map_app, (map_snd_combine asked lss LE), concat_app. cbn. rewrite app_nil_r. exact C. }
      left. split; [exact T|]. intros fs fuel FI L. apply Forall_app in FI as [FI FL]. inversion FL as [|? ? I1 _]; subst. cbn [fst] in I1.
      destruct (get_prefix X fs dir get G _ _ _ _ _ HW lss F None [] (or_introl eq_refl)) as [P _].
      destruct P as (k' & K' & P).
      { rewrite <- (map_fst_combine asked lss LE). apply Forall_map. exact FI. }
      unfold get_walk. replace fuel with (length bs + Datatypes.S (fuel - Datatypes.S (length bs)))%nat by lia. rewrite P, C. apply LAST; assumption.
    + intros fs pre d ls post err fuel EC FI U L.
      destruct (get_prefix X fs dir get G _ _ _ _ _ HW lss F None [] (or_introl eq_refl)) as [P1 P].
      pose proof (@read_unreadable walk_error fs dir d err G U) as RU. unfold get_walk.
      destruct post as [|x post] using rev_ind.
      * apply app_inj_tail in EC as [<- EC]. injection EC as <- <-. destruct P1 as (k' & K' & P1).
        { rewrite <- (map_fst_combine asked lss LE). apply Forall_map. exact FI. }
        replace fuel with (length bs + Datatypes.S (fuel - Datatypes.S (length bs)))%nat by lia. rewrite P1.
        cbn [get_loop]. rewrite SC', PLb. cbn [map_err bind fst]. rewrite RU, (map_snd_combine asked lss LE). reflexivity.
      * clear IHpost. rewrite app_comm_cons, app_assoc in EC. apply app_inj_tail in EC as [EC _].
        exact (P pre d ls post fuel err EC FI RU ltac:(lia)).
  - rewrite E in A. destruct (all_split _ _ _ _ A) as (ip & ir & EI & A1 & _).
    destruct (R ip ir EI (smooth_stuck X _ _ A1 S)) as (w & bs & asked & HW).
    destruct (all_lines _ _ A1 (smooth_text X _ S)) as (lss & F & C).
    destruct (walks_lengths X _ _ _ _ _ _ HW) as [L1 L2]. pose proof (forall2_len _ _ _ F) as L3.
    assert (LE : length asked = length lss) by congruence.
    exists (length bs), (combine asked lss).
    split. { apply Forall_forall. intros [d ls] I. apply in_combine_l in I. pose proof (walks_asked X get _ _ _ _ _ HW) as AS. rewrite Forall_forall in AS. exact (AS d I). }
    split.
    { rewrite (map_fst_combine asked lss LE). apply (HD _ _ _ _ HW). intros ->. assert (ip = []) as -> by (destruct ip; [reflexivity|cbn [length] in *; exfalso; lia]).
      assert (before = []) as ->.
      { inversion A1 as [|e0 its0 evs0 its1 R0 A3 E3 E4]; [reflexivity|]. exfalso. destruct its0; [|discriminate E4].
        inversion R0 as [? ? R'|]; subst. inversion R' as [| |? ? ? ? ? (pieces & N & _ & L & _)| |]; subst. destruct pieces; [congruence|discriminate]. }
      destruct D as (a & b & D & _). assert (P : path_seen e = []) by (destruct n; injection E as <- _; reflexivity). rewrite P in D. destruct a; discriminate. }
    split.
    + right. exists before, e, after. split; [exact E|]. split; [exact S|]. split; [rewrite (map_snd_combine asked lss LE); exact C|].
      right. split; [destruct (ext_dbg X) eqn:DB; [destruct NT; apply trips_dot; [exact DB|exact D]|reflexivity]|]. split; [exact D|]. intros fs fuel FI L.
      destruct (get_prefix X fs dir get G _ _ _ _ _ HW lss F None [] (or_introl eq_refl)) as [P _].
      destruct P as (k' & K' & P).
      { rewrite <- (map_fst_combine asked lss LE). apply Forall_map. exact FI. }
      unfold get_walk. replace fuel with (length bs + (fuel - length bs))%nat by lia. rewrite P, C. cbn [app]. apply get_grows.
    + intros fs pre d ls post err fuel EC FI U L.
      destruct (get_prefix X fs dir get G _ _ _ _ _ HW lss F None [] (or_introl eq_refl)) as [_ P].
      exact (P pre d ls post fuel err EC FI (read_unreadable fs dir d err G U) L).
Qed.
Print Assumptions C59_exact.
(** 20 = sharded { empty directory, then a bucket } *)
Example C59_exact_nonvacuous : forall X, ext_ok X -> stored X t_get (idc 20) u_tree
  /\ exists before e after, sights true [] (idc 20) u_tree = before ++ e :: after /\ trips X before e /\ smooth X before
     /\ flat_map seen_lines before = [LineDir 493 0 []; LineDir 493 0 [x64]].
Proof.
  intros X HX. split; [apply u_stored, HX|]. cbn [sights u_tree flat_map item_sights app].
  eexists [_; _], _, []. split; [reflexivity|]. split; [apply (trips_bucket _ [_])|]. split; [|vm_compute; reflexivity].
  assert (ND : forall p, blen p <= 1 -> ~ dotted p).
  { intros p L (a & b & -> & _). rewrite blen_app in L. cbn in L. lia. }
  split; [intros e [<-|[<-|[]]]; apply ND; vm_compute; discriminate|].
  intros before e after E T. destruct before as [|? [|? before]]; cbn [app] in E.
  - injection E as <- <-. inversion T as [| |? ? _ D]. revert D. apply ND. vm_compute. discriminate.
  - injection E as <- <- <-. inversion T as [| |? ? _ D]. revert D. apply ND. vm_compute. discriminate.
  - injection E as _ _ E. destruct before; discriminate E.
Qed.
(** With targets that are text (and directories as the walk supports them, see
    C39), it prints the listing of the tree *)
Theorem C59_listing : forall X ipfs dir fs get c n, blocks_place ipfs dir ->
  stored X get c n -> walkable (sights true [] c n) -> text_targets (sights true [] c n) -> stocked fs dir get ->
  exists N, forall fuel, (N <= fuel)%nat -> get_walk X fuel fs dir c = (Ok tt, listing [] n).
Proof.
  intros X ipfs dir fs get c n PL S W T St.
  destruct (C39_preorder X get c [] n (@in_nil _ _) S W) as (items & A & (w & (bs & asked & HW) & E) & _).
  destruct (all_lines _ _ A T) as (lss & F & C). exists (length bs). intros fuel L. unfold get_walk.
  pose proof (walks_asked X get _ _ _ _ _ HW) as AS.
  assert (FI : Forall (fun r => intact fs dir get (fst r)) (combine asked lss)).
  { apply Forall_forall. intros [d ls] I. apply in_combine_l in I. cbn [fst]. rewrite Forall_forall in AS. specialize (AS d I).
    destruct (get d) as [b|] eqn:Gd; [|congruence]. eapply stocked_intact; eassumption. }
  rewrite (get_walks X fs dir get (place_good _ _ PL) _ _ _ _ _ HW E lss F _ [] fuel None [] (eq_sym (app_nil_r _)) FI L (or_introl eq_refl)).
  cbn [app]. rewrite C, sights_lines. reflexivity.
Qed.
Print Assumptions C59_listing.

(** The listing in terms of paths: its lines are exactly those of what the paths
    lead to, ... *)
Theorem C59_members : forall X get c n, stored X get c n ->
  forall l, In l (listing [] n) <-> exists names c' n', leads_to c n names c' n' /\ l = line_of (SpecBuilder.join names) n'.
Proof. intros X get c n S l. apply (listing_members X get c n l S). Qed.
Print Assumptions C59_members.
(** ... and unless a directory has two entries of the same name, none is listed
    twice. *)
Theorem C59_no_path_twice : forall X get c n, stored X get c n -> unambiguous c n -> NoDup (map line_path (listing [] n)).
Proof. exact listing_once. Qed.
Print Assumptions C59_no_path_twice.
(** There is one sequence of blocks that are read, the first one being that of
    [c], and lines are printed as they are known; when a block cannot be opened
    or read, it stops with that error *)
Theorem C59_damaged : forall X ipfs dir get c n, blocks_place ipfs dir ->
  stored X get c n -> walkable (sights true [] c n) -> text_targets (sights true [] c n) ->
  exists N reads, concat (map snd reads) = listing [] n /\ Forall (fun r => get (fst r) <> None) reads /\ hd_error (map fst reads) = Some c
  /\ forall fs pre d ls post err fuel, reads = pre ++ (d, ls) :: post -> Forall (fun r => intact fs dir get (fst r)) pre ->
     unreadable fs dir d err -> (N <= fuel)%nat -> get_walk X fuel fs dir c = (Err err, concat (map snd pre)).
Proof.
  intros X ipfs dir get c n PL S W T.
  destruct (C39_preorder X get c [] n (@in_nil _ _) S W) as (items & A & (w & (bs & asked & HW) & E) & _).
  destruct (all_lines _ _ A T) as (lss & F & C). destruct (walks_lengths X _ _ _ _ _ _ HW) as [L1 L2].
  pose proof (forall2_len _ _ _ F) as L3.
  assert (LE : length asked = length lss) by congruence. pose proof (walks_asked X get _ _ _ _ _ HW) as AS.
  exists (length bs), (combine asked lss). split; [rewrite (map_snd_combine asked lss LE), C, sights_lines; reflexivity|].
  split. { apply Forall_forall. intros [d ls] I. apply in_combine_l in I. rewrite Forall_forall in AS. exact (AS d I). }
  split.
  { rewrite (map_fst_combine asked lss LE). inversion HW as [|w0 c0 others b k k' it w1 bs' asked' items' w2 SC PL0 Gv K NX HW']; subst.
    - cbn in E. discriminate E.
    - cbn [hd_error]. f_equal. unfold w_pending_links in PL0. cbn in PL0. injection PL0 as -> _. reflexivity. }
  intros fs pre d ls post err fuel EC FI U L. unfold get_walk.
  exact (get_walks X fs dir get (place_good _ _ PL) _ _ _ _ _ HW E lss F pre ((d, ls) :: post) fuel None [] EC FI L (or_introl eq_refl) err
    (read_unreadable fs dir d err (place_good _ _ PL) U)).
Qed.
Print Assumptions C59_damaged.
(** 10 = { f, l -> .., s = { a, d = { x } } } *)
Example C59_nonvacuous : forall X, ext_ok X -> exists fs get, blocks_place [x2f] ex_dir /\ stocked fs ex_dir get
  /\ stored X get (idc 10) t_tree /\ walkable (sights true [] (idc 10) t_tree) /\ text_targets (sights true [] (idc 10) t_tree)
  /\ listing [] t_tree =
     [LineDir 493 0 []; LineFile 420 0 4 [x66]; LineLink 493 0 [x6c] [x2e; x2e]; LineDir 493 0 [x73];
      LineFile 420 0 2 [x73; x2f; x61]; LineDir 493 5 [x73; x2f; x64]; LineFile 420 0 1 [x73; x2f; x64; x2f; x78]].
Proof.
  intros X HX. destruct (C54_store [x2f] ex_dir kept_blocks ex_place) as (fs & St & At). exists fs, (holding kept_blocks).
  split; [exact ex_place|]. split; [exact St|]. split; [exact (kept_tree X HX)|]. split; [exact t_walkable|]. split; [|vm_compute; reflexivity].
  intros c p md target I. cbn -[idc] in I. repeat (destruct I as [I|I]; [first [discriminate I|injection I as _ _ _ <-; apply valid_text; reflexivity]|]). destruct I.
Qed.

(** ** C60: exit codes *)

(** resolve prints the Cid and exits with 0 if the path leads somewhere *)
Theorem C60_resolve : forall X cid_of_str fs ipfs dir get arg c path n c' n', blocks_place ipfs dir ->
  path_try_from cid_of_str arg = Ok (c, path) ->
  stored X get c n -> unambiguous c n -> stocked fs dir get -> leads_to c n path c' n' ->
  exists N, forall fuel, (N <= fuel)%nat -> resolve_main X cid_of_str fuel fs (Some arg) (Some ipfs) = (Ok 0, [c']).
Proof.
  intros X f fs ipfs dir get arg c path n c' n' PL P S U St L. destruct (C58_found X ipfs dir fs get c n path c' n' PL S U St L) as [N H].
  exists N. intros fuel Lf. unfold resolve_main, main. rewrite P. cbn [fst snd]. rewrite <- (proj1 (C54_dir _ _) PL), (H fuel Lf). reflexivity.
Qed.
Print Assumptions C60_resolve.
(** The exit code does not tell success from failure: it is 0 for a path that
    leads nowhere, with nothing printed *)
Theorem C60_exit_code_refuted : forall X cid_of_str fs ipfs dir get arg c path s rest n c' n' es, blocks_place ipfs dir ->
  path_try_from cid_of_str arg = Ok (c, path ++ s :: rest) ->
  stored X get c n -> unambiguous c n -> stocked fs dir get ->
  leads_to c n path c' n' -> below_node n' = Some es -> ~ In s (map (fun e => fst (fst e)) es) ->
  exists N, forall fuel, (N <= fuel)%nat -> resolve_main X cid_of_str fuel fs (Some arg) (Some ipfs) = (Ok 0, []).
Proof.
  intros X f fs ipfs dir get arg c path s rest n c' n' es PL P S U St L B NI.
  destruct (C58_absent X ipfs dir fs get c n path c' n' es s rest PL S U St L B NI) as [N H].
  exists N. intros fuel Lf. unfold resolve_main, main. rewrite P. cbn [fst snd]. rewrite <- (proj1 (C54_dir _ _) PL), (H fuel Lf). reflexivity.
Qed.
Print Assumptions C60_exit_code_refuted.
(** names below a file: exit code 1 *)
Theorem C60_not_a_directory : forall X cid_of_str fs ipfs dir get arg c path s rest n c' n', blocks_place ipfs dir ->
  path_try_from cid_of_str arg = Ok (c, path ++ s :: rest) ->
  stored X get c n -> unambiguous c n -> stocked fs dir get -> leads_to c n path c' n' -> below_node n' = None ->
  exists N, forall fuel, (N <= fuel)%nat -> resolve_main X cid_of_str fuel fs (Some arg) (Some ipfs) = (Ok 1, []).
Proof.
  intros X f fs ipfs dir get arg c path s rest n c' n' PL P S U St L B.
  destruct (C58_not_a_directory X ipfs dir fs get c n path c' n' s rest PL S U St L B) as (N & t & _ & H).
  exists N. intros fuel Lf. unfold resolve_main, main. rewrite P. cbn [fst snd]. rewrite <- (proj1 (C54_dir _ _) PL), (H fuel Lf). reflexivity.
Qed.
Print Assumptions C60_not_a_directory.
(** a block on the way cannot be opened or read: exit code 1, nothing printed *)
Theorem C60_missing : forall X cid_of_str ipfs dir get arg c path n, blocks_place ipfs dir ->
  path_try_from cid_of_str arg = Ok (c, path) -> stored X get c n -> unambiguous c n ->
  exists N reads, Forall (fun d => get d <> None) reads /\ (path = [] /\ reads = [] \/ exists more, reads = c :: more)
  /\ forall fs pre d post (err : program_error resolve_error) fuel, (N <= fuel)%nat ->
     reads = pre ++ d :: post -> Forall (intact fs dir get) pre -> unreadable fs dir d err ->
     resolve_main X cid_of_str fuel fs (Some arg) (Some ipfs) = (Ok 1, []).
Proof.
  intros X f ipfs dir get arg c path n PL P S U. destruct (C58_damaged X ipfs dir get c n path PL S U) as (N & reads & r & R & HD & H).
  exists N, reads. split; [exact R|]. split; [exact HD|]. intros fs pre d post err fuel L EC F UR.
  destruct (H fs fuel L) as [_ H2]. unfold resolve_main, main. rewrite P. cbn [fst snd].
  rewrite <- (proj1 (C54_dir _ _) PL), (H2 pre d post err EC F UR). reflexivity.
Qed.
Print Assumptions C60_missing.
(** get: 0 with the listing, or 1 with a part of it *)
Theorem C60_get : forall X cid_of_str ipfs dir get arg c n, blocks_place ipfs dir -> cid_of_str arg = Some c ->
  stored X get c n -> walkable (sights true [] c n) -> text_targets (sights true [] c n) ->
  (forall fs, stocked fs dir get -> exists N, forall fuel, (N <= fuel)%nat ->
     get_main X cid_of_str fuel fs (Some arg) (Some ipfs) = (Ok 0, listing [] n))
  /\ exists N reads, concat (map snd reads) = listing [] n /\ Forall (fun r => get (fst r) <> None) reads /\ hd_error (map fst reads) = Some c
     /\ forall fs pre d ls post (err : program_error walk_error) fuel, reads = pre ++ (d, ls) :: post -> Forall (fun r => intact fs dir get (fst r)) pre ->
        unreadable fs dir d err -> (N <= fuel)%nat -> get_main X cid_of_str fuel fs (Some arg) (Some ipfs) = (Ok 1, concat (map snd pre)).
Proof.
  intros X f ipfs dir get arg c n PL A S W T. unfold get_main, main, ok_or. rewrite A, <- (proj1 (C54_dir _ _) PL). split.
  - intros fs St. destruct (C59_listing X ipfs dir fs get c n PL S W T St) as [N H]. exists N. intros fuel L. rewrite (H fuel L). reflexivity.
  - destruct (C59_damaged X ipfs dir get c n PL S W T) as (N & reads & H1 & H2 & H3 & H). exists N, reads.
    split; [exact H1|]. split; [exact H2|]. split; [exact H3|]. intros fs pre d ls post err fuel EC F U L.
    rewrite (H fs pre d ls post err fuel EC F U L). reflexivity.
Qed.
Print Assumptions C60_get.
(** for all trees: 0 with the listing, 1 with a part of it when a block cannot be
    read, or a panic where C59 says so *)
Theorem C60_get_exact : forall X cid_of_str ipfs dir get arg c n, blocks_place ipfs dir -> cid_of_str arg = Some c -> stored X get c n ->
  exists N reads, Forall (fun r => get (fst r) <> None) reads /\ hd_error (map fst reads) = Some c
  /\ (smooth X (sights true [] c n) /\ concat (map snd reads) = listing [] n
      /\ (forall fs fuel, Forall (fun r => intact fs dir get (fst r)) reads -> (N <= fuel)%nat ->
          get_main X cid_of_str fuel fs (Some arg) (Some ipfs) = (Ok 0, listing [] n))
     \/ exists before e after, sights true [] c n = before ++ e :: after /\ smooth X before
        /\ concat (map snd reads) = flat_map seen_lines before
        /\ (trips X before e
            /\ (forall fs fuel, Forall (fun r => intact fs dir get (fst r)) reads -> (N <= fuel)%nat ->
                get_main X cid_of_str fuel fs (Some arg) (Some ipfs) = (Panic, flat_map seen_lines before))
            \/ ext_dbg X = false /\ dotted (path_seen e)
            /\ (forall fs fuel, Forall (fun r => intact fs dir get (fst r)) reads -> (N <= fuel)%nat ->
                exists r more, get_main X cid_of_str fuel fs (Some arg) (Some ipfs) = (r, flat_map seen_lines before ++ more))))
  /\ (forall fs pre d ls post (err : program_error walk_error) fuel, reads = pre ++ (d, ls) :: post -> Forall (fun r => intact fs dir get (fst r)) pre ->
      unreadable fs dir d err -> (N <= fuel)%nat -> get_main X cid_of_str fuel fs (Some arg) (Some ipfs) = (Ok 1, concat (map snd pre))).
Proof.
  intros X f ipfs dir get arg c n PL A S. unfold get_main, main, ok_or. rewrite A, <- (proj1 (C54_dir _ _) PL).
  destruct (C59_exact X ipfs dir get c n PL S) as (N & reads & H1 & H2 & H3 & H4). exists N, reads. split; [exact H1|]. split; [exact H2|].
  split; [destruct H3 as [(H3 & H5 & H6)|(before & e & after & E & Sm & H5 & [(T & H6)|(DB & D & H6)])]; [left; split; [exact H3|]; split; [exact H5|]
    |right; exists before, e, after; split; [exact E|]; split; [exact Sm|]; split; [exact H5|]; left; split; [exact T|]
    |right; exists before, e, after; split; [exact E|]; split; [exact Sm|]; split; [exact H5|]; right; split; [exact DB|]; split; [exact D|]]|].
  - intros fs fuel FI L. rewrite (H6 fs fuel FI L). reflexivity.
  - intros fs fuel FI L. rewrite (H6 fs fuel FI L). reflexivity.
  - intros fs fuel FI L. destruct (H6 fs fuel FI L) as (r & more & ->). destruct r; eexists _, _; reflexivity.
  - intros fs pre d ls post err fuel EC FI U L. rewrite (H4 fs pre d ls post err fuel EC FI U L). reflexivity.
Qed.
Print Assumptions C60_get_exact.
(** before anything is read: without an argument the usage is shown, and the
    exit code is 0; an argument that cannot be parsed or a missing IPFS_PATH
    makes it 1.  (cat, get and resolve) *)
Theorem C60_usage : forall X cid_of_str fs fuel,
  (forall var, cat_main X cid_of_str fuel fs None var = (Ok 0, []) /\ get_main X cid_of_str fuel fs None var = (Ok 0, [])
               /\ resolve_main X cid_of_str fuel fs None var = (Ok 0, []))
  /\ (forall arg var, cid_of_str arg = None ->
      cat_main X cid_of_str fuel fs (Some arg) var = (Ok 1, []) /\ get_main X cid_of_str fuel fs (Some arg) var = (Ok 1, []))
  /\ (forall arg e var, path_try_from cid_of_str arg = Err e -> resolve_main X cid_of_str fuel fs (Some arg) var = (Ok 1, []))
  /\ (forall arg, cat_main X cid_of_str fuel fs (Some arg) None = (Ok 1, []) /\ get_main X cid_of_str fuel fs (Some arg) None = (Ok 1, [])
                  /\ resolve_main X cid_of_str fuel fs (Some arg) None = (Ok 1, [])).
Proof.
  intros X f fs fuel. unfold cat_main, get_main, resolve_main, main, ok_or. split; [|split; [|split]].
  - repeat split; reflexivity.
  - intros arg var ->. split; reflexivity.
  - intros arg e var ->. reflexivity.
  - intros arg. split; [destruct (f arg); reflexivity|]. split; [destruct (f arg); reflexivity|].
    assert (Q : (exists v, path_try_from f arg = Ok v) \/ exists e, path_try_from f arg = Err e).
    { unfold path_try_from. destruct (splitn2 slash_ipfs arg) as [[|y a] [b|]]; cbn [bind]; eauto.
      - destruct (splitn2 [x2f] b). unfold ok_or. destruct (f _); cbn [bind]; eauto.
      - destruct (splitn2 [x2f] (y :: a)). unfold ok_or. destruct (f _); cbn [bind]; eauto. }
    destruct Q as [[v ->]|[e ->]]; reflexivity.
Qed.
Print Assumptions C60_usage.
(** Q/s/d/x, Q/s/y and Q/f/x, where Q is the Cid 10 *)
Example C60_nonvacuous : forall cid_of_str, cid_of_str [x51] = Some (idc 10) ->
  path_try_from cid_of_str [x51; x2f; x73; x2f; x64; x2f; x78] = Ok (idc 10, [[x73]; [x64]; [x78]])
  /\ path_try_from cid_of_str [x51; x2f; x73; x2f; x78] = Ok (idc 10, [[x73]] ++ [[x78]])
  /\ path_try_from cid_of_str [x51; x2f; x66; x2f; x78] = Ok (idc 10, [[x66]] ++ [[x78]])
  /\ exists e, path_try_from cid_of_str [] = Err e.
Proof.
  intros f H.
  assert (Q : forall s segs, path_try_from f s = (do c <- ok_or (f [x51]) PathInvalidCid; Ok (c, segs)) -> path_try_from f s = Ok (idc 10, segs)).
  { intros s segs ->. rewrite H. reflexivity. }
  repeat split; try (apply Q; reflexivity). exists InvalidPath. reflexivity.
Qed.
