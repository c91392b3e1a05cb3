(** * PropertiesCauses: C79, the sources of errors *)
From Coq Require Import Strings.String.
From Coq Require Import Init.Byte.
From Verif Require Import Base Tac Wire Utf8 Cid Pb Parsed Reader Visit Dir Builder Walk Errors AdderDebug Output Messages Messages_proofs Causes.

(** the block cannot be parsed, and [e] is why *)
Definition unparsable (X : ext) (block : bytes) (e : perr) : Prop :=
  try_parse (ext_dbg X) block = Err (InvalidDagPb e) \/ exists n, try_parse (ext_dbg X) block = Err (InvalidUnixFs e n).

Section causes.
Context (X : ext).
Definition rf_cid (e : read_failed) : Prop := match e with ReadErr _ => False | InvalidCid i => ext_cid_decode X (ic_hash i) = None | _ => True end.
Lemma select_cid : forall zipped nth base v e, select_links X nth base zipped v = Err e -> rf_cid e.
Proof.
  induction zipped as [|[l z] rest IH]; intros nth base v e E; cbn [select_links] in E; [discriminate E|].
  apply bind_err in E as [E|(n & _ & E)]; [unfold add64 in E; destruct (_ <? _), (ext_dbg X); discriminate E|].
  destruct (block_is_in_target_range (base, n) v); [|exact (IH _ _ _ _ E)].
  apply bind_err in E as [E|(p & _ & E)].
  - unfold to_pending in E. destruct (ext_cid_decode X _) eqn:D; [discriminate E|]. injection E as <-. exact D.
  - apply bind_err in E as [E|(ps & _ & E)]; [exact (IH _ _ _ _ E)|discriminate E].
Qed.
Lemma parts_cid inner off md e : from_parts X inner off md = Err e -> rf_cid e.
Proof.
  unfold from_parts. intros E.
  destruct (u_type (f_data inner)); try (injection E as <-; exact Logic.I);
    (destruct (negb _); [injection E as <-; exact Logic.I|]); (destruct (_ && _); [injection E as <-; exact Logic.I|]); destruct (u_hashtype _);
    try (injection E as <-; exact Logic.I); destruct (u_fanout _); try (injection E as <-; exact Logic.I);
    (apply bind_err in E as [E|(x & _ & E)];
     [destruct (is_nil _); [|destruct (u_filesize _)];
      try (apply bind_err in E as [E|(y & _ & E)]; [unfold add64 in E; destruct (_ <? _), (ext_dbg X); discriminate E|discriminate E]); injection E as <-; exact Logic.I
     |apply bind_err in E as [E|(y & _ & E)]; [apply unwrap_err in E; destruct E|discriminate E]]).
Qed.
Lemma reader_cid v fr c e k : start_from_reader X v fr c = (Err e, k) -> rf_cid e.
Proof.
  intros E. unfold start_from_reader in E. destruct (fr_content fr) as [content tr]. destruct content as [content|zipped base].
  - injection E as E _. apply bind_err in E as [E|(s & _ & E)]; [apply slice_err in E; destruct E|discriminate E].
  - destruct (select_links X 0 base zipped v) as [sel|e0| |] eqn:Q; try discriminate E.
    + destruct (opt c [] (fun i => i) ++ sel); discriminate E.
    + injection E as <- _. exact (select_cid _ _ _ _ _ Q).
Qed.
(** what an error with a parsed block is, and with one that is not *)
Lemma parsed_fails {A} b (k : flat -> outcome read_failed A) e : (forall f e, k f = Err e -> rf_cid e) ->
  (do f <- map_err read_failed_of (try_parse (ext_dbg X) b); k f) = Err e ->
  (rf_cid e /\ exists f, try_parse (ext_dbg X) b = Ok f) \/ exists pf, try_parse (ext_dbg X) b = Err pf /\ e = read_failed_of pf.
Proof.
  intros K E. destruct (try_parse (ext_dbg X) b) as [f|pf| |]; cbn [map_err bind] in E; try discriminate.
  - left. split; [exact (K f e E)|eauto].
  - right. injection E as <-. eauto.
Qed.
Lemma start_fails v b e : visit_start X v b = Err e ->
  (rf_cid e /\ exists f, try_parse (ext_dbg X) b = Ok f) \/ exists pf, try_parse (ext_dbg X) b = Err pf /\ e = read_failed_of pf.
Proof.
  intros E. apply (parsed_fails b (fun f => do fr <- from_parts X f 0 (metadata_of (f_data f)); fst (start_from_reader X v fr None))).
  - intros f e0 E0. apply bind_err in E0 as [E0|(fr & _ & E0)]; [exact (parts_cid _ _ _ _ E0)|].
    destruct (start_from_reader X v fr None) as [r k] eqn:R. cbn [fst] in E0. subst r. exact (reader_cid _ _ _ _ _ R).
  - unfold visit_start, from_block in E. destruct (map_err read_failed_of (try_parse (ext_dbg X) b)); exact E.
Qed.
Lemma continue_fails v b k e k' : continue_walk X v b k = (Err e, k') ->
  rf_cid e /\ ((exists f, try_parse (ext_dbg X) b = Ok f) \/ exists fe, e = FileErr fe) \/ exists pf, try_parse (ext_dbg X) b = Err pf /\ e = read_failed_of pf.
Proof.
  unfold continue_walk. intros E. destruct (fv_pending v) as [|[c0 r] pending]; [discriminate E|].
  destruct (tr_continue_walk X (fv_state v) b r) as [fr|e0| |] eqn:T; try discriminate E.
  - left. split.
    + destruct (fr_content fr) as [content tr]. destruct content as [content|zipped base].
      * destruct (maybe_target_slice X content r (fv_range v)) as [s|e0| |] eqn:M; try discriminate E; [destruct pending; discriminate E|]. apply slice_err in M. destruct M.
      * injection E as E _. apply bind_err in E as [E|(s & _ & E)]; [exact (select_cid _ _ _ _ _ E)|discriminate E].
    + left. unfold tr_continue_walk in T. destruct (check_is_suitable_next _ _ _); [discriminate T|]. unfold from_continued in T.
      apply bind_ok in T as (f & Q1 & _). destruct (try_parse (ext_dbg X) b); try discriminate Q1. eauto.
  - injection E as <- _. unfold tr_continue_walk in T. destruct (check_is_suitable_next _ _ _) as [fe|]; [injection T as <-; left; split; [exact Logic.I|eauto]|].
    unfold from_continued in T.
    apply parsed_fails in T as [[T1 T2]|T]; [left; auto|right; exact T|].
    clear. intros f e E. destruct (u_mode (f_data f)); [injection E as <-; exact Logic.I|]. destruct (u_mtime (f_data f)); [injection E as <-; exact Logic.I|]. exact (parts_cid _ _ _ _ E).
Qed.
Lemma unparsed pf b pe : try_parse (ext_dbg X) b = Err pf -> parse_failed_source pf = Some (ByProtobuf pe) <-> unparsable X b pe.
Proof.
  intros P. unfold unparsable. rewrite P. split.
  - destruct pf as [e|n|e n]; cbn [parse_failed_source]; intros [= ->]; [left|right; exists n]; reflexivity.
  - intros [[= ->]|[n [= ->]]]; reflexivity.
Qed.
Lemma kept pf : read_failed_source (read_failed_of pf) = parse_failed_source pf.
Proof. destruct pf; reflexivity. Qed.
Lemma no_source e pe : rf_cid e -> read_failed_source e <> Some (ByProtobuf pe).
Proof. destruct e as [e|t|[e|]|e]; cbn [rf_cid read_failed_source]; intros; try discriminate. tauto. Qed.
End causes.

(** ** C79 *)

(** A visit of a file: a protobuf error is the source just if the block cannot be
    parsed, and then it is that error; a link is the source only if its Cid
    cannot be decoded. *)
Theorem C79_start : forall X v block e, visit_start X v block = Err e ->
  (forall pe, read_failed_source e = Some (ByProtobuf pe) <-> unparsable X block pe)
  /\ (forall i, read_failed_source e = Some (ByLink i) -> ext_cid_decode X (ic_hash i) = None /\ invalid_cid_source i = Some (ByCid (ic_hash i))).
Proof.
  intros X v b e E. apply start_fails in E as [[E (f & P)]|(pf & P & ->)].
  - split.
    + intros pe. split; [intros Q; destruct (no_source X e pe E Q)|]. unfold unparsable. rewrite P. intros [Q|[n Q]]; discriminate.
    + intros i Q. destruct e as [e|t|[e|]|e]; try discriminate Q. injection Q as ->. split; [exact E|reflexivity].
  - split.
    + intros pe. rewrite kept. exact (unparsed X pf b pe P).
    + intros i Q. rewrite kept in Q. destruct pf; discriminate Q.
Qed.
Print Assumptions C79_start.
(** The same for the next blocks, unless the block is refused for its place in
    the file, which is looked at first. *)
Theorem C79_continue : forall X v block k e k', continue_walk X v block k = (Err e, k') ->
  (forall pe, read_failed_source e = Some (ByProtobuf pe) -> unparsable X block pe)
  /\ (forall pe, unparsable X block pe -> read_failed_source e = Some (ByProtobuf pe) \/ exists fe, e = FileErr fe)
  /\ (forall i, read_failed_source e = Some (ByLink i) -> ext_cid_decode X (ic_hash i) = None /\ invalid_cid_source i = Some (ByCid (ic_hash i))).
Proof.
  intros X v b k e k' E. apply continue_fails in E as [[E Q]|(pf & P & ->)].
  - split; [|split].
    + intros pe R. destruct (no_source X e pe E R).
    + intros pe U. destruct Q as [[f P]|Q]; [|right; exact Q]. unfold unparsable in U. rewrite P in U. destruct U as [U|[n U]]; discriminate.
    + intros i R. destruct e as [e|t|[e|]|e]; try discriminate R. injection R as ->. split; [exact E|reflexivity].
  - split; [|split].
    + intros pe. rewrite kept. apply (unparsed X pf b pe P).
    + intros pe U. left. rewrite kept. apply (unparsed X pf b pe P), U.
    + intros i R. rewrite kept in R. destruct pf; discriminate R.
Qed.
Print Assumptions C79_continue.
(** Resolving a name has a protobuf error as source just if the block is not a
    dag-pb block, the steps of a lookup just if it cannot be parsed; it is that
    error.  There are no other sources: not the link when a Cid cannot be
    decoded. *)
Theorem C79_dir : forall X,
  (forall block needle k e k', resolve X block needle k = (Err e, k') ->
     forall c, resolve_error_source e = Some c <-> exists pe, c = ByProtobuf pe /\ try_parse (ext_dbg X) block = Err (InvalidDagPb pe))
  /\ (forall v block k e k', lk_continue_walk X v block k = (Err e, k') ->
     (forall c, lookup_error_source e = Some c <-> exists pe, c = ByProtobuf pe /\ unparsable X block pe)
     /\ resolve_error_source (into_resolve_error e) = lookup_error_source e).
Proof.
  intros X. 
  assert (Pt : forall needle ls nth found work e, partition X nth ls needle found work = Err e -> lookup_error_source e = None).
  { intros needle. induction ls as [|l ls IH]; intros nth found work e E; cbn [partition] in E; [discriminate E|].
    assert (Cv : forall e, map_err LInvalidCid (try_convert_cid X nth l) = Err e -> lookup_error_source e = None).
    { intros e0 Q. apply map_err_err in Q as (i & _ & ->). reflexivity. }
    apply bind_err in E as [E|(hit & _ & E)].
    - destruct (2 <? _); [|discriminate E]. apply bind_err in E as [E|(? & _ & E)]; [|discriminate E]. unfold str_from in E. destruct (is_char_boundary _ _); discriminate E.
    - destruct hit; [destruct found as [first|]|].
      + injection E as <-. reflexivity.
      + apply bind_err in E as [E|(c & _ & E)]; [exact (Cv _ E)|exact (IH _ _ _ _ E)].
      + destruct (blen _ =? 2); [|exact (IH _ _ _ _ E)]. apply bind_err in E as [E|(c & _ & E)]; [exact (Cv _ E)|exact (IH _ _ _ _ E)]. }
  assert (Keep : forall e, resolve_error_source (RLookup e) = lookup_error_source e) by (intros [m|i|t|s|[p|]]; reflexivity).
  assert (Pl : forall ls needle e, resolve_plain X ls needle = Err e -> resolve_error_source e = None).
  { intros ls needle e E. unfold resolve_plain in E. destruct (matching 0 ls needle) as [|[i l] [|[j l2] m]]; try discriminate E.
    - apply bind_err in E as [E|(c & _ & E)]; [|discriminate E]. apply map_err_err in E as (z & _ & ->). reflexivity.
    - apply bind_err in E as [E|(c & _ & E)]; [apply map_err_err in E as (z & _ & ->); reflexivity|]. injection E as <-. reflexivity. }
  split.
  - intros b needle k e k' E c. unfold resolve in E. destruct (try_parse (ext_dbg X) b) as [f|pf| |] eqn:P; try discriminate E.
    + assert (Q : resolve_error_source e = None).
      { destruct (u_type (f_data f)); try (injection E as <- _; reflexivity).
        - destruct (check_directory_supported f) as [f'|p| |]; try discriminate E; injection E as E _; [exact (Pl _ _ _ E)|subst; reflexivity].
        - unfold lookup_or_start in E. destruct (check_supported f) as [u|x| |]; try discriminate E.
          + destruct (conclude _ _ _) as [r k2] eqn:Cn. injection E as E _. apply map_err_err in E as (y & -> & ->).
            apply conclude_err in Cn. rewrite Keep. exact (Pt _ _ _ _ _ _ Cn).
          + injection E as <- _. reflexivity. }
      rewrite Q. split; [discriminate|]. intros (pe & _ & R). discriminate.
    + destruct pf as [pe|n|pe n].
      * injection E as <- _. cbn [resolve_error_source]. split; [intros [= <-]; eauto|]. intros (pe' & -> & [= ->]). reflexivity.
      * injection E as E _. rewrite (Pl _ _ _ E). split; [discriminate|]. intros (pe & _ & R). discriminate.
      * injection E as E _. rewrite (Pl _ _ _ E). split; [discriminate|]. intros (pe' & _ & R). discriminate.
  - intros v b k e k' E. split; [|apply Keep]. intros c. unfold lk_continue_walk in E. destruct (lk_links v) as [|c0 links]; [discriminate E|].
    unfold unparsable. destruct (try_parse (ext_dbg X) b) as [f|pf| |] eqn:P; try discriminate E.
    + assert (Q : lookup_error_source e = None).
      { destruct (is_hamt _); [|injection E as <- _; reflexivity]. destruct (check_supported f); try discriminate E; [|injection E as <- _; reflexivity].
        apply conclude_err in E. exact (Pt _ _ _ _ _ _ E). }
      rewrite Q. split; [discriminate|]. intros (pe & _ & [R|[n R]]); discriminate.
    + destruct pf as [pe|n|pe n]; injection E as <- _; cbn [lookup_error_source].
      * split; [intros [= <-]; eauto|]. intros (pe' & -> & [[= ->]|[n [= ]]]). reflexivity.
      * split; [discriminate|]. intros (pe & _ & [R|[n' R]]); discriminate.
      * split; [intros [= <-]; exists pe; split; [reflexivity|right; eauto]|]. intros (pe' & -> & [[= ]|[n' [= -> ]]]). reflexivity.
Qed.
Print Assumptions C79_dir.
(** The message of an error ends with the message of its source. *)
Theorem C79_told : forall F,
  (forall e c, parse_failed_source e = Some c -> exists before, parse_failed_text F e = before ++ cause_text F c)
  /\ (forall e c, read_failed_source e = Some c -> exists before, read_failed_text F e = before ++ cause_text F c)
  /\ (forall e c, lookup_error_source e = Some c -> exists before, lookup_error_text F e = before ++ cause_text F c)
  /\ (forall e c, resolve_error_source e = Some c -> exists before, resolve_error_text F e = before ++ cause_text F c)
  /\ (forall e c, invalid_cid_source e = Some c -> exists before, invalid_cid_text F e = before ++ cause_text F c).
Proof.
  intros F. split; [|split; [|split; [|split]]].
  - intros [e|n|e n] c [= <-]; eexists; reflexivity.
  - intros [e|t|[e|]|e] c [= <-]; [eexists; reflexivity|exists []; reflexivity].
  - intros [m|i|t|s|[e|]] c [= <-]. eexists. reflexivity.
  - intros [t|p|e|[m|i|t|s|[e|]]] c [= <-]; eexists; reflexivity.
  - intros e c [= <-]. unfold invalid_cid_text. eexists. rewrite !app_assoc. reflexivity.
Qed.
Print Assumptions C79_told.
(** Errors of walks have no source; only the message tells the protobuf error of
    a block that cannot be parsed (again unless a block of a file is refused for
    its place). *)
Theorem C79_walk : forall F X w block k e w' k' pe, walk_next X w block k = (Err e, w', k') -> unparsable X block pe ->
  walk_error_source e = None
  /\ ((exists before, walk_error_text F e = before ++ t_protobuf F pe) \/ exists fe, e = EFile fe).
Proof.
  intros F X w b k e w' k' pe E U. split; [reflexivity|].
  assert (Rest : (match try_parse (ext_dbg X) b with Ok _ => False | Err x => e = walk_parse_error x | _ => False end) ->
    exists before, walk_error_text F e = before ++ t_protobuf F pe).
  { unfold unparsable in U. destruct U as [U|[n U]]; rewrite U; intros ->; eexists; reflexivity. }
  assert (P : exists x, try_parse (ext_dbg X) b = Err x) by (destruct U as [U|[n U]]; eauto). destruct P as [x P].
  unfold walk_next in E. rewrite P in E, Rest.
  assert (In_file : forall ie v size, next_in_file X w ie v size b k = (Err e, w', k') -> exists fe, e = EFile fe).
  { intros ie v size Q. unfold next_in_file in Q. destruct (continue_walk X v b k) as [r k0] eqn:C.
    destruct (walk_read r) as [[bs step]|e0| |] eqn:RR; try discriminate Q. injection Q as <- _ _.
    destruct r as [z|e1| |]; cbn [walk_read] in RR; try discriminate.
    apply continue_fails in C as [[Cc [[f Pf]|[fe ->]]]|(pf & Pf & ->)].
    - rewrite P in Pf. discriminate.
    - injection RR as <-. eauto.
    - destruct pf; cbn [read_failed_of] in RR; discriminate. }
  destruct (w_current w) as [[c0 kd p0 md0 d0]|]; [destruct kd as [| | | | |[v|] size|]|];
    try (left; apply Rest; injection E as <- _ _; reflexivity). right. exact (In_file _ _ _ E).
Qed.
Print Assumptions C79_walk.

(** the block [ff] is cut within its first tag; the link of the second block has
    no Cid *)
Definition cut_block : bytes := [xff].
Definition bad_link_block : bytes := [x12; x07; x0a; x00; x12; x01; x61; x18; x01; x0a; x06; x08; x02; x18; x01; x20; x01].
Example C79_nonvacuous : forall X,
  (exists pe, unparsable X cut_block pe /\ (exists e, visit_start X None cut_block = Err e /\ read_failed_source e = Some (ByProtobuf pe))
     /\ exists e k', resolve X cut_block [x61] None = (Err e, k') /\ resolve_error_source e = Some (ByProtobuf pe))
  /\ (ext_cid_decode X [] = None -> visit_start X None bad_link_block = Err (InvalidCid (InvalidCidInLink 0 [] [x61]))).
Proof.
  intros [sha dec dbg]. split.
  - destruct dbg; eexists; (split; [left; vm_compute; reflexivity|]); (split; [eexists; split; vm_compute; reflexivity|do 2 eexists; split; vm_compute; reflexivity]).
  - cbn [ext_cid_decode]. intros D.
    assert (P : try_parse dbg bad_link_block = Ok (Flat [PBLink (Some []) (Some [x61]) (Some 1)] (UnixFs File None (Some 1) [1] None None None None))) by (destruct dbg; vm_compute; reflexivity).
    unfold visit_start, from_block. cbn [ext_dbg]. rewrite P. vm_compute. rewrite D. reflexivity.
Qed.
