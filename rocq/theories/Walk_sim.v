(** * Walk_sim: the walker does what SpecWalk says, step by step *)
From Verif Require Import Base Tac Wire Utf8 SpecText Text_proofs Cid Pb Reader Visit Dir Walk SpecFile SpecDir SpecWalk
  Visit_proofs Visit_thms Dir_proofs Walk_proofs Walk_paths.

Section sim.
Context (X : ext) (get : cid -> option bytes).
Notation dbg := (ext_dbg X).

Lemma says_metadata u : says u = metadata_of u.
Proof. unfold says, metadata_of. destruct (u_mtime u) as [[s [n|]]|]; reflexivity. Qed.

(** ** Files *)

(** what is left of a file: the bytes of the blocks to come *)
Inductive file_left : file_visit -> list bytes -> Prop :=
| left_last : forall v c others b out,
    pending_links v = Ok (c, others) -> get c = Some b ->
    fst (continue_walk X v b None) = Ok (out, None) -> file_left v [out]
| left_next : forall v c others b out v' more,
    pending_links v = Ok (c, others) -> get c = Some b ->
    fst (continue_walk X v b None) = Ok (out, Some v') -> file_left v' more -> file_left v (out :: more).
Definition left_of (ov : option file_visit) (more : list bytes) : Prop :=
  match ov with None => more = [] | Some v => file_left v more end.

Lemma file_left_nonempty v more : file_left v more -> more <> [].
Proof. intros H. destruct H; discriminate. Qed.

Lemma continues_left v bs asked out : continues X (store get) v bs asked out None ->
  exists more, file_left v more /\ concat more = out.
Proof.
  remember (@None file_visit) as ov eqn:E. intros H.
  induction H as [v|v c o b k k' out v' bs asked o2 ov Hp Hg Hc H1 IH|v c o b k k' out Hp Hg Hc]; subst.
  - discriminate.
  - destruct (IH eq_refl) as (more & L & <-). exists (out :: more). split; [|reflexivity].
    eapply left_next; [exact Hp|exact Hg| |exact L]. rewrite (Visit_proofs.continue_cache X v b None k), Hc. reflexivity.
  - exists [out]. split; [|cbn; apply app_nil_r]. eapply left_last; [exact Hp|exact Hg|].
    rewrite (Visit_proofs.continue_cache X v b None k), Hc. reflexivity.
Qed.

(** the blocks of a file: the first one, and those after it *)
Definition file_blocks (c : cid) (md : metadata) (content : bytes) (pieces : list bytes) : Prop :=
  exists b f out ov more, get c = Some b /\ try_parse dbg b = Ok f
    /\ fst (start_from_parsed X None f None) = Ok (out, blen content, md, ov)
    /\ left_of ov more /\ pieces = out :: more /\ concat pieces = content.

Lemma start_parsed_visit t b f : try_parse dbg b = Ok f ->
  visit_start X t b = fst (start_from_parsed X t f None).
Proof.
  intros H. unfold visit_start, from_block, start_from_parsed, from_parsed. rewrite H. cbn [map_err bind].
  destruct (from_parts X f 0 (metadata_of (f_data f))); reflexivity.
Qed.

Lemma dag_blocks c b f content : get c = Some b -> try_parse dbg b = Ok f -> file_dag X get f content ->
  blen content < two64 ->
  (u_type (f_data f) = File \/ u_type (f_data f) = Raw)
  /\ exists pieces, file_blocks c (says (f_data f)) content pieces.
Proof.
  intros Hg Hp Hd Hl. pose proof (root_reads X get None b f content Hp Hd Hl) as R.
  rewrite sl_none in R by exact Hl.
  assert (T : plain_file (f_data f) /\ u_filesize (f_data f) = Some (blen content)) by (destruct Hd; auto).
  destruct T as [T Tsz]. split; [apply T|].
  destruct R as (bs & asked & R).
  inversion R as [r0 o s m St|r0 o s m v b1 a1 o2 ov St C]; subst.
  - pose proof (start_ok _ _ _ _ _ _ _ St) as (f0 & e & Hp0 & _ & _ & -> & Hsz & _). rewrite Hp in Hp0. injection Hp0 as <-.
    unfold fs_of in Hsz. rewrite Tsz in Hsz. injection Hsz as <-.
    exists [content]. eexists b, f, content, None, []. rewrite says_metadata. rewrite <- (start_parsed_visit None b f Hp).
    split; [exact Hg|]. split; [exact Hp|]. split; [exact St|]. split; [reflexivity|]. split; [reflexivity|]. cbn. apply app_nil_r.
  - pose proof (start_ok _ _ _ _ _ _ _ St) as (f0 & e & Hp0 & _ & _ & -> & Hsz & _). rewrite Hp in Hp0. injection Hp0 as <-.
    unfold fs_of in Hsz. rewrite Tsz in Hsz. injection Hsz as <-.
    apply continues_left in C as (more & L & <-).
    exists (o :: more). eexists b, f, o, (Some v), more. rewrite says_metadata. rewrite <- (start_parsed_visit None b f Hp).
    split; [exact Hg|]. split; [exact Hp|]. split; [exact St|]. split; [exact L|]. split; reflexivity.
Qed.

(** ** Reports *)

Fixpoint later (c : cid) (p : bytes) (md : metadata) (size : N) (more : list bytes) : list continued :=
  match more with
  | [] => []
  | x :: rest => WFile (FileSegment x false (is_nil rest)) c p md size :: later c p md size rest
  end.
Definition segments_of (c : cid) (p : bytes) (md : metadata) (size : N) (pieces : list bytes) : list continued :=
  match pieces with
  | [] => []
  | x :: rest => WFile (FileSegment x true (is_nil rest)) c p md size :: later c p md size rest
  end.

(** like [reported], for the blocks of the store *)
Inductive emits : seen -> list continued -> Prop :=
| em_root : forall c p md, emits (SeenRootDirectory c p md) [WRootDirectory c p md]
| em_dir : forall c p md, emits (SeenDirectory c p md) [WDirectory c p md]
| em_file : forall c p md content pieces, file_blocks c md content pieces ->
    emits (SeenFile c p md content) (segments_of c p md (blen content) pieces)
| em_symlink : forall c p md target, emits (SeenSymlink c p md target) [WSymlink target c p md]
| em_bucket : forall c p, emits (SeenBucket c p) [WBucket c p].

Lemma later_nth c p md size more : length (later c p md size more) = length more
  /\ forall i piece, nth_error more i = Some piece ->
     nth_error (later c p md size more) i
     = Some (WFile (FileSegment piece false (Nat.eqb (Datatypes.S i) (length more))) c p md size).
Proof.
  induction more as [|x more [IH1 IH2]]; [split; [reflexivity|intros [|i] piece H; discriminate]|].
  cbn [later length]. split; [lia|]. intros [|i] piece H; cbn in H |- *.
  - injection H as ->. destruct more; reflexivity.
  - rewrite (IH2 i piece H). reflexivity.
Qed.

Lemma emits_reported e items : emits e items -> reported e items.
Proof.
  intros H. destruct H as [| |c p md content pieces H| |]; try constructor.
  destruct H as (b & f & out & ov & more & _ & _ & _ & _ & -> & Hc).
  destruct (later_nth c p md (blen content) more) as [L1 L2].
  exists (out :: more). split; [discriminate|]. split; [exact Hc|]. split; [cbn [segments_of length]; f_equal; exact L1|].
  intros [|i] piece H; cbn in H |- *.
  - injection H as ->. eexists. split; [reflexivity|]. cbn. split; [reflexivity|]. split; [tauto|].
    destruct more; cbn; split; (reflexivity || discriminate || lia).
  - rewrite (L2 i piece H). eexists. split; [reflexivity|]. cbn [as_bytes is_first is_last seg_bytes seg_first seg_last].
    split; [reflexivity|]. split; [split; discriminate|]. rewrite Nat.eqb_eq. cbn [length]. split; [intros E; f_equal; exact E|intros E; injection E; auto].
Qed.
Lemma all_mono (P Q : seen -> list continued -> Prop) evs items :
  (forall e its, P e its -> Q e its) -> all P evs items -> all Q evs items.
Proof. intros H A. induction A; constructor; auto. Qed.
Lemma all_app_ex (P : seen -> list continued -> Prop) evs : Forall (fun e => exists its, P e its) evs -> exists items, all P evs items.
Proof.
  intros H. induction H as [|e evs [its He] _ [items IH]]; [exists []; constructor|]. exists (its ++ items). constructor; assumption.
Qed.

(** every sight of a stored tree can be emitted *)
Scheme stored_mind := Minimality for stored Sort Prop
with stored_entries_mind := Minimality for stored_entries Sort Prop
with stored_items_mind := Minimality for stored_items Sort Prop.
Combined Scheme stored_mutind from stored_mind, stored_entries_mind, stored_items_mind.

Lemma stored_emits :
  (forall c n, stored X get c n -> forall root p, Forall (fun e => exists its, emits e its) (sights root p c n))
  /\ (forall ls es, stored_entries X get ls es -> forall p,
        Forall (fun e => exists its, emits e its)
          (flat_map (fun e => sights false (child p (fst (fst e))) (snd (fst e)) (snd e)) es))
  /\ (forall ls its, stored_items X get ls its -> forall p,
        Forall (fun e => exists its, emits e its) (flat_map (item_sights p) its)).
Proof.
  apply stored_mutind; intros; cbn [sights item_sights flat_map fst snd].
  - constructor; [|constructor]. destruct (dag_blocks c b f content H H0 H1 H2) as [_ [pieces P]].
    eexists. apply em_file. exact P.
  - constructor; [|constructor]. eexists. constructor.
  - constructor; [|apply H3]. destruct root; eexists; constructor.
  - constructor; [|apply H3]. eexists; constructor.
  - constructor.
  - apply Forall_app. auto.
  - constructor.
  - apply Forall_app. auto.
  - constructor; [eexists; constructor|]. apply Forall_app. auto.
Qed.

(** ** The links still to be followed *)

(** an entry called [name], or a bucket, of the directory with the path [pc] *)
Inductive ob :=
| OEntry (pc : list bytes) (name : bytes) (c : cid) (n : fsnode)
| OBucket (pc : list bytes) (c : cid) (its : list shard_item).
Definition opc (o : ob) : list bytes := match o with OEntry pc _ _ _ => pc | OBucket pc _ _ => pc end.
Definition enc (o : ob) : walk_link :=
  match o with
  | OEntry pc name c _ => (c, name, Datatypes.S (Datatypes.S (length pc)))
  | OBucket pc c _ => (c, [], Datatypes.S (length pc))
  end.
Definition ob_sights (o : ob) : list seen :=
  match o with
  | OEntry pc name c n => sights false (unparts (pc ++ [name])) c n
  | OBucket pc c its => SeenBucket c (unparts pc) :: flat_map (item_sights (unparts pc)) its
  end.
Definition ob_ok (o : ob) : Prop :=
  path_names (opc o) /\
  match o with
  | OEntry pc name c n => loose_name name /\ stored X get c n
  | OBucket _ c its => exists b f, get c = Some b /\ try_parse dbg b = Ok f /\ supported_shard (f_data f)
                         /\ stored_items X get (f_links f) its
  end.
Definition all_sights (os : list ob) : list seen := flat_map ob_sights os.

Definition entry_obs (cs : list bytes) (es : list (bytes * cid * fsnode)) : list ob :=
  map (fun e => OEntry cs (fst (fst e)) (snd (fst e)) (snd e)) es.
Definition item_obs (cs : list bytes) (its : list shard_item) : list ob :=
  map (fun it => match it with ShEntry nm c n => OEntry cs nm c n | ShBucket c sub => OBucket cs c sub end) its.

Lemma entry_obs_sights cs es : path_names cs ->
  all_sights (entry_obs cs es)
  = flat_map (fun e => sights false (child (unparts cs) (fst (fst e))) (snd (fst e)) (snd e)) es.
Proof.
  intros H. unfold all_sights, entry_obs. induction es as [|e es IH]; [reflexivity|]. cbn [map flat_map].
  rewrite IH. cbn [ob_sights]. rewrite child_snoc by exact H. reflexivity.
Qed.
Lemma item_obs_sights cs its : path_names cs ->
  all_sights (item_obs cs its) = flat_map (item_sights (unparts cs)) its.
Proof.
  intros H. unfold all_sights, item_obs. induction its as [|it its IH]; [reflexivity|]. cbn [map flat_map].
  rewrite IH. destruct it; cbn [ob_sights item_sights]; [rewrite child_snoc by exact H|]; reflexivity.
Qed.
Lemma entry_obs_ok cs ls es : path_names cs -> stored_entries X get ls es -> Forall ob_ok (entry_obs cs es).
Proof. intros H S. induction S; constructor; [|assumption]. split; [exact H|]. split; assumption. Qed.
Lemma item_obs_ok cs ls its : path_names cs -> stored_items X get ls its -> Forall ob_ok (item_obs cs its).
Proof.
  intros H S. induction S; [constructor| |]; constructor; try assumption.
  - split; [exact H|]. split; assumption.
  - split; [exact H|]. exists b, f. auto.
Qed.
Lemma entry_obs_pc cs es : Forall (fun o => opc o = cs) (entry_obs cs es).
Proof. unfold entry_obs. apply Forall_map, Forall_forall. reflexivity. Qed.
Lemma item_obs_pc cs its : Forall (fun o => opc o = cs) (item_obs cs its).
Proof. unfold item_obs. apply Forall_map, Forall_forall. intros [|] _; reflexivity. Qed.

(** ** Pushing links *)

Lemma push_links_app convert a b pending : push_links convert (a ++ b) pending
  = match push_links convert a pending with (Ok _, p) => push_links convert b p | r => r end.
Proof.
  revert pending. induction a as [|[i l] a IH]; intros pending; cbn [app push_links]; [reflexivity|].
  destruct (convert i l); [apply IH| | |]; reflexivity.
Qed.
Lemma push_links_all convert ls es : Forall2 (fun l e => forall i, convert i l = Ok e) ls es ->
  forall n pending, push_links convert (rev (combine (seq n (length ls)) ls)) pending = (Ok tt, es ++ pending).
Proof.
  intros H. induction H as [|l e ls es Hl _ IH]; intros n pending; [reflexivity|].
  cbn [length seq combine rev]. rewrite push_links_app, IH. cbn [push_links]. rewrite Hl. reflexivity.
Qed.

Lemma link_target_ok i l c : link_cid X l = Some c -> link_target X i l = Ok c.
Proof.
  intros H. unfold link_target, try_convert_cid. unfold link_cid in H.
  replace (opt (l_hash l) [] (fun h => h)) with (match l_hash l with Some h => h | None => [] end) by (destruct (l_hash l); reflexivity).
  rewrite H. reflexivity.
Qed.

Lemma entries_convert cs ls es : stored_entries X get ls es ->
  Forall2 (fun l e => forall i, convert_link X (Datatypes.S (Datatypes.S (length cs))) i l = Ok e) ls (map enc (entry_obs cs es)).
Proof.
  intros H. induction H as [|l name c n ls es Hn Hp Hc _ _ IH]; constructor; [|exact IH].
  intros i. unfold convert_link. rewrite (link_target_ok i l c Hc), Hn. cbn [bind fst snd enc].
  destruct Hp as (N1 & N3). destruct name as [|x name]; [congruence|]. cbn [bind].
  rewrite (proj2 (existsb_slash _) N3). reflexivity.
Qed.

Lemma items_convert cs ls its : stored_items X get ls its ->
  Forall2 (fun l e => forall i, convert_sharded_link X (Datatypes.S (Datatypes.S (length cs))) (Datatypes.S (length cs)) i l = Ok e)
    ls (map enc (item_obs cs its)).
Proof.
  intros H. induction H as [|l prefix name c n ls its Hn Hl Hp Hu Hc _ _ IH|l prefix c b f sub ls its Hn Hl Hc Hg Hb Hs _ _ _ IH];
    constructor; try exact IH; intros i; unfold convert_sharded_link; rewrite (link_target_ok i l c Hc), Hn; cbn [bind enc].
  - destruct Hp as (N1 & N3).
    assert (L : 2 <? blen (prefix ++ name) = true).
    { apply N.ltb_lt. unfold blen. rewrite app_length, Hl. destruct name; [congruence|]. cbn [length]. lia. }
    rewrite L, (Dir_proofs.str_from_2 X prefix name Hl N1 (proj2 (valid_text _) Hu)). cbn [bind snd fst]. rewrite (proj2 (existsb_slash _) N3). reflexivity.
  - unfold blen. rewrite Hl. reflexivity.
Qed.

(** ** Paths *)

Definition at_path (ie : inner_entry) (cs : list bytes) : Prop :=
  ie_path ie = unparts cs /\ ie_depth ie = Datatypes.S (length cs).

Lemma as_entry_ok ie cs pc e k c name md : at_path ie cs -> in_file (ie_kind ie) = false ->
  path_names cs -> cs = pc ++ e -> path_names (pc ++ [name]) ->
  as_entry X ie k c name (Datatypes.S (Datatypes.S (length pc))) md
  = Ok (InnerEntry c k (unparts (pc ++ [name])) md (Datatypes.S (Datatypes.S (length pc)))).
Proof.
  intros [P D] K H -> H2. unfold as_entry. rewrite K. unfold set_path. rewrite P, D.
  pose proof (ancestors_plain _ H) as A.
  assert (D1 : forall b, b = true -> @dassert walk_error dbg b = Ok tt) by (intros b ->; unfold dassert; destruct dbg; reflexivity).
  rewrite D1 by (rewrite A; apply Nat.eqb_refl). cbn [bind].
  rewrite (pop_to_plain _ pc e H eq_refl). cbn [bind].
  rewrite (push_snoc pc name H2), D1; [reflexivity|]. rewrite (ancestors_plain _ H2), app_length. cbn [length].
  apply Nat.eqb_eq. lia.
Qed.

(** an entry called "." of another directory than the first one *)
Lemma as_entry_dot ie cs pc e k c md : at_path ie cs -> in_file (ie_kind ie) = false ->
  path_names cs -> cs = pc ++ e -> pc <> [] ->
  as_entry X ie k c dot (Datatypes.S (Datatypes.S (length pc))) md
  = if dbg then Panic else Ok (InnerEntry c k (unparts (pc ++ [dot])) md (Datatypes.S (Datatypes.S (length pc)))).
Proof.
  intros [P D] K H -> NE. unfold as_entry. rewrite K. unfold set_path. rewrite P, D.
  pose proof (ancestors_plain _ H) as A.
  assert (D1 : forall b, b = true -> @dassert walk_error dbg b = Ok tt) by (intros b ->; unfold dassert; destruct dbg; reflexivity).
  rewrite D1 by (rewrite A; apply Nat.eqb_refl). cbn [bind].
  rewrite (pop_to_plain _ pc e H eq_refl). cbn [bind].
  pose proof (proper_path _ (path_app _ _ H)) as Pr.
  cbv zeta. pose proof (ancestors_trailing pc dot NE Pr (or_intror eq_refl)) as AT.
  pose proof (push_seg1 pc dot (proj1 Pr) seg_dot) as PS. rewrite <- PS in AT |- *. rewrite AT.
  unfold dassert. destruct dbg; [|reflexivity].
  replace (Nat.eqb _ _) with false; [reflexivity|]. symmetry. apply Nat.eqb_neq. lia.
Qed.

Lemma as_bucket_ok ie cs pc e c : at_path ie cs ->
  match ie_kind ie with KRootBucket | KBucket | KFile None _ | KSymlink => True | _ => False end ->
  path_names cs -> cs = pc ++ e ->
  as_bucket ie c [] (Datatypes.S (length pc))
  = Ok (InnerEntry c KBucket (unparts pc) (ie_metadata ie) (Datatypes.S (length pc))).
Proof.
  intros [P D] K H ->. unfold as_bucket. rewrite P, D.
  assert (B : forall r, r = pop_bucket (Datatypes.S (length (pc ++ e))) (Datatypes.S (length pc)) (unparts (pc ++ e)) ->
    (do _ <- assert (is_nil (@nil byte)); do pd <- r; do _ <- assert (snd pd =? Datatypes.S (length pc))%nat;
     Ok (InnerEntry c KBucket (fst pd) (ie_metadata ie) (snd pd)))
    = Ok (E := walk_error) (InnerEntry c KBucket (unparts pc) (ie_metadata ie) (Datatypes.S (length pc)))).
  { intros r ->. rewrite (pop_bucket_plain _ pc e H eq_refl). cbn [is_nil assert bind snd fst].
    rewrite Nat.eqb_refl. reflexivity. }
  destruct (ie_kind ie) as [| | | | |[v|] sz|]; try contradiction; apply B; reflexivity.
Qed.

End sim.
