(** * Property C45: which types of blocks a walk refuses
    (/repo/src/walk.rs 120-306, 638-667).  How the type of a block is decoded is
    in PropertiesLax.v. *)
From Verif Require Import Base Tac Wire Utf8 Cid Sha256 Pb Reader Visit Visit_proofs Dir Walk SpecFile SpecWalk.
From Verif Require Import Walk_proofs Walk_sim Walk_steps Walk_thms Walk_safe.

(** *** Which failures are about unsupported types *)
Lemma push_no_type convert t : (forall n l, convert n l <> Err (EUnsupportedType t)) ->
  forall ls pending, fst (push_links convert ls pending) <> Err (EUnsupportedType t).
Proof.
  intros H. induction ls as [|[n l] ls IH]; intros pending; cbn; [discriminate|].
  pose proof (H n l) as Hn. destruct (convert n l); cbn [fst]; [apply IH|congruence|discriminate|discriminate].
Qed.
Lemma entry_no_type X ie k c name depth md t : as_entry X ie k c name depth md <> Err (EUnsupportedType t).
Proof.
  unfold as_entry, set_path, dassert, assert. destruct (in_file _); [discriminate|].
  assert (P : forall d p, pop_to d depth p <> Err (EUnsupportedType t)).
  { induction d as [|d IH]; intros p; cbn [pop_to]; [discriminate|]. destruct (_ <=? _)%nat; [|discriminate].
    destruct (path_pop p); cbn [unwrap bind]; [apply IH|discriminate]. }
  assert (Q : forall b : bool, (if b then Ok tt else Panic : outcome walk_error unit) <> Err (EUnsupportedType t)) by (intros []; discriminate).
  pose proof (P (ie_depth ie) (ie_path ie)) as P'.
  destruct (ext_dbg X); [destruct (_ =? _)%nat; [|discriminate]|]; cbn [bind];
    (destruct (pop_to _ _ _); cbn [bind]; [|congruence|discriminate|discriminate]); [|discriminate].
  destruct (_ =? _)%nat; discriminate.
Qed.
Lemma bucket_no_type ie c name depth t : as_bucket ie c name depth <> Err (EUnsupportedType t).
Proof.
  assert (P : forall d p, pop_bucket d depth p <> Err (EUnsupportedType t)).
  { induction d as [|d IH]; intros p; cbn [pop_bucket]; destruct (_ <? _)%nat; try discriminate.
    destruct (path_pop p); cbn [unwrap bind]; [apply IH|discriminate]. }
  unfold as_bucket, assert. pose proof (P (ie_depth ie) (ie_path ie)) as P'.
  destruct (ie_kind ie) as [| | | | |[v|] ?|] eqn:K; try discriminate.
  1: destruct (_ =? _)%nat; discriminate.
  all: destruct (is_nil name); cbn [bind]; [|discriminate]; destruct (pop_bucket _ _ _); cbn [bind]; [|congruence|discriminate|discriminate];
    destruct (_ =? _)%nat; discriminate.
Qed.
Lemma target_no_type X n l t : link_target X n l <> Err (EUnsupportedType t).
Proof. unfold link_target. destruct (try_convert_cid X n l); discriminate. Qed.
Lemma link_no_type X d n l t : convert_link X d n l <> Err (EUnsupportedType t).
Proof.
  unfold convert_link, assert. pose proof (target_no_type X n l t). destruct (link_target X n l); cbn [bind]; [|congruence|discriminate|discriminate].
  destruct (l_name l) as [[|x s]|]; cbn [bind]; try discriminate. destruct (negb _); discriminate.
Qed.
Lemma slink_no_type X d d' n l t : convert_sharded_link X d d' n l <> Err (EUnsupportedType t).
Proof.
  unfold convert_sharded_link, assert. pose proof (target_no_type X n l t). destruct (link_target X n l); cbn [bind]; [|congruence|discriminate|discriminate].
  destruct (l_name l) as [s|]; cbn [bind]; try discriminate. destruct (2 <? blen s).
  - unfold str_from. destruct (is_char_boundary _ _); cbn [bind fst snd]; try discriminate. destruct (negb _); discriminate.
  - destruct (blen s =? 2); cbn [bind fst snd]; discriminate.
Qed.

Lemma finish_no_type w links convert entry k t : (forall n l, convert n l <> Err (EUnsupportedType t)) ->
  entry <> Err (EUnsupportedType t) -> fst (fst (finish_dir w links convert entry k)) <> Err (EUnsupportedType t).
Proof.
  intros H1 H2. unfold finish_dir. pose proof (push_no_type convert t H1 (enumerate_rev links) (w_pending w)) as H.
  destruct (push_links convert (enumerate_rev links) (w_pending w)) as [r p]. cbn [fst] in H. destruct r; cbn [fst]; try congruence.
  destruct p; destruct entry as [[? ?]|e| |]; cbn [fst]; congruence.
Qed.
Lemma read_no_type {A} (r : outcome read_failed A) t : walk_read r <> Err (EUnsupportedType t).
Proof. destruct r as [| [] | |]; discriminate. Qed.

(** only blocks of type Metadata are called unsupported *)
Lemma unsupported_metadata X w b k t : fst (fst (walk_next X w b k)) = Err (EUnsupportedType t) ->
  t = Metadata /\ exists f, try_parse (ext_dbg X) b = Ok f /\ u_type (f_data f) = Metadata.
Proof.
  assert (F : forall ie v size, fst (fst (next_in_file X w ie v size b k)) <> Err (EUnsupportedType t)).
  { intros ie v size. unfold next_in_file. destruct (continue_walk X v b k) as [r k']. pose proof (read_no_type r t) as H.
    destruct (walk_read r) as [[? ?]|e| |]; cbn [fst]; congruence. }
  destruct (match w_current w with Some ie => in_file (ie_kind ie) | None => false end) eqn:IF.
  { unfold walk_next. destruct (w_current w) as [[ic [| | | | |[v|] sz|] ip im id]|]; try discriminate IF. intros H. destruct (F _ _ _ H). }
  assert (NF : forall ie, w_current w = Some ie -> in_file (ie_kind ie) = false) by (intros ie E; rewrite E in IF; exact IF).
  destruct (try_parse (ext_dbg X) b) as [f|e| |] eqn:P.
  2,3,4: unfold walk_next; rewrite P; destruct (w_current w) as [[ic [| | | | |[v|] sz|] ip im id]|]; try discriminate IF;
    cbn [failed fst]; try discriminate; destruct e; discriminate.
  rewrite (next_not_file X w b k NF f P). intros H.
  destruct (u_type (f_data f)) eqn:T; [exfalso|exfalso|exfalso| |exfalso|exfalso]; revert H.
  1,3: destruct (start_from_parsed X idle_default f k) as [r k']; pose proof (read_no_type r t) as H;
    destruct (walk_read r) as [[[[bs size] md] st]|e| |]; cbn [failed fst]; try congruence;
    destruct (w_next w) as [[[c name] depth]|]; cbn [failed fst]; try discriminate;
    destruct (w_current w) as [ie|];
    [pose proof (entry_no_type X ie (KFile st size) c name depth md t) as H1; destruct (as_entry _ _ _ _ _ _ _); cbn [failed fst]; try congruence|];
    destruct (w_pending w); cbn [fst]; discriminate.
  - destruct (check_directory_supported f); cbn [failed fst]; try discriminate.
    destruct (w_next w) as [[[c name] depth]|]; cbn [failed fst]; try discriminate.
    apply finish_no_type; [intros; apply link_no_type|]. destruct (w_current w) as [ie|]; [|discriminate].
    pose proof (entry_no_type X ie KDirectory c name depth (metadata_of (f_data f)) t) as H1. destruct (as_entry _ _ _ _ _ _ _); cbn [bind]; congruence.
  - cbn [failed fst]. intros [= <-]. split; [reflexivity|]. exists f. auto.
  - destruct (w_next w) as [[[c name] depth]|]; cbn [failed fst]; try discriminate.
    destruct (w_current w) as [ie|];
    [pose proof (entry_no_type X ie KSymlink c name depth (metadata_of (f_data f)) t) as H1; destruct (as_entry _ _ _ _ _ _ _); cbn [failed fst]; try congruence|];
    destruct (w_pending w); cbn [fst]; discriminate.
  - destruct (check_supported f); cbn [failed fst]; try discriminate.
    destruct (w_next w) as [[[c name] depth]|]; cbn [failed fst]; try discriminate.
    apply finish_no_type; [intros; apply slink_no_type|]. destruct (w_current w) as [ie|]; [|discriminate].
    destruct (is_nil name).
    + pose proof (bucket_no_type ie c name depth t) as H1. destruct (as_bucket _ _ _ _); cbn [bind]; congruence.
    + pose proof (entry_no_type X ie KRootBucket c name depth (metadata_of (f_data f)) t) as H1. destruct (as_entry _ _ _ _ _ _ _); cbn [bind]; congruence.
Qed.

(** in the middle of a file, the last item was a segment of it, not the last one *)
Definition mid_file (items : list continued) : Prop :=
  exists before bs first c path md size, items = before ++ [WFile (FileSegment bs first false) c path md size].
Lemma next_mid_file X w b k it w' k' : clean_cache k -> walk_next X w b k = (Ok it, w', k') ->
  match w_current w' with Some ie => in_file (ie_kind ie) | None => false end = true ->
  exists bs first c path md size, it = WFile (FileSegment bs first false) c path md size.
Proof.
  intros K H. apply next_inv in H; [|exact K]. destruct H as [ie v size out st C KI CW|f d name0 depth ie it new NF P N E].
  - cbn. destruct st as [v'|]; [|discriminate]. intros _. eauto 7.
  - cbn [w_current]. intros IF.
    destruct E as [new Cu T Sd F|ie0 ie new Cu T Sd F E|new Cu T Sd F|ie0 ie new Cu T Sd F Hn E|ie0 ie new Cu T Sd F Hn E|ie out size st T S E|ie T E]; cbn in IF; try discriminate IF.
    1,2: apply as_entry_fields in E as (_ & _ & E & _); rewrite E in IF; discriminate IF.
    + apply as_bucket_fields in E as [(E & -> & _)|(_ & _ & E & _)]; rewrite E in IF; discriminate IF.
    + destruct st as [v'|]; [eauto 7|]. destruct (w_current w) as [ie0|]; [|subst ie; discriminate IF].
      apply as_entry_fields in E as (_ & _ & E & _); rewrite E in IF; discriminate IF.
    + destruct (w_current w) as [ie0|]; [|subst ie; discriminate IF].
      apply as_entry_fields in E as (_ & _ & E & _); rewrite E in IF; discriminate IF.
Qed.
Lemma walks_mid_file X gives w0 bs asked items w : walks X gives w0 bs asked items w ->
  match w_current w with Some ie => in_file (ie_kind ie) | None => false end = true ->
  items = [] /\ w = w0 \/ mid_file items.
Proof.
  induction 1 as [w|w c others b k k' it w1 bs asked items w2 SC PL G K N H IH]; intros IF; [auto|]. right.
  destruct (IH IF) as [[-> ->]|(before & o & fi & c' & p & md & z & ->)].
  - destruct (next_mid_file _ _ _ _ _ _ _ K N IF) as (o & fi & c' & p & md & z & ->). exists [], o, fi, c', p, md, z. reflexivity.
  - exists (it :: before), o, fi, c', p, md, z. reflexivity.
Qed.

(** C45, for walks: at any point of a walk over any blocks a block is refused as
    unsupported only if its type is Metadata, and a block of this type is always
    refused: in this way unless it is taken for a further block of a file. *)
Theorem C45_walk : forall X root name bs asked items w b k,
  walks X anything (walker_new root name) bs asked items w -> should_continue w = true ->
  (forall t w' k', walk_next X w b k = (Err (EUnsupportedType t), w', k') ->
     t = Metadata /\ exists f, try_parse (ext_dbg X) b = Ok f /\ u_type (f_data f) = Metadata)
  /\ (forall f, try_parse (ext_dbg X) b = Ok f -> u_type (f_data f) = Metadata ->
     exists e w' k', walk_next X w b k = (Err e, w', k')
     /\ (e = EUnsupportedType Metadata
         \/ exists before o first c path md size, items = before ++ [WFile (FileSegment o first false) c path md size])).
Proof.
  intros X root name bs asked items w b k H SC. split.
  { intros t w' k' E. apply (unsupported_metadata X w b k). rewrite E. reflexivity. }
  intros f P T. destruct (match w_current w with Some ie => in_file (ie_kind ie) | None => false end) eqn:IF.
  - pose proof (walks_mid_file _ _ _ _ _ _ _ H IF) as [[_ ->]|M]; [discriminate IF|].
    pose proof (wfw_walks X _ _ _ _ _ _ H (wfw_start _ _)) as W. destruct (wfw_pending _ W SC) as (c & others & PL).
    unfold walk_next. unfold w_pending_links in PL. destruct (w_current w) as [[ic [| | | | |[v|] sz|] ip im id]|]; try discriminate IF.
    cbn in PL. destruct (pending_links v) as [[c0 o0]|e| |] eqn:PV; try discriminate PL.
    apply pending_links_ok in PV as (r0 & rest0 & PV & _). unfold next_in_file, continue_walk. rewrite PV.
    assert (R : exists e, (forall e', e <> ReadErr e') /\ tr_continue_walk X (fv_state v) b r0 = Err e).
    { unfold tr_continue_walk. destruct (check_is_suitable_next _ _ _); [eexists; split; [|reflexivity]; discriminate|].
      unfold from_continued. rewrite P. cbn [map_err bind]. destruct (u_mode _); [eexists; split; [|reflexivity]; discriminate|].
      destruct (u_mtime _); [eexists; split; [|reflexivity]; discriminate|]. unfold from_parts. rewrite T. eexists; split; [|reflexivity]; discriminate. }
    destruct R as (e & NR & ->). destruct e as [fe|t|re|ie]; cbn [walk_read]; try (eexists _, _, _; split; [reflexivity|right; exact M]).
    destruct (NR re eq_refl).
  - assert (NF : forall ie, w_current w = Some ie -> in_file (ie_kind ie) = false) by (intros ie E; rewrite E in IF; exact IF).
    rewrite (next_not_file X w b k NF f P), T. unfold failed. eexists _, _, _. split; [reflexivity|auto].
Qed.
Print Assumptions C45_walk.

(** a block of type Metadata as the root *)
Example C45_walk_nonvacuous : forall X, exists b f root,
  walks X anything (walker_new root []) [] [] [] (walker_new root []) /\ should_continue (walker_new root []) = true
  /\ try_parse (ext_dbg X) b = Ok f /\ u_type (f_data f) = Metadata.
Proof.
  intros X. exists [x0a; x02; x08; x03], (Flat [] (UnixFs Metadata None None [] None None None None)), (Cid true 112 0 []).
  split; [constructor|]. split; [reflexivity|]. split; [|reflexivity]. destruct (ext_dbg X); vm_compute; reflexivity.
Qed.
