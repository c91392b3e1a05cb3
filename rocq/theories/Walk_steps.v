(** * Walk_steps: the invariant of walks over stored trees *)
From Verif Require Import Base Tac Wire Utf8 Cid Pb Reader Visit Dir Walk SpecFile SpecDir SpecWalk
  Dir_proofs Visit_proofs Visit_thms Walk_proofs Walk_paths Walk_sim.

Section steps.
Context (X : ext) (get : cid -> option bytes).
Notation dbg := (ext_dbg X).
Notation emits := (emits X get).
Notation ob_ok := (ob_ok X get).

(** ** Sights *)

Definition no_bucket (evs : list seen) : Prop := forall c p rest, evs <> SeenBucket c p :: rest.

Lemma sights_head root p c n : no_bucket (sights root p c n) /\ sights root p c n <> [].
Proof. destruct n; cbn [sights]; [| |destruct root|]; split; try discriminate; intros ? ? ?; discriminate. Qed.
Lemma no_bucket_app a b : no_bucket a -> a <> [] -> no_bucket (a ++ b).
Proof. destruct a as [|e a]; [congruence|]. intros H _ c p rest E. injection E as -> _. eapply H. reflexivity. Qed.
Lemma relabel_id c evs : no_bucket evs -> relabel c evs = evs.
Proof. intros H. destruct evs as [|[] evs]; try reflexivity. exfalso. eapply H. reflexivity. Qed.

Definition spaced (evs : list seen) : Prop :=
  forall pre c p md c' p' post, evs <> pre ++ SeenDirectory c p md :: SeenBucket c' p' :: post.
Lemma spaced_tail e evs : spaced (e :: evs) -> spaced evs.
Proof. intros H pre c p md c' p' post ->. apply (H (e :: pre) c p md c' p' post). reflexivity. Qed.

Lemma all_inv (P : seen -> list continued -> Prop) e evs items : all P (e :: evs) items ->
  exists its items', P e its /\ all P evs items' /\ items = its ++ items'.
Proof. intros H. inv H. eauto. Qed.
Lemma emits_nonempty e its : emits e its -> its <> [].
Proof. intros H. destruct H as [| |c p md content pieces H| |]; try discriminate. destruct H as (b & f & out & ov & more & _ & _ & _ & _ & -> & _). discriminate. Qed.
Lemma all_nil_iff evs items : all emits evs items -> (items = [] <-> evs = []).
Proof.
  intros H. destruct H as [|e its evs items' He _]; [tauto|]. split; [|discriminate]. intros E.
  apply app_eq_nil in E as [E _]. exfalso. eapply emits_nonempty; eassumption.
Qed.

(** ** Chains *)

Fixpoint chain (cs : list bytes) (os : list ob) : Prop :=
  match os with
  | [] => True
  | o :: os => (exists e, cs = opc o ++ e) /\ chain (opc o) os
  end.
Lemma chain_longer pc e os : chain pc os -> chain (pc ++ e) os.
Proof. destruct os as [|o os]; [auto|]. intros [[e2 ->] H]. split; [|exact H]. exists (e2 ++ e). rewrite app_assoc. reflexivity. Qed.
Lemma chain_app cs new os : Forall (fun o => opc o = cs) new -> chain cs os -> chain cs (new ++ os).
Proof.
  intros H C. induction H as [|o new Ho _ IH]; [exact C|]. cbn [app chain]. rewrite Ho. split; [|exact IH].
  exists []. symmetry. apply app_nil_r.
Qed.

(** ** Walkers *)

Definition shape (ie : inner_entry) (os : list ob) (cont : bool) : walker :=
  Walker (Some ie) (hd_error (map enc os)) (tl (map enc os)) cont.

(** the sights as they will be told when [k] and [c] are the current kind and Cid *)
Definition told (k : inner_kind) (c : cid) (evs : list seen) : list seen :=
  match k with KBucketAtRoot => relabel c evs | _ => evs end.

Definition mid_ok (ie : inner_entry) (cs : list bytes) (os : list ob) : Prop :=
  at_path ie cs /\ path_names cs /\ Forall ob_ok os /\ chain cs os.

Definition is_dir_kind (k : inner_kind) : bool := match k with KDirectory => true | _ => false end.
Definition is_wdir (it : continued) : bool := match it with WDirectory _ _ _ => true | _ => false end.
Definition is_wbucket (it : continued) : bool := match it with WBucket _ _ => true | _ => false end.

(** the flag: the last item was a [WDirectory] *)
Inductive Inv : walker -> bool -> list continued -> Prop :=
| inv_start : forall c name cs n rest,
    (cs = [] /\ name = [] \/ cs = [name] /\ loose_name name) -> stored X get c n ->
    all emits (as_told (sights true (unparts cs) c n)) rest ->
    Inv (walker_new c name) false rest
| inv_mid : forall ie cs os rest,
    mid_ok ie cs os -> in_file (ie_kind ie) = false ->
    (ie_kind ie = KRootDirectory -> no_bucket (all_sights os)) ->
    (ie_kind ie = KBucketAtRoot -> Forall (fun o => opc o = cs) os) ->
    all emits (told (ie_kind ie) (ie_cid ie) (all_sights os)) rest ->
    Inv (shape ie os (negb (is_nil os))) (is_dir_kind (ie_kind ie)) rest
| inv_file : forall ie cs os v size more rest,
    mid_ok ie cs os -> ie_kind ie = KFile (Some v) size -> file_left X get v more ->
    all emits (all_sights os) rest ->
    Inv (shape ie os true) false (later (ie_cid ie) (ie_path ie) (ie_metadata ie) size more ++ rest).

(** one step of a walk on which nothing is called "." *)
Definition steps_well (w : walker) (dir : bool) (it : continued) (rest : list continued) : Prop :=
  should_continue w = true /\
  exists c others b, w_pending_links w = Ok (c, others) /\ get c = Some b /\
    forall k, clean_cache k ->
      if dir && is_wbucket it then fst (fst (walk_next X w b k)) = Panic
      else exists w' k', walk_next X w b k = (Ok it, w', k') /\ Inv w' (is_wdir it) rest.

(** one step of a walk *)
Definition blocked (dir : bool) (it : continued) : Prop :=
  dir && is_wbucket it = true \/ dbg = true /\ dotted (path_told it).
Definition steps_to (w : walker) (dir : bool) (it : continued) (rest : list continued) : Prop :=
  should_continue w = true /\
  exists c others b, w_pending_links w = Ok (c, others) /\ get c = Some b /\
    forall k, clean_cache k ->
      (blocked dir it -> fst (fst (walk_next X w b k)) = Panic)
      /\ (~ blocked dir it -> exists w' k', walk_next X w b k = (Ok it, w', k') /\ (~ dotted (path_told it) -> Inv w' (is_wdir it) rest)).
Lemma well_to w dir it rest : ~ dotted (path_told it) -> steps_well w dir it rest -> steps_to w dir it rest.
Proof.
  intros ND (SC & c & others & b & PL & G & H). split; [exact SC|]. exists c, others, b. split; [exact PL|]. split; [exact G|].
  intros k Hk. specialize (H k Hk). destruct (dir && is_wbucket it) eqn:E.
  - split; [intros _; exact H|]. intros NB. exfalso. apply NB. left. exact E.
  - split; [intros [B|[_ B]]; [congruence|contradiction]|]. intros _. destruct H as (w' & k' & H1 & H2). eauto.
Qed.

(** finishing a directory *)
Lemma finish_dir_ok w links convert ie item k new os :
  Forall2 (fun l e => forall i, convert i l = Ok e) links (map enc new) -> w_pending w = map enc os ->
  finish_dir w links convert (Ok (ie, item)) k
  = (Ok item, shape ie (new ++ os) (negb (is_nil (new ++ os))), k).
Proof.
  intros H P. unfold finish_dir, enumerate_rev. rewrite (push_links_all _ _ _ H 0), P, <- map_app.
  destruct (new ++ os) as [|o os2]; reflexivity.
Qed.

Lemma parent_mid ie cs os o pc : mid_ok ie cs (o :: os) -> opc o = pc ->
  (exists e, cs = pc ++ e) /\ chain pc os /\ path_names pc /\ Forall ob_ok os /\ ob_ok o.
Proof.
  intros (A & P & O & C) <-. cbn [chain] in C. destruct C as [C1 C2]. inv O. split; [exact C1|]. split; [exact C2|].
  split; [apply H1|]. split; assumption.
Qed.

Lemma clean_opt k : clean_cache k -> opt k [] (fun i : cache => i) = opt None [] (fun i => i).
Proof. intros [-> | ->]; reflexivity. Qed.

(** the first block of a file *)
Lemma start_file c md content pieces b f k : file_blocks X get c md content pieces -> clean_cache k ->
  get c = Some b -> try_parse dbg b = Ok f ->
  exists out ov more k', start_from_parsed X idle_default f k = (Ok (out, blen content, md, ov), k')
    /\ left_of X get ov more /\ pieces = out :: more.
Proof.
  intros (b0 & f0 & out & ov & more & G & P & St & L & -> & _) K G2 P2. rewrite G in G2. injection G2 as ->.
  rewrite P in P2. injection P2 as ->. rewrite <- (start_cache X None f k None (clean_opt k K)) in St.
  unfold idle_default. destruct (start_from_parsed X None f k) as [r k'] eqn:E. cbn in St. subst r.
  exists out, ov, more, k'. auto.
Qed.

Lemma left_nil ov more : left_of X get ov more -> is_nil more = match ov with None => true | Some _ => false end.
Proof. destruct ov; cbn; [|intros ->; reflexivity]. intros H. destruct more; [exfalso; eapply file_left_nonempty; eauto|reflexivity]. Qed.

(** the invariant after a file has been entered *)
Lemma inv_after_file c path depth md cs content ov more os rest cont :
  left_of X get ov more ->
  mid_ok (InnerEntry c (KFile ov (blen content)) path md depth) cs os ->
  all emits (all_sights os) rest ->
  cont = (match ov with Some _ => true | None => false end || negb (is_nil os)) ->
  Inv (shape (InnerEntry c (KFile ov (blen content)) path md depth) os cont) false (later c path md (blen content) more ++ rest).
Proof.
  intros L M A ->. destruct ov as [v|]; cbn [orb].
  - change (Inv (shape (InnerEntry c (KFile (Some v) (blen content)) path md depth) os true) false
      (later (ie_cid (InnerEntry c (KFile (Some v) (blen content)) path md depth))
             (ie_path (InnerEntry c (KFile (Some v) (blen content)) path md depth))
             (ie_metadata (InnerEntry c (KFile (Some v) (blen content)) path md depth)) (blen content) more ++ rest)).
    eapply inv_file; [exact M|reflexivity|exact L|exact A].
  - cbn in L. subst more. cbn [later app].
    eapply (inv_mid (InnerEntry c (KFile None (blen content)) path md depth)); [exact M|reflexivity|discriminate|discriminate|exact A].
Qed.

Lemma next_not_file w block k : (forall ie, w_current w = Some ie -> in_file (ie_kind ie) = false) ->
  forall f, try_parse dbg block = Ok f ->
  walk_next X w block k =
  match u_type (f_data f) with
  | Directory =>
    match check_directory_supported f with
    | Ok f0 =>
      match w_next w with
      | None => failed w Panic k
      | Some (c, name, depth) =>
        finish_dir w (f_links f0) (convert_link X (Datatypes.S depth))
          (match w_current w with
           | None => Ok (new_root KRootDirectory c (metadata_of (f_data f)) name depth,
                         WRootDirectory c (path_push [] name) (metadata_of (f_data f)))
           | Some ie => do ie <- as_entry X ie KDirectory c name depth (metadata_of (f_data f));
                        Ok (ie, WDirectory (ie_cid ie) (ie_path ie) (ie_metadata ie))
           end) k
      end
    | Err p => failed w (Err (EDirectory p)) k
    | Panic => failed w Panic k
    | Diverge => failed w Diverge k
    end
  | HAMTShard =>
    match check_supported f with
    | Ok _ =>
      match w_next w with
      | None => failed w Panic k
      | Some (c, name, depth) =>
        finish_dir w (f_links f) (convert_sharded_link X (Datatypes.S depth) depth)
          (match w_current w with
           | None => Ok (new_root KBucketAtRoot c (metadata_of (f_data f)) name depth,
                         WRootDirectory c (path_push [] name) (metadata_of (f_data f)))
           | Some ie =>
             if is_nil name then
               do ie <- as_bucket ie c name depth; Ok (ie, WBucket (ie_cid ie) (ie_path ie))
             else
               do ie <- as_entry X ie KRootBucket c name depth (metadata_of (f_data f));
               Ok (ie, WRootDirectory (ie_cid ie) (ie_path ie) (ie_metadata ie))
           end) k
      end
    | Err e => failed w (Err (EShard e)) k
    | Panic => failed w Panic k
    | Diverge => failed w Diverge k
    end
  | Raw | File =>
    let '(r, k') := start_from_parsed X idle_default f k in
    match walk_read r with
    | Ok (bs, size, md, step) =>
      match w_next w with
      | None => failed w Panic k'
      | Some (c, name, depth) =>
        let continues := match step with Some _ => true | None => false end in
        match match w_current w with
              | None => Ok (new_root (KFile step size) c md name depth)
              | Some ie => as_entry X ie (KFile step size) c name depth md
              end with
        | Ok ie =>
          let '(next, pending) :=
            match w_pending w with
            | [] => (None, [])
            | n :: pending => (Some n, pending)
            end in
          let more := match next with Some _ => true | None => false end in
          (Ok (WFile (FileSegment bs true (negb continues)) (ie_cid ie) (ie_path ie) (ie_metadata ie) size),
           Walker (Some ie) next pending (continues || more), k')
        | Err e => failed w (Err e) k'
        | Panic => failed w Panic k'
        | Diverge => failed w Diverge k'
        end
      end
    | Err e => failed w (Err e) k'
    | Panic => failed w Panic k'
    | Diverge => failed w Diverge k'
    end
  | Metadata => failed w (Err (EUnsupportedType Metadata)) k
  | Symlink =>
    match w_next w with
    | None => failed w Panic k
    | Some (c, name, depth) =>
      match match w_current w with
            | None => Ok (new_root KSymlink c (metadata_of (f_data f)) name depth)
            | Some ie => as_entry X ie KSymlink c name depth (metadata_of (f_data f))
            end with
      | Ok ie =>
        let '(next, pending, cont) :=
          match w_pending w with
          | [] => (None, [], false)
          | n :: pending => (Some n, pending, true)
          end in
        (Ok (WSymlink (opt (u_data (f_data f)) [] (fun d => d)) (ie_cid ie) (ie_path ie) (ie_metadata ie)),
         Walker (Some ie) next pending cont, k)
      | Err e => failed w (Err e) k
      | Panic => failed w Panic k
      | Diverge => failed w Diverge k
      end
    end
  end.
Proof.
  intros H f P. unfold walk_next. rewrite P.
  destruct (w_current w) as [[ic [| | | | |[v|] sz|] ip im id]|] eqn:E; try reflexivity.
  specialize (H _ eq_refl). cbn in H. discriminate H.
Qed.

(** leaf-like steps: what happens to the stack *)
Lemma pop_shape os : forall T (g : option walk_link -> list walk_link -> bool -> T) ,
  (let '(next, pending, c) := match map enc os with [] => (None, [], false) | n :: pending => (Some n, pending, true) end in g next pending c)
  = g (hd_error (map enc os)) (tl (map enc os)) (negb (is_nil os)).
Proof. intros. destruct os; reflexivity. Qed.

Lemma root_facts (cs : list bytes) (name : bytes) : cs = [] /\ name = [] \/ cs = [name] /\ loose_name name ->
  path_push [] name = unparts cs /\ (if is_nil name then 1%nat else 2%nat) = Datatypes.S (length cs) /\ path_names cs.
Proof.
  intros [[-> ->]|[-> H]]; [repeat split; constructor|].
  split; [apply (push_snoc [] name), path_one, H|].
  split; [destruct name; [destruct H; congruence|reflexivity]|]. apply path_one, H.
Qed.

Lemma all_single e items : all emits [e] items -> emits e items.
Proof. intros H. apply all_inv in H as (its & items' & E & A & ->). inv A. rewrite app_nil_r. exact E. Qed.

Lemma own_data_opt f : opt (u_data (f_data f)) [] (fun d => d) = own_data f.
Proof. unfold own_data. destruct (u_data (f_data f)); reflexivity. Qed.

Ltac nnf b k f H :=
  match goal with |- context [walk_next X ?w b k] =>
    let NF := fresh in
    assert (NF : forall ie, w_current w = Some ie -> in_file (ie_kind ie) = false);
    [cbn [w_current shape]; try discriminate; let E := fresh in intros ? E; injection E as <-; assumption
    |rewrite (next_not_file w b k NF f H); clear NF]
  end.

Lemma step_start c name cs n it rest :
  (cs = [] /\ name = [] \/ cs = [name] /\ loose_name name) -> stored X get c n ->
  all emits (as_told (sights true (unparts cs) c n)) (it :: rest) ->
  steps_well (walker_new c name) false it rest.
Proof.
  intros Hn St A. destruct (root_facts cs name Hn) as (R1 & R2 & R3). split; [reflexivity|].
  exists c, []. unfold walker_new. rewrite R2.
  inv St; exists b; (split; [reflexivity|]); (split; [assumption|]); intros k Hk.
  - destruct (dag_blocks X get c b f content H H0 H1 H2) as [T _]. cbn [sights as_told] in A.
    apply all_single in A. inversion A as [| |c0 p0 md0 ct0 pieces FB| |]; subst.
    destruct (start_file _ _ _ _ _ _ k FB Hk H H0) as (out & ov & more & k' & S1 & L & ->).
    injection H7 as <- <-.
    nnf b k f H0; rewrite S1. unfold new_root. cbn [walk_read w_next w_current w_pending ie_cid ie_path ie_metadata].
    rewrite (left_nil ov more L), R1.
    exists (shape (InnerEntry c (KFile ov (blen content)) (unparts cs) (says (f_data f)) (Datatypes.S (length cs))) []
             (match ov with Some _ => true | None => false end || false)), k'.
    split; [destruct T as [-> | ->]; destruct ov; reflexivity|].
    rewrite <- (app_nil_r (later _ _ _ _ _)). eapply inv_after_file with (cs := cs); [exact L| |constructor|reflexivity].
    split; [split; reflexivity|]. split; [exact R3|]. split; [constructor|]. exact Logic.I.
  - cbn [sights as_told] in A. apply all_single in A. inv A.
    nnf b k f H0; rewrite H1. unfold new_root. cbn [w_next w_current w_pending ie_cid ie_path ie_metadata].
    rewrite own_data_opt, R1, <- says_metadata.
    eexists _, k. split; [reflexivity|].
    eapply (inv_mid (InnerEntry c KSymlink (unparts cs) (says (f_data f)) (Datatypes.S (length cs))) cs []); try reflexivity.
    + split; [split; reflexivity|]. split; [exact R3|]. split; [constructor|]. exact Logic.I.
    + discriminate.
    + discriminate.
    + constructor.
  - pose proof H1 as (T & _). destruct (check_dir_ok f T) as [[_ C]|[C _]]; [|contradiction].
    cbn [sights as_told] in A. rewrite <- (entry_obs_sights cs es R3) in A.
    assert (NB : no_bucket (all_sights (entry_obs cs es))).
    { unfold all_sights. destruct es as [|e es]; [intros ? ? ? ?; discriminate|]. cbn [entry_obs map flat_map ob_sights].
      apply no_bucket_app; apply sights_head. }
    rewrite relabel_id in A by exact NB.
    apply all_inv in A as (its0 & items' & E & A & Eq). inv E. injection Eq as -> ->.
    nnf b k f H0; rewrite T, C. cbn [w_next w_current].
    rewrite (finish_dir_ok _ _ _ _ _ _ (entry_obs cs es) []); [|apply (entries_convert X get), H2|reflexivity].
    rewrite app_nil_r, R1, <- says_metadata. unfold new_root. rewrite R1.
    eexists _, k. split; [reflexivity|].
    eapply (inv_mid (InnerEntry c KRootDirectory (unparts cs) (says (f_data f)) (Datatypes.S (length cs))) cs); try reflexivity.
    + split; [split; reflexivity|]. split; [exact R3|]. split; [eapply entry_obs_ok; eassumption|].
      rewrite <- (app_nil_r (entry_obs cs es)). apply chain_app; [apply entry_obs_pc|exact Logic.I].
    + intros _. exact NB.
    + discriminate.
    + exact A.
  - pose proof H1 as (T & _). destruct (check_shard_ok f T) as [[_ C]|[C _]]; [|contradiction].
    cbn [sights as_told] in A. rewrite <- (item_obs_sights cs its R3) in A.
    apply all_inv in A as (its0 & items' & E & A & Eq). inv E. injection Eq as -> ->.
    nnf b k f H0; rewrite T, C. cbn [w_next w_current].
    rewrite (finish_dir_ok _ _ _ _ _ _ (item_obs cs its) []); [|apply (items_convert X get), H2|reflexivity].
    rewrite app_nil_r, R1, <- says_metadata. unfold new_root. rewrite R1.
    eexists _, k. split; [reflexivity|].
    eapply (inv_mid (InnerEntry c KBucketAtRoot (unparts cs) (says (f_data f)) (Datatypes.S (length cs))) cs); try reflexivity.
    + split; [split; reflexivity|]. split; [exact R3|]. split; [eapply item_obs_ok; eassumption|].
      rewrite <- (app_nil_r (item_obs cs its)). apply chain_app; [apply item_obs_pc|exact Logic.I].
    + discriminate.
    + intros _. apply item_obs_pc.
    + exact A.
Qed.


Lemma told_nobucket k c evs : no_bucket evs -> told k c evs = evs.
Proof. intros H. destruct k; cbn; try reflexivity. apply relabel_id, H. Qed.

Lemma all_sights_cons o os : all_sights (o :: os) = ob_sights o ++ all_sights os.
Proof. reflexivity. Qed.
Lemma all_sights_app a b : all_sights (a ++ b) = all_sights a ++ all_sights b.
Proof. unfold all_sights. apply flat_map_app. Qed.

Lemma pending_mid ie o os : in_file (ie_kind ie) = false ->
  w_pending_links (shape ie (o :: os) true) = Ok (link_cid_of (enc o), map link_cid_of (map enc os)).
Proof.
  intros K. unfold w_pending_links, shape. cbn [w_current w_next w_pending option_map map hd_error tl].
  destruct (ie_kind ie) as [| | | | |[v|] sz|]; try reflexivity. discriminate.
Qed.

(** entering a node of the tree *)
Lemma mid_new c k path md depth cs new os : path = unparts cs -> depth = Datatypes.S (length cs) ->
  path_names cs -> Forall ob_ok new -> Forall ob_ok os -> Forall (fun o => opc o = cs) new -> chain cs os ->
  mid_ok (InnerEntry c k path md depth) cs (new ++ os).
Proof.
  intros -> -> P N O E C. split; [split; reflexivity|]. split; [exact P|]. split; [apply Forall_app; auto|].
  apply chain_app; assumption.
Qed.

Lemma step_entry ie cs pc name c n os it rest :
  mid_ok ie cs (OEntry pc name c n :: os) -> in_file (ie_kind ie) = false ->
  all emits (all_sights (OEntry pc name c n :: os)) (it :: rest) -> path_names (pc ++ [name]) ->
  forall dir, steps_well (shape ie (OEntry pc name c n :: os) true) dir it rest.
Proof.
  intros M K A Hname dir. split; [reflexivity|]. rewrite (pending_mid _ _ _ K). cbn [enc link_cid_of fst].
  exists c, (map link_cid_of (map enc os)).
  destruct (parent_mid ie cs os _ pc M eq_refl) as ([e Ecs] & Cos & Ppc & Oos & (_ & Hloose & St)).
  pose proof M as (AP & Pcs & _ & _).
  assert (AE : forall k md, as_entry X ie k c name (Datatypes.S (Datatypes.S (length pc))) md
    = Ok (InnerEntry c k (unparts (pc ++ [name])) md (Datatypes.S (Datatypes.S (length pc)))))
    by (intros; eapply as_entry_ok; eassumption).
  pose proof Hname as Pn.
  assert (Len : Datatypes.S (Datatypes.S (length pc)) = Datatypes.S (length (pc ++ [name]))) by (rewrite app_length; cbn; lia).
  assert (Cn : chain (pc ++ [name]) os) by (apply chain_longer, Cos).
  rewrite all_sights_cons in A. cbn [ob_sights] in A.
  assert (NN : is_nil name = false) by (destruct (path_last _ _ Hname) as [Hn _]; destruct name; [congruence|reflexivity]).
  inv St; exists b; (split; [reflexivity|]); (split; [assumption|]); intros k Hk.
  - destruct (dag_blocks X get c b f content H H0 H1 H2) as [T _]. cbn [sights app] in A.
    apply all_inv in A as (its0 & items' & E & A & Eq). inversion E as [| |c0 p0 md0 ct0 pieces FB| |]; subst.
    destruct (start_file _ _ _ _ _ _ k FB Hk H H0) as (out & ov & more & k' & S1 & L & ->).
    cbn [segments_of app] in Eq. injection Eq as -> ->. cbn [is_wbucket is_wdir]. rewrite andb_false_r.
    nnf b k f H0; rewrite S1. cbn [walk_read w_next w_current w_pending shape map hd_error tl enc]. rewrite AE.
    cbn [ie_cid ie_path ie_metadata]. rewrite (left_nil ov more L).
    exists (shape (InnerEntry c (KFile ov (blen content)) (unparts (pc ++ [name])) (says (f_data f)) (Datatypes.S (Datatypes.S (length pc)))) os
             (match ov with Some _ => true | None => false end || negb (is_nil os))), k'.
    split; [destruct T as [-> | ->]; destruct ov, os; reflexivity|].
    eapply inv_after_file with (cs := pc ++ [name]); [exact L| |exact A|reflexivity].
    apply (mid_new _ _ _ _ _ (pc ++ [name]) [] os); auto.
  - cbn [sights app] in A. apply all_inv in A as (its0 & items' & E & A & Eq). inv E. injection Eq as -> ->. cbn [is_wbucket is_wdir]. rewrite andb_false_r.
    nnf b k f H0; rewrite H1. cbn [w_next w_current w_pending shape map hd_error tl enc]. rewrite AE.
    cbn [ie_cid ie_path ie_metadata]. rewrite own_data_opt, <- says_metadata, pop_shape.
    eexists _, k. split; [reflexivity|].
    eapply (inv_mid (InnerEntry c KSymlink (unparts (pc ++ [name])) (says (f_data f)) (Datatypes.S (Datatypes.S (length pc)))) (pc ++ [name]) os); try reflexivity.
    + apply (mid_new _ _ _ _ _ (pc ++ [name]) [] os); auto.
    + discriminate.
    + discriminate.
    + exact A.
  - pose proof H1 as (T & _). destruct (check_dir_ok f T) as [[_ C]|[C _]]; [|contradiction].
    cbn [sights app] in A. rewrite <- (entry_obs_sights (pc ++ [name]) es Pn), <- all_sights_app in A.
    apply all_inv in A as (its0 & items' & E & A & Eq). inv E. injection Eq as -> ->. cbn [is_wbucket is_wdir]. rewrite andb_false_r.
    nnf b k f H0; rewrite T, C. cbn [w_next w_current shape map hd_error tl enc]. rewrite AE. cbn [bind ie_cid ie_path ie_metadata].
    rewrite (finish_dir_ok _ _ _ _ _ _ (entry_obs (pc ++ [name]) es) os); [|rewrite Len; apply (entries_convert X get), H2|reflexivity].
    rewrite <- says_metadata.
    eexists _, k. split; [reflexivity|]. 
    eapply (inv_mid (InnerEntry c KDirectory (unparts (pc ++ [name])) (says (f_data f)) (Datatypes.S (Datatypes.S (length pc)))) (pc ++ [name])); try reflexivity.
    + apply mid_new; auto; [eapply entry_obs_ok; eassumption|apply entry_obs_pc].
    + discriminate.
    + discriminate.
    + exact A.
  - pose proof H1 as (T & _). destruct (check_shard_ok f T) as [[_ C]|[C _]]; [|contradiction].
    cbn [sights app] in A. rewrite <- (item_obs_sights (pc ++ [name]) its Pn), <- all_sights_app in A.
    apply all_inv in A as (its0 & items' & E & A & Eq). inv E. injection Eq as -> ->. cbn [is_wbucket is_wdir]. rewrite andb_false_r.
    nnf b k f H0; rewrite T, C. cbn [w_next w_current shape map hd_error tl enc]. rewrite NN, AE. cbn [bind ie_cid ie_path ie_metadata].
    rewrite (finish_dir_ok _ _ _ _ _ _ (item_obs (pc ++ [name]) its) os); [|rewrite Len; apply (items_convert X get), H2|reflexivity].
    rewrite <- says_metadata.
    eexists _, k. split; [reflexivity|].
    eapply (inv_mid (InnerEntry c KRootBucket (unparts (pc ++ [name])) (says (f_data f)) (Datatypes.S (Datatypes.S (length pc)))) (pc ++ [name])); try reflexivity.
    + apply mid_new; auto; [eapply item_obs_ok; eassumption|apply item_obs_pc].
    + discriminate.
    + discriminate.
    + exact A.
Qed.

Lemma step_bucket ie cs pc c its os it rest :
  mid_ok ie cs (OBucket pc c its :: os) -> in_file (ie_kind ie) = false ->
  (ie_kind ie = KRootDirectory -> no_bucket (all_sights (OBucket pc c its :: os))) ->
  (ie_kind ie = KBucketAtRoot -> Forall (fun o => opc o = cs) (OBucket pc c its :: os)) ->
  all emits (told (ie_kind ie) (ie_cid ie) (all_sights (OBucket pc c its :: os))) (it :: rest) ->
  steps_well (shape ie (OBucket pc c its :: os) true) (is_dir_kind (ie_kind ie)) it rest.
Proof.
  intros M K NB BR A. split; [reflexivity|]. rewrite (pending_mid _ _ _ K). cbn [enc link_cid_of fst].
  exists c, (map link_cid_of (map enc os)).
  destruct (parent_mid ie cs os _ pc M eq_refl) as ([e Ecs] & Cos & Ppc & Oos & (_ & b & f & Hg & Hp & Hs & St)).
  pose proof M as (AP & Pcs & _ & _).
  exists b. split; [reflexivity|]. split; [exact Hg|]. intros k Hk.
  pose proof Hs as (T & _). destruct (check_shard_ok f T) as [[_ C]|[C _]]; [|contradiction].
  rewrite all_sights_cons in A. cbn [ob_sights app] in A.
  rewrite <- (item_obs_sights pc its Ppc), <- all_sights_app in A.
  nnf b k f Hp; rewrite T, C. cbn [w_next w_current shape map hd_error tl enc is_nil].
  destruct (ie_kind ie) as [| | | | |[v|] sz|] eqn:EK;
    try (exfalso; eapply NB; [auto|]; rewrite all_sights_cons; cbn [ob_sights app]; reflexivity);
    try (discriminate K).
  1: { (* the root itself is sharded and nothing but buckets came so far *)
    specialize (BR eq_refl). apply Forall_cons_iff in BR as [Hpc BR]. cbn [opc] in Hpc. subst pc.
    cbn [told relabel] in A. apply all_inv in A as (its0 & items' & E & A & Eq). inv E. injection Eq as -> ->.
    unfold as_bucket. rewrite EK. destruct AP as [AP1 AP2]. rewrite AP2, Nat.eqb_refl. cbn [assert bind].
    rewrite (finish_dir_ok _ _ _ _ _ _ (item_obs cs its) os); [|apply (items_convert X get), St|reflexivity].
    rewrite AP1. eexists _, k. split; [reflexivity|].
    replace (is_wdir _) with (is_dir_kind (ie_kind ie)) by (rewrite EK; reflexivity).
    eapply (inv_mid ie cs).
    - split; [split; assumption|]. split; [exact Pcs|].
      split; [apply Forall_app; split; [eapply item_obs_ok; eassumption|exact Oos]|].
      apply chain_app; [apply item_obs_pc|exact Cos].
    - rewrite EK. reflexivity.
    - rewrite EK. discriminate.
    - intros _. apply Forall_app. split; [apply item_obs_pc|exact BR].
    - rewrite EK. exact A. }
  all: cbn [told] in A; apply all_inv in A as (its0 & items' & E & A & Eq); inv E; injection Eq as -> ->.
  3: { (* a plain directory came before *)
    cbn [is_dir_kind is_wbucket andb]. unfold as_bucket, finish_dir. rewrite EK. cbn [bind].
    pose proof (push_links_all _ _ _ (items_convert X get pc _ _ St) 0) as PL. unfold enumerate_rev. rewrite PL.
    destruct (map enc (item_obs pc its) ++ _); reflexivity. }
  all: rewrite (as_bucket_ok ie (pc ++ e) pc e c AP) by (try (rewrite EK; exact Logic.I); try exact Pcs; reflexivity).
  all: cbn [bind ie_cid ie_path].
  all: rewrite (finish_dir_ok _ _ _ _ _ _ (item_obs pc its) os); [|apply (items_convert X get), St|reflexivity].
  all: eexists _, k; (split; [reflexivity|]).
  all: eapply (inv_mid (InnerEntry c KBucket (unparts pc) (ie_metadata ie) (Datatypes.S (length pc))) pc);
    [apply mid_new; auto; [eapply item_obs_ok; eassumption|apply item_obs_pc]
    |reflexivity|discriminate|discriminate|exact A].
Qed.

Lemma step_file ie cs os v size more it rest0 rest :
  mid_ok ie cs os -> ie_kind ie = KFile (Some v) size -> file_left X get v more ->
  all emits (all_sights os) rest0 ->
  later (ie_cid ie) (ie_path ie) (ie_metadata ie) size more ++ rest0 = it :: rest ->
  steps_well (shape ie os true) false it rest.
Proof.
  intros M K L A Eq. split; [reflexivity|].
  assert (PL : forall c others, pending_links v = Ok (c, others) -> exists others', w_pending_links (shape ie os true) = Ok (c, others')).
  { intros c others P. unfold w_pending_links, shape. cbn [w_current option_map]. rewrite K, P. eauto. }
  assert (NX : forall b k, walk_next X (shape ie os true) b k = next_in_file X (shape ie os true) ie v size b k).
  { intros b k. unfold walk_next, shape. cbn [w_current]. destruct ie; cbn in K |- *. rewrite K. reflexivity. }
  assert (HN : match hd_error (map enc os) with Some _ => true | None => false end = negb (is_nil os)) by (destruct os; reflexivity).
  destruct M as ([AP1 AP2] & M2).
  inversion L as [v0 c others b out P G C|v0 c others b out v' more' P G C L']; subst;
    destruct (PL c others P) as [others' PL']; exists c, others', b; (split; [exact PL'|]); (split; [exact G|]); intros k Hk;
    rewrite NX; unfold next_in_file; rewrite (Visit_proofs.continue_cache X v b None k) in C;
    destruct (continue_walk X v b k) as [r k'] eqn:CW; cbn in C; subst r; cbn [walk_read]; unfold shape; cbn [w_next w_pending].
  - cbn [later is_nil app] in Eq. injection Eq as <- <-. eexists _, k'. split; [reflexivity|]. rewrite HN. cbn [orb negb].
    eapply (inv_mid (InnerEntry (ie_cid ie) (KFile None size) (ie_path ie) (ie_metadata ie) (ie_depth ie)) cs os);
      [|reflexivity|discriminate|discriminate|exact A].
    split; [split; assumption|exact M2].
  - pose proof (file_left_nonempty _ _ _ _ L') as NE. destruct more' as [|m more']; [congruence|].
    cbn [later is_nil app] in Eq. injection Eq as <- <-. eexists _, k'. split; [reflexivity|]. cbn [orb negb].
    eapply (inv_file (InnerEntry (ie_cid ie) (KFile (Some v') size) (ie_path ie) (ie_metadata ie) (ie_depth ie)) cs os v' size (m :: more'));
      [|reflexivity|exact L'|exact A].
    split; [split; assumption|exact M2].
Qed.

(** ** Paths of items *)

Lemma later_path c p md size more it : In it (later c p md size more) -> path_told it = p.
Proof. induction more as [|x more IH]; [contradiction|]. cbn [later]. intros [<- |H]; [reflexivity|auto]. Qed.
Lemma emits_path e its it : emits e its -> In it its -> path_told it = path_seen e.
Proof.
  intros H Hin. destruct H as [| |c p md content pieces H| |]; try (destruct Hin as [<- |[]]; reflexivity).
  destruct pieces as [|x pieces]; [contradiction|]. cbn [segments_of] in Hin. destruct Hin as [<- |Hin]; [reflexivity|].
  eapply later_path, Hin.
Qed.
Lemma head_path e evs it rest : all emits (e :: evs) (it :: rest) -> path_told it = path_seen e.
Proof.
  intros H. apply all_inv in H as (its & items' & E & _ & Eq). destruct its as [|i its]; [exfalso; eapply emits_nonempty; [exact E|reflexivity]|].
  injection Eq as -> _. eapply emits_path; [exact E|left; reflexivity].
Qed.
Lemma sights_path root p c n : exists e evs, sights root p c n = e :: evs /\ path_seen e = p.
Proof. destruct n; cbn [sights]; [| |destruct root|]; eexists _, _; split; reflexivity. Qed.

(** an entry called "." in another directory than the first one *)
Lemma step_dotted ie cs pc c n os it rest :
  mid_ok ie cs (OEntry pc dot c n :: os) -> in_file (ie_kind ie) = false ->
  all emits (all_sights (OEntry pc dot c n :: os)) (it :: rest) -> pc <> [] ->
  forall dir, steps_to (shape ie (OEntry pc dot c n :: os) true) dir it rest.
Proof.
  intros M K A NE dir. split; [reflexivity|]. rewrite (pending_mid _ _ _ K). cbn [enc link_cid_of fst].
  exists c, (map link_cid_of (map enc os)).
  destruct (parent_mid ie cs os _ pc M eq_refl) as ([e Ecs] & Cos & Ppc & Oos & (_ & Hloose & St)).
  pose proof M as (AP & Pcs & _ & _).
  assert (AE : forall k md, as_entry X ie k c dot (Datatypes.S (Datatypes.S (length pc))) md
    = if dbg then Panic else Ok (InnerEntry c k (unparts (pc ++ [dot])) md (Datatypes.S (Datatypes.S (length pc)))))
    by (intros; eapply as_entry_dot; eassumption).
  rewrite all_sights_cons in A. cbn [ob_sights] in A.
  assert (D : dotted (path_told it)).
  { destruct (sights_path false (unparts (pc ++ [dot])) c n) as (e0 & evs & E & Ep). rewrite E in A. apply head_path in A.
    rewrite A, Ep. apply dotted_end, NE. }
  assert (Len : Datatypes.S (Datatypes.S (length pc)) = Datatypes.S (length (pc ++ [dot]))) by (rewrite app_length; cbn; lia).
  assert (WB : is_wbucket it = false).
  { destruct n; cbn [sights] in A; apply all_inv in A as (its0 & items' & E & _ & Eq); inversion E as [| |c0 p0 md0 ct0 pieces FB| |]; subst;
      try (injection Eq as -> _; reflexivity).
    destruct FB as (b0 & f0 & out & ov & more & _ & _ & _ & _ & -> & _). injection Eq as -> _. reflexivity. }
  assert (BL : blocked dir it <-> dbg = true).
  { unfold blocked. rewrite WB, andb_false_r. split; [intros [Q|[Q _]]; [discriminate|exact Q]|auto]. }
  inv St; exists b; (split; [reflexivity|]); (split; [assumption|]); intros k Hk.
  - destruct (dag_blocks X get c b f content H H0 H1 H2) as [T _]. cbn [sights app] in A.
    apply all_inv in A as (its0 & items' & E & A & Eq). inversion E as [| |c0 p0 md0 ct0 pieces FB| |]; subst.
    destruct (start_file _ _ _ _ _ _ k FB Hk H H0) as (out & ov & more & k' & S1 & L & ->).
    cbn [segments_of app] in Eq. injection Eq as -> ->.
    nnf b k f H0; rewrite S1. cbn [walk_read w_next w_current w_pending shape map hd_error tl enc]. rewrite AE.
    rewrite BL. destruct dbg eqn:DB.
    + split; [|congruence]. intros _. destruct T as [-> | ->]; reflexivity.
    + split; [discriminate|]. intros _. cbn [ie_cid ie_path ie_metadata]. rewrite (left_nil ov more L).
      exists (shape (InnerEntry c (KFile ov (blen content)) (unparts (pc ++ [dot])) (says (f_data f)) (Datatypes.S (Datatypes.S (length pc)))) os
               (match ov with Some _ => true | None => false end || negb (is_nil os))), k'.
      split; [destruct T as [-> | ->]; destruct ov, os; reflexivity|contradiction].
  - cbn [sights app] in A. apply all_inv in A as (its0 & items' & E & A & Eq). inv E. injection Eq as -> ->.
    nnf b k f H0; rewrite H1. cbn [w_next w_current w_pending shape map hd_error tl enc]. rewrite AE.
    rewrite BL. destruct dbg eqn:DB; [split; [reflexivity|congruence]|].
    split; [discriminate|]. intros _. cbn [ie_cid ie_path ie_metadata]. rewrite own_data_opt, <- says_metadata, pop_shape.
    eexists _, k. split; [reflexivity|contradiction].
  - pose proof H1 as (T & _). destruct (check_dir_ok f T) as [[_ C]|[C _]]; [|contradiction].
    cbn [sights app] in A. apply all_inv in A as (its0 & items' & E & A & Eq). inv E. injection Eq as -> ->.
    nnf b k f H0; rewrite T, C. cbn [w_next w_current shape map hd_error tl enc]. rewrite AE.
    rewrite BL. destruct dbg eqn:DB.
    + split; [|congruence]. intros _. cbn [bind]. unfold finish_dir, enumerate_rev.
      rewrite Len, (push_links_all _ _ _ (entries_convert X get (pc ++ [dot]) _ _ H2) 0).
      destruct (map enc (entry_obs (pc ++ [dot]) es) ++ _); reflexivity.
    + split; [discriminate|]. intros _. cbn [bind ie_cid ie_path ie_metadata].
      rewrite (finish_dir_ok _ _ _ _ _ _ (entry_obs (pc ++ [dot]) es) os); [|rewrite Len; apply (entries_convert X get), H2|reflexivity].
      rewrite <- says_metadata. eexists _, k. split; [reflexivity|contradiction].
  - pose proof H1 as (T & _). destruct (check_shard_ok f T) as [[_ C]|[C _]]; [|contradiction].
    cbn [sights app] in A. apply all_inv in A as (its0 & items' & E & A & Eq). inv E. injection Eq as -> ->.
    nnf b k f H0; rewrite T, C. cbn [w_next w_current shape map hd_error tl enc is_nil dot]. fold dot. rewrite AE.
    rewrite BL. destruct dbg eqn:DB.
    + split; [|congruence]. intros _. cbn [bind]. unfold finish_dir, enumerate_rev.
      rewrite Len, (push_links_all _ _ _ (items_convert X get (pc ++ [dot]) _ _ H2) 0).
      destruct (map enc (item_obs (pc ++ [dot]) its) ++ _); reflexivity.
    + split; [discriminate|]. intros _. cbn [bind ie_cid ie_path ie_metadata].
      rewrite (finish_dir_ok _ _ _ _ _ _ (item_obs (pc ++ [dot]) its) os); [|rewrite Len; apply (items_convert X get), H2|reflexivity].
      rewrite <- says_metadata. eexists _, k. split; [reflexivity|contradiction].
Qed.

Lemma inv_step w dir it rest : Inv w dir (it :: rest) -> steps_to w dir it rest.
Proof.
  intros H. inversion H as [c name cs n r Hn St A|ie cs os r M K NB BR A|ie cs os v size more r M K L A Ew Eb Er]; subst.
  - apply well_to; [|eapply step_start; eassumption]. destruct (root_facts cs name Hn) as (_ & _ & R3).
    destruct (sights_path true (unparts cs) c n) as (e & evs & E & Ep). rewrite E in A.
    assert (Q : exists evs', as_told (e :: evs) = e :: evs') by (destruct e; eexists; reflexivity).
    destruct Q as [evs' Q]. rewrite Q in A. apply head_path in A. rewrite A, Ep. apply undotted, R3.
  - destruct os as [|[pc name c n|pc c its] os].
    + cbn in A. destruct (ie_kind ie); inv A.
    + rewrite told_nobucket in A
        by (rewrite all_sights_cons; cbn [ob_sights]; apply no_bucket_app; apply sights_head).
      destruct (parent_mid ie cs os _ pc M eq_refl) as (_ & _ & Ppc & _ & (_ & Hloose & _)).
      destruct (snoc_cases pc name Ppc Hloose) as [P|(NE & -> & D)].
      * apply well_to; [|eapply step_entry; eassumption].
        destruct (sights_path false (unparts (pc ++ [name])) c n) as (e & evs & E & Ep).
        rewrite all_sights_cons in A. cbn [ob_sights] in A. rewrite E in A. apply head_path in A. rewrite A, Ep. apply undotted, P.
      * eapply step_dotted; eassumption.
    + apply well_to; [|eapply step_bucket; eassumption].
      destruct (parent_mid ie cs os _ pc M eq_refl) as (_ & _ & Ppc & _ & _).
      rewrite all_sights_cons in A. cbn [ob_sights app] in A.
      destruct (ie_kind ie); cbn [told relabel] in A; apply head_path in A; rewrite A; apply undotted, Ppc.
  - apply well_to; [|eapply step_file; eassumption]. destruct M as ([AP _] & P & _).
    assert (Hin : In it (later (ie_cid ie) (ie_path ie) (ie_metadata ie) size more)).
    { pose proof (file_left_nonempty _ _ _ _ L) as NE. destruct more; [congruence|]. cbn [later app] in Er. injection Er as <- _. left. reflexivity. }
    rewrite (later_path _ _ _ _ _ _ Hin), AP. apply undotted, P.
Qed.

Lemma inv_end w dir : Inv w dir [] -> should_continue w = false.
Proof.
  intros H. inversion H as [c name cs n r Hn St A|ie cs os r M K NB BR A|ie cs os v size more r M K L A Ew Eb Er]; subst.
  - exfalso. apply all_nil_iff in A. destruct A as [A _]. specialize (A eq_refl).
    destruct (sights_head true (unparts cs) c n) as [_ H1].
    destruct (sights true (unparts cs) c n) as [|[] ?]; try discriminate. congruence.
  - destruct os as [|o os]; [reflexivity|]. exfalso. apply all_nil_iff in A. destruct A as [A _]. specialize (A eq_refl).
    rewrite all_sights_cons in A.
    assert (NE : ob_sights o <> []) by (destruct o; cbn; [apply sights_head|discriminate]).
    destruct (ob_sights o) as [|s l]; [congruence|]. cbn [app] in A. destruct (ie_kind ie); try discriminate. destruct s; discriminate.
  - exfalso. apply app_eq_nil in Er as [Er _]. pose proof (file_left_nonempty _ _ _ _ L). destruct more; [congruence|discriminate].
Qed.

(** every walk over the store stays on the way *)
Definition last_dir (dir : bool) (items : list continued) : bool :=
  match rev items with it :: _ => is_wdir it | [] => dir end.
Lemma last_dir_cons dir it items : last_dir (is_wdir it) items = last_dir dir (it :: items).
Proof.
  unfold last_dir. cbn [rev]. destruct (rev items) as [|x l] eqn:E; reflexivity.
Qed.
Lemma walks_inv w bs asked items w' : walks X (store get) w bs asked items w' ->
  forall dir all_items, Inv w dir all_items -> dbg = true \/ no_dots_told items \/ no_dots_told all_items ->
  exists rest, all_items = items ++ rest /\ Inv w' (last_dir dir items) rest /\ no_dots_told items.
Proof.
  intros H. induction H as [w|w c others b k k' it w1 bs asked items w2 SC PL G K NX _ IH]; intros dir r HI ND.
  - exists r. split; [reflexivity|]. split; [exact HI|]. intros it [].
  - destruct r as [|it0 r]; [apply inv_end in HI; congruence|].
    apply inv_step in HI as (_ & c0 & others0 & b0 & PL0 & G0 & NX0). rewrite PL in PL0. injection PL0 as <- <-.
    unfold store in G. rewrite G in G0. injection G0 as <-. destruct (NX0 k K) as [NX1 NX2].
    assert (NB : ~ blocked dir it0) by (intros B; specialize (NX1 B); rewrite NX in NX1; discriminate NX1).
    destruct (NX2 NB) as (w' & k2 & E & HI).
    rewrite NX in E. injection E as -> -> ->.
    assert (D : ~ dotted (path_told it0)).
    { destruct ND as [DB|[ND|ND]]; [|apply ND; left; reflexivity|apply ND; left; reflexivity]. intros D. apply NB. right. auto. }
    destruct (IH _ r (HI D)) as (rest & -> & HI' & ND'). { destruct ND as [DB|[ND|ND]]; [auto|right; left|right; right]; intros x Hx; apply ND; right; exact Hx. }
    exists rest. split; [reflexivity|]. split; [rewrite <- last_dir_cons; exact HI'|]. intros x [<- |Hx]; [exact D|apply ND', Hx].
Qed.

Lemma name_cases (name : bytes) : ~ In x2f name -> name = [] \/ loose_name name.
Proof. intros H. destruct name as [|x l]; [left; reflexivity|right]. split; [discriminate|exact H]. Qed.
Lemma start_inv c name n :
  ~ In x2f name -> stored X get c n ->
  exists all_items, all emits (as_told (sights true name c n)) all_items /\ Inv (walker_new c name) false all_items.
Proof.
  intros Hn%name_cases St.
  assert (E : exists items, all emits (as_told (sights true name c n)) items).
  { apply all_app_ex. pose proof (proj1 (stored_emits X get) c n St true name) as F.
    destruct (sights true name c n) as [|[] l]; try exact F. inv F. cbn [as_told]. constructor; [assumption|].
    match goal with F : Forall _ l |- _ => revert F end. clear. induction l as [|e l IH]; intros F; [constructor|].
    inv F. destruct e; try (constructor; assumption). cbn [relabel]. constructor; [eexists; constructor|]. apply IH, H2. }
  destruct E as [items A]. exists items. split; [exact A|].
  destruct Hn as [-> |Hn].
  - eapply (inv_start c [] []); [left; auto|exact St|exact A].
  - eapply (inv_start c name [name]); [right; auto|exact St|exact A].
Qed.

(** ** Adjacent items *)

Lemma reported_kind e its : reported e its -> its <> [] /\
  match e with
  | SeenDirectory c p md => its = [WDirectory c p md]
  | SeenBucket c p => its = [WBucket c p]
  | _ => Forall (fun it => is_wdir it = false /\ is_wbucket it = false) its
  end.
Proof.
  intros H. destruct H as [c p md|c p md|c p md content items H|c p md t|c p]; (split; [try discriminate|]); try reflexivity;
    try (repeat constructor; fail).
  - destruct H as (pieces & NE & _ & L & _). destruct items; [destruct pieces; [congruence|discriminate]|discriminate].
  - destruct H as (pieces & NE & _ & L & H). apply Forall_forall. intros it Hin.
    apply In_nth_error in Hin as [i Hi]. assert (Hl : (i < length pieces)%nat) by (rewrite <- L; apply nth_error_Some; congruence).
    destruct (nth_error pieces i) as [pc|] eqn:E; [|apply nth_error_None in E; lia].
    destruct (H i pc E) as (s & Hs & _). rewrite Hi in Hs. injection Hs as ->. split; reflexivity.
Qed.

Lemma all_head_bucket evs it items : all reported evs (it :: items) -> is_wbucket it = true ->
  exists c p rest, evs = SeenBucket c p :: rest.
Proof.
  intros H B. destruct evs as [|e evs]; [inversion H|].
  inversion H as [|e0 its evs0 items' R A E1 E2]. destruct (reported_kind _ _ R) as [NE K].
  destruct its as [|i its]; [congruence|]. injection E2 as -> _.
  destruct e; try (apply Forall_inv in K; destruct K; congruence); [injection K as -> ->; discriminate|eauto].
Qed.
Lemma all_adjacent evs items : all reported evs items ->
  forall pre d b post, items = pre ++ d :: b :: post -> is_wdir d = true -> is_wbucket b = true ->
  exists pre' c p md c' p' post', evs = pre' ++ SeenDirectory c p md :: SeenBucket c' p' :: post'.
Proof.
  intros H. induction H as [|e its evs items R A IH]; intros pre d b post E D B; [destruct pre; discriminate|].
  destruct (reported_kind _ _ R) as [NE K].
  assert (HC : (exists pre2, items = pre2 ++ d :: b :: post) \/ exists pre2, its = pre2 ++ [d] /\ items = b :: post \/ exists r, its = pre2 ++ d :: b :: r).
  { revert E. clear -NE. revert pre. induction its as [|i its IH]; intros pre E; [congruence|].
    destruct its as [|i2 its].
    - destruct pre as [|x pre]; cbn in E; injection E as -> E; [right; exists []; left; auto|left; eauto].
    - destruct pre as [|x pre]; [cbn in E; injection E as -> -> E; right; exists []; right; exists its; reflexivity|].
      cbn [app] in E. injection E as -> E. destruct (IH ltac:(discriminate) pre E) as [H|[pre2 [[H1 H2]|[r H]]]].
      + left. exact H.
      + right. exists (x :: pre2). left. split; [rewrite H1; reflexivity|exact H2].
      + right. exists (x :: pre2). right. exists r. rewrite H. reflexivity. }
  destruct HC as [[pre2 E2]|[pre2 [[E1 E2]|[r E1]]]].
  - destruct (IH _ _ _ _ E2 D B) as (pre' & c & p & md & c' & p' & post' & ->). exists (e :: pre'). repeat eexists.
  - subst items its. destruct (all_head_bucket _ _ _ A B) as (c' & p' & rest & ->).
    destruct e; try (apply Forall_app in K as [_ K]; apply Forall_inv in K; destruct K; congruence).
    + exists []. repeat eexists.
    + destruct pre2 as [|? [|? ?]]; try discriminate K. injection K as ->. discriminate.
  - subst its. destruct e; try (apply Forall_app in K as [_ K]; apply Forall_inv in K; destruct K; congruence);
      destruct pre2 as [|? [|? ?]]; discriminate K.
Qed.

Lemma relabel_spaced c evs : spaced evs -> spaced (relabel c evs).
Proof.
  intros W. enough (G : forall evs pre d p md b q post, relabel c evs = pre ++ SeenDirectory d p md :: SeenBucket b q :: post ->
    exists pre', evs = pre' ++ SeenDirectory d p md :: SeenBucket b q :: post).
  { intros pre d p md b q post E. destruct (G _ _ _ _ _ _ _ _ E) as [pre' ->]. eapply W. reflexivity. }
  clear. intros evs. induction evs as [|e evs IH]; intros pre d p md b q post E; [destruct pre; discriminate|].
  destruct e; try (exists pre; exact E). cbn [relabel] in E. destruct pre as [|x pre]; [discriminate|].
  injection E as <- E. destruct (IH _ _ _ _ _ _ _ E) as [pre' ->]. exists (SeenBucket c0 path :: pre'). reflexivity.
Qed.
Lemma as_told_spaced evs : spaced evs -> spaced (as_told evs).
Proof.
  intros W. destruct evs as [|e evs]; [exact W|]. destruct e; try exact W. cbn [as_told].
  intros pre d p md0 b q post E. destruct pre as [|x pre]; [discriminate|]. injection E as <- E.
  eapply relabel_spaced; [|exact E]. eapply spaced_tail, W.
Qed.

Lemma relabel_paths c evs e : In e (relabel c evs) -> exists e', In e' evs /\ path_seen e' = path_seen e.
Proof.
  induction evs as [|x evs IH]; [contradiction|]. intros H. destruct x; try (exists e; split; [exact H|reflexivity]).
  cbn [relabel] in H. destruct H as [<- |H]; [eexists; split; [left; reflexivity|reflexivity]|].
  destruct (IH H) as (e' & H1 & H2). exists e'. split; [right; exact H1|exact H2].
Qed.
Lemma as_told_no_dots evs : no_dots evs -> no_dots (as_told evs).
Proof.
  intros N e H. destruct evs as [|x evs]; [contradiction|]. destruct x; try (apply N, H). cbn [as_told] in H.
  destruct H as [<- |H]; [apply (N (SeenRootDirectory c path md)); left; reflexivity|].
  destruct (relabel_paths _ _ _ H) as (e' & H1 & <-). apply N. right. exact H1.
Qed.
Lemma as_told_walkable evs : walkable evs -> walkable (as_told evs).
Proof. intros [S N]. split; [exact (as_told_spaced _ S)|apply as_told_no_dots, N]. Qed.
End steps.

Lemma reported_path e its it : reported e its -> In it its -> path_told it = path_seen e.
Proof.
  intros H Hin. destruct H as [| |c p md content items H| |]; try (destruct Hin as [<- |[]]; reflexivity).
  destruct H as (pieces & _ & _ & L & H). apply In_nth_error in Hin as [i Hi].
  assert (Hl : (i < length pieces)%nat) by (rewrite <- L; apply nth_error_Some; congruence).
  destruct (nth_error pieces i) as [pc|] eqn:E; [|apply nth_error_None in E; lia].
  destruct (H i pc E) as (s & Hs & _). rewrite Hi in Hs. injection Hs as ->. reflexivity.
Qed.
Lemma but_path e its it : reported_but e its -> In it its -> path_told it = path_seen e.
Proof. intros H Hin. destruct H as [e its H|]; [eapply reported_path; eassumption|]. destruct Hin as [<- |[]]. reflexivity. Qed.
Lemma all_paths (P : seen -> list continued -> Prop) evs items it :
  (forall e its it, P e its -> In it its -> path_told it = path_seen e) -> all P evs items -> In it items ->
  exists e, In e evs /\ path_told it = path_seen e.
Proof.
  intros HP A. induction A as [|e its evs items He A IH]; [contradiction|]. intros H. apply in_app_or in H as [H|H].
  - exists e. split; [left; reflexivity|eapply HP; eassumption].
  - destruct (IH H) as (e' & H1 & H2). exists e'. split; [right; exact H1|exact H2].
Qed.

