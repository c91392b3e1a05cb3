(** * Walk_thms: successful steps of walks over arbitrary blocks *)
From Verif Require Import Base Tac Wire Utf8 Cid Pb Reader Visit Dir Walk SpecFile SpecDir SpecWalk
  Dir_proofs Visit_proofs Visit_thms Walk_proofs Walk_sim Walk_steps.

Definition is_some {A} (o : option A) : bool := match o with Some _ => true | None => false end.

Section thms.
Context (X : ext).
Notation dbg := (ext_dbg X).

(** what a block entered as an entry called [name] becomes *)
Inductive entered (w : walker) (f : flat) (c : cid) (name : bytes) (depth : nat)
  : inner_entry -> continued -> list walk_link -> Prop :=
| en_root_dir : forall new, w_current w = None -> u_type (f_data f) = Directory -> supported_dir (f_data f) ->
    Forall2 (fun l e => exists i, convert_link X (S depth) i l = Ok e) (f_links f) new ->
    entered w f c name depth (new_root KRootDirectory c (metadata_of (f_data f)) name depth)
      (WRootDirectory c (path_push [] name) (metadata_of (f_data f))) new
| en_dir : forall ie0 ie new, w_current w = Some ie0 -> u_type (f_data f) = Directory -> supported_dir (f_data f) ->
    Forall2 (fun l e => exists i, convert_link X (S depth) i l = Ok e) (f_links f) new ->
    as_entry X ie0 KDirectory c name depth (metadata_of (f_data f)) = Ok ie ->
    entered w f c name depth ie (WDirectory c (ie_path ie) (metadata_of (f_data f))) new
| en_root_shard : forall new, w_current w = None -> u_type (f_data f) = HAMTShard -> supported_shard (f_data f) ->
    Forall2 (fun l e => exists i, convert_sharded_link X (S depth) depth i l = Ok e) (f_links f) new ->
    entered w f c name depth (new_root KBucketAtRoot c (metadata_of (f_data f)) name depth)
      (WRootDirectory c (path_push [] name) (metadata_of (f_data f))) new
| en_shard : forall ie0 ie new, w_current w = Some ie0 -> u_type (f_data f) = HAMTShard -> supported_shard (f_data f) ->
    Forall2 (fun l e => exists i, convert_sharded_link X (S depth) depth i l = Ok e) (f_links f) new ->
    name <> [] -> as_entry X ie0 KRootBucket c name depth (metadata_of (f_data f)) = Ok ie ->
    entered w f c name depth ie (WRootDirectory c (ie_path ie) (metadata_of (f_data f))) new
| en_bucket : forall ie0 ie new, w_current w = Some ie0 -> u_type (f_data f) = HAMTShard -> supported_shard (f_data f) ->
    Forall2 (fun l e => exists i, convert_sharded_link X (S depth) depth i l = Ok e) (f_links f) new ->
    name = [] -> as_bucket ie0 c name depth = Ok ie ->
    entered w f c name depth ie (WBucket (ie_cid ie) (ie_path ie)) new
| en_file : forall ie out size step, u_type (f_data f) = File \/ u_type (f_data f) = Raw ->
    fst (start_from_parsed X None f None) = Ok (out, size, metadata_of (f_data f), step) ->
    match w_current w with
    | None => ie = new_root (KFile step size) c (metadata_of (f_data f)) name depth
    | Some ie0 => as_entry X ie0 (KFile step size) c name depth (metadata_of (f_data f)) = Ok ie
    end ->
    entered w f c name depth ie
      (WFile (FileSegment out true (negb (is_some step))) c (ie_path ie) (metadata_of (f_data f)) size) []
| en_symlink : forall ie, u_type (f_data f) = Symlink ->
    match w_current w with
    | None => ie = new_root KSymlink c (metadata_of (f_data f)) name depth
    | Some ie0 => as_entry X ie0 KSymlink c name depth (metadata_of (f_data f)) = Ok ie
    end ->
    entered w f c name depth ie (WSymlink (own_data f) c (ie_path ie) (metadata_of (f_data f))) [].

Inductive nexts (w : walker) (b : bytes) : continued -> walker -> Prop :=
| n_later : forall ie v size out step, w_current w = Some ie -> ie_kind ie = KFile (Some v) size ->
    fst (continue_walk X v b None) = Ok (out, step) ->
    nexts w b (WFile (FileSegment out false (negb (is_some step))) (ie_cid ie) (ie_path ie) (ie_metadata ie) size)
      (Walker (Some (InnerEntry (ie_cid ie) (KFile step size) (ie_path ie) (ie_metadata ie) (ie_depth ie)))
         (w_next w) (w_pending w) (is_some step || is_some (w_next w)))
| n_enter : forall f c name depth ie it new,
    (forall ie0, w_current w = Some ie0 -> in_file (ie_kind ie0) = false) ->
    try_parse dbg b = Ok f -> w_next w = Some (c, name, depth) ->
    entered w f c name depth ie it new ->
    nexts w b it (Walker (Some ie) (hd_error (new ++ w_pending w)) (tl (new ++ w_pending w))
      (in_file (ie_kind ie) || negb (is_nil (new ++ w_pending w)))).

Lemma as_entry_fields ie k c name depth md ie' : as_entry X ie k c name depth md = Ok ie' ->
  in_file (ie_kind ie) = false /\ ie_cid ie' = c /\ ie_kind ie' = k /\ ie_metadata ie' = md /\ ie_depth ie' = depth
  /\ set_path X ie name depth = Ok (ie_path ie').
Proof.
  unfold as_entry. destruct (in_file _); [discriminate|]. destruct (set_path X ie name depth) as [p| | |]; try discriminate.
  intros [= <-]. cbn. repeat split.
Qed.
Lemma as_bucket_fields ie c name depth ie' : as_bucket ie c name depth = Ok ie' ->
  (ie_kind ie = KBucketAtRoot /\ ie' = ie /\ ie_depth ie = depth)
  \/ ((ie_kind ie = KRootBucket \/ ie_kind ie = KBucket \/ (exists z, ie_kind ie = KFile None z) \/ ie_kind ie = KSymlink)
      /\ ie_cid ie' = c /\ ie_kind ie' = KBucket /\ ie_metadata ie' = ie_metadata ie /\ name = [] /\ ie_depth ie' = depth).
Proof.
  unfold as_bucket, assert. destruct (ie_kind ie) as [| | | | |[v|] z|] eqn:K; try discriminate.
  1: { destruct (ie_depth ie =? depth)%nat eqn:E; [|discriminate]. intros [= <-]. left. apply Nat.eqb_eq in E. auto. }
  all: destruct (is_nil name) eqn:N; [|discriminate]; cbn [bind].
  all: destruct (pop_bucket _ _ _) as [[p d]| | |]; try discriminate; cbn [bind snd fst].
  all: destruct (d =? depth)%nat eqn:E; [|discriminate]; cbn [bind]; intros [= <-]; right; apply Nat.eqb_eq in E.
  all: apply is_nil_true in N; cbn; repeat split; eauto 6.
Qed.

Lemma push_links_inv convert : forall ls i pending r pending',
  push_links convert (rev (combine (seq i (length ls)) ls)) pending = (Ok r, pending') ->
  exists new, Forall2 (fun l e => exists i, convert i l = Ok e) ls new /\ pending' = new ++ pending.
Proof.
  induction ls as [|l ls IH]; intros i pending r pending' H.
  - cbn in H. injection H as <- <-. exists []. split; [constructor|reflexivity].
  - cbn [length seq combine rev] in H. rewrite push_links_app in H.
    destruct (push_links convert (rev (combine (seq (S i) (length ls)) ls)) pending) as [[u| | |] q] eqn:E; try discriminate H.
    destruct (IH _ _ _ _ E) as (new & F & ->). cbn [push_links] in H.
    destruct (convert i l) as [e| | |] eqn:C; try discriminate H. injection H as <- <-.
    exists (e :: new). split; [constructor; eauto|reflexivity].
Qed.

Lemma finish_dir_inv w links convert entry k it w' k' : finish_dir w links convert entry k = (Ok it, w', k') ->
  exists ie new, entry = Ok (ie, it) /\ Forall2 (fun l e => exists i, convert i l = Ok e) links new /\ k' = k
    /\ w' = Walker (Some ie) (hd_error (new ++ w_pending w)) (tl (new ++ w_pending w)) (negb (is_nil (new ++ w_pending w))).
Proof.
  unfold finish_dir, enumerate_rev. intros H.
  destruct (push_links _ _ _) as [[u| | |] q] eqn:E; try discriminate H.
  destruct (push_links_inv _ _ _ _ _ _ E) as (new & F & ->).
  exists (match entry with Ok (ie, _) => ie | _ => InnerEntry (Cid true 0 0 []) KSymlink [] (MData None None) 0 end), new.
  destruct (new ++ w_pending w) as [|n q2]; destruct entry as [[ie it0]| | |]; try discriminate H; injection H as <- <- <-; auto.
Qed.

Lemma file_inv w b k f it w' k' r k2 : clean_cache k ->
  (forall ie0, w_current w = Some ie0 -> in_file (ie_kind ie0) = false) ->
  try_parse dbg b = Ok f -> (u_type (f_data f) = File \/ u_type (f_data f) = Raw) ->
  start_from_parsed X idle_default f k = (r, k2) ->
  match walk_read r with
  | Ok (bs, size, md, step) =>
    match w_next w with
    | None => failed w Panic k2
    | Some (c, name, depth) =>
      let continues := match step with Some _ => true | None => false end in
      match match w_current w with
            | None => Ok (new_root (KFile step size) c md name depth)
            | Some ie => as_entry X ie (KFile step size) c name depth md
            end with
      | Ok ie =>
        let '(next, pending) :=
          match w_pending w with
          | [] => (None, [])
          | n :: pending => (Some n, pending)
          end in
        let more := match next with Some _ => true | None => false end in
        (Ok (WFile (FileSegment bs true (negb continues)) (ie_cid ie) (ie_path ie) (ie_metadata ie) size),
         Walker (Some ie) next pending (continues || more), k2)
      | Err e => failed w (Err e) k2
      | Panic => failed w Panic k2
      | Diverge => failed w Diverge k2
      end
    end
  | Err e => failed w (Err e) k2
  | Panic => failed w Panic k2
  | Diverge => failed w Diverge k2
  end = (Ok it, w', k') -> nexts w b it w'.
Proof.
  intros Hk NF P T S1 H.
  pose proof (start_cache X None f k None (clean_opt k Hk)) as CC. unfold idle_default in S1. rewrite S1 in CC. cbn [fst] in CC.
  destruct r as [[[[out size] md] step]|[]| |]; try discriminate H. cbn [walk_read] in H. symmetry in CC.
  destruct (w_next w) as [[[c name] depth]|] eqn:N; [|discriminate H].
  assert (MD : md = metadata_of (f_data f)).
  { pose proof (start_parsed_visit X None b f P) as V. rewrite CC in V.
    apply start_ok in V as (f' & e & P' & _ & _ & -> & _). rewrite P in P'. injection P' as <-. reflexivity. }
  subst md.
  destruct (match w_current w with None => _ | Some ie => _ end) as [ie| | |] eqn:E; try discriminate H.
  assert (F : ie_cid ie = c /\ ie_metadata ie = metadata_of (f_data f) /\ ie_kind ie = KFile step size).
  { destruct (w_current w) as [ie0|]; [apply as_entry_fields in E; tauto|injection E as <-; repeat split]. }
  destruct F as (F1 & F2 & F3). rewrite F1, F2 in H.
  assert (Q : it = WFile (FileSegment out true (negb (is_some step))) c (ie_path ie) (metadata_of (f_data f)) size
    /\ w' = Walker (Some ie) (hd_error (w_pending w)) (tl (w_pending w)) (in_file (ie_kind ie) || negb (is_nil (w_pending w)))).
  { rewrite F3. destruct (w_pending w), step; injection H as <- <- <-; split; reflexivity. }
  destruct Q as [-> ->].
  apply (n_enter w b f c name depth ie _ [] NF P N). apply en_file with (step := step); [exact T|exact CC|].
  destruct (w_current w); [exact E|]. injection E as <-. reflexivity.
Qed.

Lemma next_inv w b k it w' k' : clean_cache k -> walk_next X w b k = (Ok it, w', k') -> nexts w b it w'.
Proof.
  intros Hk H.
  destruct (match w_current w with Some ie => in_file (ie_kind ie) | None => false end) eqn:IF.
  - destruct (w_current w) as [ie|] eqn:C; [|discriminate]. destruct (ie_kind ie) as [| | | | |[v|] sz|] eqn:K; try discriminate.
    unfold walk_next in H. rewrite C in H. destruct ie as [ic ik ip im id]. cbn in K. subst ik.
    unfold next_in_file in H. destruct (continue_walk X v b k) as [r k2] eqn:E.
    pose proof (Visit_proofs.continue_cache X v b k None) as CC. rewrite E in CC. cbn [fst] in CC.
    destruct r as [[out step]|[]| |]; try discriminate H. cbn [walk_read] in H. injection H as <- <- <-.
    symmetry in CC. cbn [ie_cid ie_path ie_metadata ie_depth].
    replace (match step with Some _ => true | None => false end) with (is_some step) by reflexivity.
    replace (match w_next w with Some _ => true | None => false end) with (is_some (w_next w)) by reflexivity.
    exact (n_later w b (InnerEntry ic (KFile (Some v) sz) ip im id) v sz out step C eq_refl CC).
  - assert (NF : forall ie, w_current w = Some ie -> in_file (ie_kind ie) = false) by (intros ie E; rewrite E in IF; exact IF).
    destruct (try_parse dbg b) as [f| | |] eqn:P;
      try (unfold walk_next in H; rewrite P in H; destruct (w_current w) as [[? [| | | | |[v|] ?|] ? ? ?]|]; try discriminate H;
           specialize (NF _ eq_refl); discriminate NF).
    rewrite (next_not_file X w b k NF f P) in H.
    destruct (u_type (f_data f)) eqn:T.
    + (* Raw *)
      destruct (start_from_parsed X idle_default f k) as [r k2] eqn:S1.
      eapply file_inv; eauto.
    + (* Directory *)
      destruct (check_dir_ok f T) as [[SD C]|[_ C]]; rewrite C in H; [|discriminate H].
      destruct (w_next w) as [[[c name] depth]|] eqn:N; [|discriminate H].
      apply finish_dir_inv in H as (ie & new & E & F & _ & ->).
      assert (EN : entered w f c name depth ie it new /\ in_file (ie_kind ie) = false).
      { destruct (w_current w) as [ie0|] eqn:CU.
        - apply bind_ok in E as (ie1 & A & E). injection E as <- <-. pose proof (as_entry_fields _ _ _ _ _ _ _ A) as (_ & E1 & E2 & E3 & _).
          rewrite E1, E3, E2. split; [|reflexivity]. eapply en_dir; eassumption.
        - injection E as <- <-. split; [|reflexivity]. apply en_root_dir; assumption. }
      destruct EN as [EN EK]. pose proof (n_enter w b f c name depth ie it new NF P N EN) as R. rewrite EK in R. exact R.
    + (* File *)
      destruct (start_from_parsed X idle_default f k) as [r k2] eqn:S1.
      eapply file_inv; eauto.
    + discriminate H.
    + (* Symlink *)
      destruct (w_next w) as [[[c name] depth]|] eqn:N; [|discriminate H].
      destruct (match w_current w with None => _ | Some ie => _ end) as [ie| | |] eqn:E; try discriminate H.
      assert (Q : Ok it = Ok (E := walk_error) (WSymlink (own_data f) c (ie_path ie) (metadata_of (f_data f)))
        /\ w' = Walker (Some ie) (hd_error (w_pending w)) (tl (w_pending w)) (negb (is_nil (w_pending w)))
        /\ in_file (ie_kind ie) = false).
      { assert (F : ie_cid ie = c /\ ie_metadata ie = metadata_of (f_data f) /\ ie_kind ie = KSymlink).
        { destruct (w_current w) as [ie0|]; [apply as_entry_fields in E; tauto|injection E as <-; repeat split]. }
        destruct F as (F1 & F2 & F3). rewrite F1, F2, own_data_opt in H. rewrite F3.
        destruct (w_pending w); injection H as <- <- <-; repeat split. }
      destruct Q as (Q & -> & EK). injection Q as ->.
      assert (EN : entered w f c name depth ie (WSymlink (own_data f) c (ie_path ie) (metadata_of (f_data f))) []).
      { apply en_symlink; [exact T|]. destruct (w_current w); [exact E|]. injection E as <-. reflexivity. }
      pose proof (n_enter w b f c name depth ie _ [] NF P N EN) as R. rewrite EK in R. exact R.
    + (* HAMTShard *)
      destruct (check_shard_ok f T) as [[SD C]|[_ [[_ C]|[_ C]]]]; rewrite C in H; try discriminate H.
      destruct (w_next w) as [[[c name] depth]|] eqn:N; [|discriminate H].
      apply finish_dir_inv in H as (ie & new & E & F & _ & ->).
      assert (EN : entered w f c name depth ie it new /\ in_file (ie_kind ie) = false).
      { destruct (w_current w) as [ie0|] eqn:CU.
        - destruct (is_nil name) eqn:NN.
          + apply bind_ok in E as (ie1 & A & E). injection E as <- <-. apply is_nil_true in NN.
            split; [eapply en_bucket; eassumption|].
            apply as_bucket_fields in A as [(E1 & -> & _)|(_ & _ & E1 & _)]; rewrite E1; reflexivity.
          + apply bind_ok in E as (ie1 & A & E). injection E as <- <-. apply is_nil_false in NN.
            pose proof (as_entry_fields _ _ _ _ _ _ _ A) as (_ & E1 & E2 & E3 & _).
            rewrite E1, E3, E2. split; [|reflexivity]. eapply en_shard; eassumption.
        - injection E as <- <-. split; [|reflexivity]. apply en_root_shard; assumption. }
      destruct EN as [EN EK]. pose proof (n_enter w b f c name depth ie it new NF P N EN) as R. rewrite EK in R. exact R.
Qed.

(** ** Histories *)

Lemma walks_hist (gives : cid -> bytes -> Prop) (I : list (cid * continued) -> walker -> Prop) :
  (forall h w c others b it w', I h w -> should_continue w = true -> w_pending_links w = Ok (c, others) -> gives c b ->
     nexts w b it w' -> I (h ++ [(c, it)]) w') ->
  forall w bs asked items w', walks X gives w bs asked items w' ->
  forall h, I h w -> I (h ++ combine asked items) w'.
Proof.
  intros Step w bs asked items w' H. induction H as [w|w c others b k k' it w1 bs asked items w2 SC PL G K NX _ IH]; intros h HI.
  - cbn. rewrite app_nil_r. exact HI.
  - cbn [combine]. replace (h ++ (c, it) :: combine asked items) with ((h ++ [(c, it)]) ++ combine asked items)
      by (rewrite <- app_assoc; reflexivity).
    apply IH. eapply Step; eauto. eapply next_inv; eauto.
Qed.
Lemma walks_length (gives : cid -> bytes -> Prop) w bs asked items w' : walks X gives w bs asked items w' ->
  length asked = length items /\ length bs = length items.
Proof. intros H. induction H; cbn; lia. Qed.
Lemma items_of_hist (asked : list cid) (items : list continued) : length asked = length items -> map snd (combine asked items) = items.
Proof. apply map_snd_combine. Qed.

Lemma walks_items (gives : cid -> bytes -> Prop) (I : list continued -> walker -> Prop) :
  (forall h w c others b it w', I h w -> should_continue w = true -> w_pending_links w = Ok (c, others) -> gives c b ->
     nexts w b it w' -> I (h ++ [it]) w') ->
  forall w bs asked items w', walks X gives w bs asked items w' -> I [] w -> I items w'.
Proof.
  intros Step w bs asked items w' H HI.
  pose proof (walks_hist gives (fun h w => I (map snd h) w)) as G.
  assert (L := walks_length _ _ _ _ _ _ H).
  assert (G1 : forall h w c others b it w', I (map snd h) w -> should_continue w = true -> w_pending_links w = Ok (c, others) ->
    gives c b -> nexts w b it w' -> I (map snd (h ++ [(c, it)])) w')
    by (intros; rewrite map_app; cbn [map snd]; eapply Step; eauto).
  specialize (G G1 _ _ _ _ _ H [] HI). cbn [app] in G. rewrite items_of_hist in G by tauto. exact G.
Qed.

(** ** What a step asks for *)

Definition todo (w : walker) : list cid :=
  match option_map ie_kind (w_current w) with
  | Some (KFile (Some v) _) => map fst (fv_pending v)
  | _ => []
  end ++ match w_next w with Some n => [link_cid_of n] | None => [] end ++ map link_cid_of (w_pending w).

Lemma pending_todo w c others : w_pending_links w = Ok (c, others) -> todo w = c :: others.
Proof.
  unfold w_pending_links, todo. destruct (option_map ie_kind (w_current w)) as [[| | | | |[v|] z|]|];
    try (destruct (w_next w) as [n|]; cbn; [intros [= <- <-]; reflexivity|discriminate]).
  destruct (pending_links v) as [[f r]| | |] eqn:E; try discriminate. intros [= <- <-].
  apply pending_links_ok in E as (rg & rest & -> & ->). reflexivity.
Qed.

Lemma asked_next w c others name depth c' : w_pending_links w = Ok (c', others) ->
  (forall ie0, w_current w = Some ie0 -> in_file (ie_kind ie0) = false) ->
  w_next w = Some (c, name, depth) -> c' = c.
Proof.
  intros H NF N. unfold w_pending_links in H. rewrite N in H.
  destruct (w_current w) as [ie|]; cbn [option_map] in H; [|cbn in H; congruence].
  specialize (NF _ eq_refl). destruct (ie_kind ie) as [| | | | |[v|] z|]; try discriminate NF; cbn in H; congruence.
Qed.

(** ** Buckets at the root *)

Definition buckets (items : list continued) : Prop := Forall (fun it => is_wbucket it = true) items.
Definition root_inv (items : list continued) (w : walker) : Prop :=
  match w_current w with
  | None => items = [] /\ w_pending w = []
  | Some ie =>
    exists it0 rest, items = it0 :: rest /\
      ((ie_kind ie = KBucketAtRoot /\ buckets rest /\ exists p md, it0 = WRootDirectory (ie_cid ie) p md)
       \/ (ie_kind ie <> KBucketAtRoot /\ ~ buckets rest)
       \/ (rest = [] /\ (ie_kind ie = KRootDirectory \/ ie_kind ie <> KBucketAtRoot /\ w_next w = None)))
  end.

Lemma entered_notfirst w f c name depth ie it new : entered w f c name depth ie it new ->
  match ie_kind ie with
  | KRootDirectory => w_current w = None
  | KBucketAtRoot => (w_current w = None /\ it = WRootDirectory (ie_cid ie) (ie_path ie) (ie_metadata ie))
      \/ (exists ie0, w_current w = Some ie0 /\ ie_kind ie0 = KBucketAtRoot /\ ie = ie0 /\ it = WBucket (ie_cid ie) (ie_path ie))
  | _ => True
  end.
Proof.
  intros H. destruct H as [new E T S F|ie0 ie new E T S F A|new E T S F|ie0 ie new E T S F NE A|ie0 ie new E T S F NE A
    |ie out size step T S F|ie T F]; cbn [ie_kind new_root ie_cid ie_path ie_metadata]; auto.
  1,2: apply as_entry_fields in A as (_ & _ & -> & _); exact Logic.I.
  - apply as_bucket_fields in A as [(E1 & -> & _)|(_ & _ & -> & _)]; [|exact Logic.I]. rewrite E1. right. exists ie0. auto.
  - destruct (w_current w); [apply as_entry_fields in F as (_ & _ & -> & _)|subst ie]; exact Logic.I.
  - destruct (w_current w); [apply as_entry_fields in F as (_ & _ & -> & _)|subst ie]; exact Logic.I.
Qed.


Lemma not_buckets rest it : is_wbucket it = false -> ~ buckets (rest ++ [it]).
Proof. intros H B. apply Forall_app in B as [_ B]. apply Forall_inv in B. congruence. Qed.
Lemma not_buckets_app rest it : ~ buckets rest -> ~ buckets (rest ++ [it]).
Proof. intros H B. apply Forall_app in B as [B _]. contradiction. Qed.

Lemma root_inv_step items w b it w' : root_inv items w -> nexts w b it w' -> root_inv (items ++ [it]) w'.
Proof.
  unfold root_inv. intros HI N. destruct N as [ie v size out step C K CW|f c name depth ie it new NF P N E].
  - rewrite C in HI. destruct HI as (it0 & rest & -> & HI). cbn [w_current ie_kind].
    exists it0, (rest ++ [WFile (FileSegment out false (negb (is_some step))) (ie_cid ie) (ie_path ie) (ie_metadata ie) size]).
    split; [reflexivity|]. right. left. split; [discriminate|]. apply not_buckets. reflexivity.
  - cbn [w_current w_next]. pose proof (entered_notfirst _ _ _ _ _ _ _ _ E) as K.
    destruct (w_current w) as [ie0|] eqn:C.
    + destruct HI as (it0 & rest & -> & HI). exists it0, (rest ++ [it]). split; [reflexivity|].
      destruct (is_wbucket it) eqn:B.
      * inversion E as [|ie1 ie' new' C' T S F A| |ie1 ie' new' C' T S F NE A|ie1 ie' new' C' T S F NE A| |]; subst; try discriminate B.
        rewrite C in C'. injection C' as <-.
        apply as_bucket_fields in A as [(E1 & -> & _)|(E1 & E2 & E3 & _)].
        -- destruct HI as [(_ & B1 & p & md & ->)|[[H _]|[-> [H|[H _]]]]]; try congruence. left. split; [exact E1|]. split; [|eauto].
           apply Forall_app. split; [exact B1|]. constructor; [reflexivity|constructor].
        -- right. left. rewrite E3. split; [discriminate|].
           destruct HI as [(H & _)|[[_ H]|[-> [H|[_ H]]]]].
           ++ exfalso. destruct E1 as [E1|[E1|[[z E1]|E1]]]; congruence.
           ++ apply not_buckets_app, H.
           ++ exfalso. destruct E1 as [E1|[E1|[[z E1]|E1]]]; congruence.
           ++ rewrite N in H. discriminate.
      * right. left. split; [|apply not_buckets, B]. intros K'. rewrite K' in K.
        destruct K as [[H _]|(ie1 & _ & _ & _ & ->)]; [discriminate|discriminate B].
    + destruct HI as [-> HP]. cbn [app]. exists it, []. split; [reflexivity|]. rewrite HP, app_nil_r.
      destruct (ie_kind ie) eqn:EK; rewrite ?EK in K.
      1: right; right; split; [reflexivity|]; left; reflexivity.
      1: left; destruct K as [[_ ->]|(ie1 & H & _)]; [|discriminate]; split; [reflexivity|]; split; [constructor|eauto].
      all: right; right; split; [reflexivity|]; right; (split; [discriminate|]).
      all: inversion E; subst; try congruence; try reflexivity; cbn in EK; discriminate.
Qed.

(** the Cid of a bucket *)
Lemma bucket_cid items w c others b c' p w' : root_inv items w -> w_pending_links w = Ok (c, others) ->
  nexts w b (WBucket c' p) w' ->
  exists it0 rest, items = it0 :: rest /\
    ((buckets rest /\ exists p md, it0 = WRootDirectory c' p md) \/ (~ buckets rest /\ c' = c)).
Proof.
  intros HI PL N. remember (WBucket c' p) as it eqn:Eit.
  destruct N as [ie v size out step C K CW|f d name depth ie it new NF P N E]; [discriminate|].
  pose proof (asked_next _ _ _ _ _ _ PL NF N) as <-.
  inversion E as [| | | |ie1 ie' new' C' T S F NE A| |]; subst; try discriminate.
  match goal with H : WBucket _ _ = WBucket _ _ |- _ => injection H as <- <- end.
  unfold root_inv in HI. rewrite C' in HI. destruct HI as (it0 & rest & -> & HI). exists it0, rest. split; [reflexivity|].
  apply as_bucket_fields in A as [(E1 & -> & _)|(E1 & E2 & E3 & _)].
  - left. destruct HI as [(_ & B1 & p & md & ->)|[[H _]|[-> [H|[H _]]]]]; try congruence. eauto.
  - right. split; [|exact E2]. destruct HI as [(H & _)|[[_ H]|[-> [H|[_ H]]]]].
    + exfalso. destruct E1 as [E1|[E1|[[z E1]|E1]]]; congruence.
    + exact H.
    + exfalso. destruct E1 as [E1|[E1|[[z E1]|E1]]]; congruence.
    + rewrite N in H. discriminate.
Qed.

(** ** Segments *)

Definition same_file (it it' : continued) : Prop :=
  match it, it' with
  | WFile _ c p md size, WFile _ c' p' md' size' => c' = c /\ p' = p /\ md' = md /\ size' = size
  | _, _ => False
  end.
Definition unfinished (it : continued) : bool := match it with WFile s _ _ _ _ => negb (is_last s) | _ => false end.
Definition begins (it : continued) : bool := match it with WFile s _ _ _ _ => is_first s | _ => true end.

Definition last_inv (items : list continued) (w : walker) : Prop :=
  match w_current w with
  | None => items = []
  | Some ie => exists pre it, items = pre ++ [it] /\ unfinished it = in_file (ie_kind ie) /\
     match ie_kind ie with
     | KFile (Some _) size => exists s, it = WFile s (ie_cid ie) (ie_path ie) (ie_metadata ie) size
     | _ => True
     end
  end.
Lemma entered_begins w f c name depth ie it new : entered w f c name depth ie it new ->
  begins it = true /\ unfinished it = in_file (ie_kind ie) /\
  match ie_kind ie with
  | KFile (Some _) size => exists s, it = WFile s (ie_cid ie) (ie_path ie) (ie_metadata ie) size
  | _ => True
  end.
Proof.
  intros H. destruct H as [new E T S F|ie0 ie new E T S F A|new E T S F|ie0 ie new E T S F NE A|ie0 ie new E T S F NE A
    |ie out size step T S F|ie T F]; (split; [reflexivity|]).
  - split; [reflexivity|exact Logic.I].
  - apply as_entry_fields in A as (_ & _ & -> & _). split; [reflexivity|exact Logic.I].
  - split; [reflexivity|exact Logic.I].
  - apply as_entry_fields in A as (_ & _ & -> & _). split; [reflexivity|exact Logic.I].
  - apply as_bucket_fields in A as [(E1 & -> & _)|(_ & _ & E1 & _)]; rewrite E1; (split; [reflexivity|exact Logic.I]).
  - assert (K : ie_cid ie = c /\ ie_kind ie = KFile step size /\ ie_metadata ie = metadata_of (f_data f)).
    { destruct (w_current w); [apply as_entry_fields in F; tauto|subst ie; repeat split]. }
    destruct K as (<- & -> & <-). destruct step; cbn; split; eauto.
  - assert (K : ie_kind ie = KSymlink) by (destruct (w_current w); [apply as_entry_fields in F; tauto|subst ie; reflexivity]).
    rewrite K. split; [reflexivity|exact Logic.I].
Qed.
Lemma last_inv_step items w b it w' : last_inv items w -> nexts w b it w' ->
  last_inv (items ++ [it]) w'
  /\ (items = [] -> begins it = true)
  /\ forall pre it0, items = pre ++ [it0] ->
     if unfinished it0 then same_file it0 it /\ begins it = false else begins it = true.
Proof.
  unfold last_inv. intros HI N. destruct N as [ie v size out step C K CW|f c name depth ie it new NF P N E].
  - rewrite C in HI. destruct HI as (pre & it & -> & U & R). rewrite K in R, U. destruct R as [s ->]. cbn [w_current ie_kind ie_cid ie_path ie_metadata].
    split; [|split].
    + eexists (pre ++ [_]), _. split; [reflexivity|]. split; [destruct step; reflexivity|]. destruct step; eauto.
    + intros H. destruct pre; discriminate.
    + intros pre2 it0 H. apply app_inj_tail in H as [-> <-]. rewrite U. cbn. repeat split.
  - destruct (entered_begins _ _ _ _ _ _ _ _ E) as (B & U & R). cbn [w_current]. split; [exists items, it; auto|].
    split; [auto|]. intros pre it0 ->. destruct (w_current w) as [ie0|] eqn:C; [|destruct pre; discriminate].
    destruct HI as (pre2 & it2 & H & U2 & _). apply app_inj_tail in H as [-> <-]. rewrite U2, (NF _ eq_refl). exact B.
Qed.


(** ** Pending links *)

Lemma select_all : forall (ls : list pblink) (zs : list N) n base sel, length ls = length zs ->
  select_links X n base (combine ls zs) None = Ok sel -> map Some (map fst sel) = map (link_cid X) ls.
Proof.
  induction ls as [|l ls IH]; intros zs n base sel L H; destruct zs as [|z zs]; try discriminate L.
  - cbn in H. injection H as <-. reflexivity.
  - cbn in H. apply bind_ok in H as (nx & Hn & H). cbn in H.
    apply bind_ok in H as (p & Hp & H). apply bind_ok in H as (ps & Hps & H). injection H as <-.
    cbn [map]. injection L as L. rewrite (IH _ _ _ _ L Hps). f_equal.
    unfold to_pending in Hp. unfold link_cid. destruct (l_hash l); cbn in Hp |- *;
      destruct (ext_cid_decode X _); try discriminate; injection Hp as <-; reflexivity.
Qed.

Definition wfw (w : walker) : Prop :=
  (forall ie v z, w_current w = Some ie -> ie_kind ie = KFile (Some v) z -> fv_range v = None /\ fv_pending v <> [])
  /\ (w_next w = None -> w_pending w = [])
  /\ should_continue w = negb (is_nil (todo w)).

Lemma convert_cid d i l e : convert_link X d i l = Ok e -> link_cid X l = Some (link_cid_of e).
Proof.
  unfold convert_link, link_target, try_convert_cid, link_cid. intros H. apply bind_ok in H as (c & H & H2).
  apply map_err_ok in H. assert (link_cid_of e = c).
  { apply bind_ok in H2 as (n & _ & H2). apply bind_ok in H2 as (u & _ & H2). injection H2 as <-. reflexivity. }
  subst c. destruct (l_hash l); cbn in H |- *; destruct (ext_cid_decode X _); try discriminate; injection H as ->; reflexivity.
Qed.
Lemma convert_sharded_cid d d2 i l e : convert_sharded_link X d d2 i l = Ok e -> link_cid X l = Some (link_cid_of e).
Proof.
  unfold convert_sharded_link, link_target, try_convert_cid, link_cid. intros H. apply bind_ok in H as (c & H & H2).
  apply map_err_ok in H. assert (link_cid_of e = c).
  { apply bind_ok in H2 as (n & _ & H2). apply bind_ok in H2 as (u & _ & H2). injection H2 as <-. reflexivity. }
  subst c. destruct (l_hash l); cbn in H |- *; destruct (ext_cid_decode X _); try discriminate; injection H as ->; reflexivity.
Qed.
Lemma new_cids (R : pblink -> walk_link -> Prop) ls new : (forall l e, R l e -> link_cid X l = Some (link_cid_of e)) ->
  Forall2 R ls new -> map Some (map link_cid_of new) = map (link_cid X) ls.
Proof. intros H F. induction F as [|l e ls new Hl _ IH]; [reflexivity|]. cbn [map]. rewrite IH, (H _ _ Hl). reflexivity. Qed.

Lemma hd_tl_cids (l : list walk_link) :
  match hd_error l with Some n => [link_cid_of n] | None => [] end ++ map link_cid_of (tl l) = map link_cid_of l.
Proof. destruct l; reflexivity. Qed.

(** what a block adds to the pending links *)
Definition adds (f : flat) (new : list cid) : Prop :=
  if match u_type (f_data f) with Symlink => true | _ => false end then new = []
  else map Some new = map (link_cid X) (f_links f).

Lemma todo_step w b it w' c others : wfw w -> w_pending_links w = Ok (c, others) -> nexts w b it w' ->
  exists f new, try_parse dbg b = Ok f /\ adds f new /\ todo w' = new ++ others /\ wfw w'.
Proof.
  intros (W1 & W2 & W3) PL N. apply pending_todo in PL as TD.
  destruct N as [ie v size out step C K CW|f d name depth ie it new NF P N E].
  - destruct (W1 _ _ _ C K) as [R NE].
    destruct (continue_walk X v b None) as [r k'] eqn:CE. cbn in CW. subst r.
    apply continue_ok in CE as (c0 & rg & pending & f & fs & e & Hpend & _ & Hf & _ & (T & _) & L & _ & _ & Hc).
    unfold todo in TD. rewrite C in TD. cbn [option_map] in TD. rewrite K, Hpend in TD. cbn [map fst app] in TD. injection TD as <- <-.
    exists f. unfold adds.
    assert (TN : match u_type (f_data f) with Symlink => true | _ => false end = false) by (destruct T as [-> | ->]; reflexivity).
    rewrite TN. unfold wfw, todo. cbn [w_current option_map ie_kind w_next w_pending should_continue w_continue].
    destruct Hc as [(NL & _ & ->)|(NL & _ & sel & Hsel & ->)].
    + exists []. split; [exact Hf|]. rewrite NL. split; [reflexivity|]. destruct pending as [|p pending].
      * cbn [map app is_some orb]. split; [reflexivity|]. split; [|split].
        -- intros ? ? ? [= <-]. discriminate.
        -- exact W2.
        -- destruct (w_next w) as [n|]; [reflexivity|]. rewrite W2; reflexivity.
      * cbn [fv_pending is_some orb]. split; [reflexivity|]. split; [|split].
        -- intros ? ? ? [= <-] [= <- <-]. cbn. split; [exact R|discriminate].
        -- exact W2.
        -- reflexivity.
    + exists (map fst sel). split; [exact Hf|]. rewrite R in Hsel. pose proof (select_all _ _ _ _ _ L Hsel) as M. split; [exact M|].
      cbn [fv_pending is_some orb]. split; [rewrite map_app, <- app_assoc; reflexivity|]. split; [|split].
      * intros ? ? ? [= <-] [= <- <-]. cbn. split; [exact R|].
        intros H. apply app_eq_nil in H as [-> ->]. cbn in M. destruct (f_links f); [congruence|discriminate].
      * exact W2.
      * destruct (sel ++ pending) as [|q l] eqn:Q; [|reflexivity].
        apply app_eq_nil in Q as [-> ->]. cbn in M. destruct (f_links f); [congruence|discriminate].
  - exists f. pose proof (asked_next _ _ _ _ _ _ PL NF N) as <-.
    assert (TE : others = map link_cid_of (w_pending w)).
    { unfold todo in TD. rewrite N in TD. destruct (w_current w) as [ie0|]; cbn [option_map] in TD.
      - specialize (NF _ eq_refl). destruct (ie_kind ie0) as [| | | | |[v|] z|]; try discriminate NF; cbn in TD; congruence.
      - cbn in TD. congruence. }
    subst others.
    assert (G : forall nf, in_file (ie_kind ie) = false -> new = nf -> adds f (map link_cid_of nf) ->
      exists new0, try_parse dbg b = Ok f /\ adds f new0 /\
        todo (Walker (Some ie) (hd_error (new ++ w_pending w)) (tl (new ++ w_pending w)) (in_file (ie_kind ie) || negb (is_nil (new ++ w_pending w))))
        = new0 ++ map link_cid_of (w_pending w)
        /\ wfw (Walker (Some ie) (hd_error (new ++ w_pending w)) (tl (new ++ w_pending w)) (in_file (ie_kind ie) || negb (is_nil (new ++ w_pending w))))).
    { intros nf IF -> A. exists (map link_cid_of nf). split; [exact P|]. split; [exact A|].
      assert (TE : todo (Walker (Some ie) (hd_error (nf ++ w_pending w)) (tl (nf ++ w_pending w)) (in_file (ie_kind ie) || negb (is_nil (nf ++ w_pending w))))
        = map link_cid_of (nf ++ w_pending w)).
      { unfold todo. cbn [w_current option_map w_next w_pending]. rewrite hd_tl_cids.
        destruct (ie_kind ie) as [| | | | |[v|] z|]; try reflexivity. discriminate IF. }
      split; [rewrite TE, map_app; reflexivity|]. split; [|split].
      - intros ie1 v z. cbn [w_current]. intros [= <-] KK. rewrite KK in IF. discriminate IF.
      - cbn [w_next w_pending]. destruct (nf ++ w_pending w); [reflexivity|discriminate].
      - rewrite TE, IF. cbn [should_continue w_continue orb]. destruct (nf ++ w_pending w); reflexivity. }
    inversion E as [new' C T S F|ie0 ie' new' C T S F A|new' C T S F|ie0 ie' new' C T S F NE A|ie0 ie' new' C T S F NE A
      |ie' out size step T S F|ie' T F]; subst.
    1-5: eapply G; [|reflexivity|unfold adds; rewrite T; eapply new_cids; [|exact F]].
    1,5: reflexivity.
    1,4: intros l e [i H]; first [exact (convert_cid _ _ _ _ H)|exact (convert_sharded_cid _ _ _ _ _ H)].
    + apply as_entry_fields in A as (_ & _ & -> & _). reflexivity.
    + intros l e [i H]. eapply convert_cid. exact H.
    + apply as_entry_fields in A as (_ & _ & -> & _). reflexivity.
    + intros l e [i H]. eapply convert_sharded_cid. exact H.
    + apply as_bucket_fields in A as [(E1 & -> & _)|(_ & _ & E1 & _)]; rewrite E1; reflexivity.
    + intros l e [i H]. eapply convert_sharded_cid. exact H.
    + assert (KK : ie_kind ie = KFile step size).
      { destruct (w_current w); [apply as_entry_fields in F; tauto|subst ie; reflexivity]. }
      rewrite <- (start_parsed_visit X None b f P) in S. apply start_ok in S as (f' & e & P' & _ & L & _ & _ & _ & S).
      rewrite P in P'. injection P' as <-.
      assert (TN : match u_type (f_data f) with Symlink => true | _ => false end = false) by (destruct T as [-> | ->]; reflexivity).
      destruct S as [(NL & _ & ->)|(NL & _ & sel & Hsel & ->)].
      * eapply G; [rewrite KK; reflexivity|reflexivity|]. unfold adds. rewrite TN, NL. reflexivity.
      * pose proof (select_all _ _ _ _ _ L Hsel) as M. exists (map fst sel). split; [exact P|].
        unfold adds. rewrite TN. split; [exact M|]. cbn [app].
        destruct sel as [|q sel]; [destruct (f_links f); [congruence|discriminate M]|].
        unfold wfw, todo. cbn [w_current option_map w_next w_pending should_continue w_continue]. rewrite KK, hd_tl_cids.
        cbn [fv_pending in_file orb]. split; [reflexivity|]. split; [|split].
        -- intros ie1 v z [= <-]. rewrite KK. intros [= <- <-]. cbn. split; [reflexivity|discriminate].
        -- destruct (w_pending w); [reflexivity|discriminate].
        -- reflexivity.
    + eapply G; [|reflexivity|unfold adds; rewrite T; reflexivity].
      assert (KK : ie_kind ie = KSymlink) by (destruct (w_current w); [apply as_entry_fields in F; tauto|subst ie; reflexivity]).
      rewrite KK. reflexivity.
Qed.

Lemma wfw_start c name : wfw (walker_new c name).
Proof. split; [discriminate|]. split; [discriminate|]. reflexivity. Qed.
Lemma wfw_walks (gives : cid -> bytes -> Prop) w bs asked items w' : walks X gives w bs asked items w' -> wfw w -> wfw w'.
Proof.
  apply (walks_items gives (fun _ w => wfw w)). intros h w0 c others b it w1 W _ PL _ N.
  destruct (todo_step _ _ _ _ _ _ W PL N) as (f & new & _ & _ & _ & W'). exact W'.
Qed.
Lemma wfw_pending w : wfw w -> should_continue w = true -> exists c others, w_pending_links w = Ok (c, others).
Proof.
  intros (W1 & W2 & W3) SC. rewrite SC in W3. unfold w_pending_links, todo in *.
  destruct (w_current w) as [ie|]; cbn [option_map] in *.
  - destruct (ie_kind ie) as [| | | | |[v|] z|] eqn:K; try (destruct (w_next w); [cbn; eauto|rewrite (W2 eq_refl) in W3; discriminate]).
    destruct (W1 _ _ _ eq_refl K) as [_ NE]. unfold pending_links. destruct (fv_pending v) as [|[c r] l]; [congruence|]. eauto.
  - destruct (w_next w); [cbn; eauto|rewrite (W2 eq_refl) in W3; discriminate].
Qed.

(** the blocks asked for *)
Lemma adds_below get c b f new : get c = Some b -> try_parse dbg b = Ok f -> adds f new -> Forall (below X get c) new.
Proof.
  intros G P A. unfold adds in A. destruct (match u_type _ with Symlink => true | _ => false end); [subst; constructor|].
  apply Forall_forall. intros d Hd. apply (in_map Some) in Hd. rewrite A in Hd. apply in_map_iff in Hd as (l & E & Hl).
  eapply below_link; eassumption.
Qed.
Lemma walks_groups get w bs asked items w' : walks X (store get) w bs asked items w' -> wfw w ->
  should_continue w' = false ->
  exists groups, Forall2 (group X get) (todo w) groups /\ asked = concat groups.
Proof.
  intros H W SC. induction H as [w|w c others b k k' it w1 bs asked items w2 SC1 PL G K NX _ IH].
  - destruct W as (_ & _ & W). rewrite SC in W. destruct (todo w); [|discriminate]. exists []. split; [constructor|reflexivity].
  - apply next_inv in NX; [|exact K]. destruct (todo_step _ _ _ _ _ _ W PL NX) as (f & new & P & A & TD & W').
    destruct (IH W' SC) as (groups & G1 & ->). rewrite TD in G1. apply Forall2_app_inv_l in G1 as (g1 & g2 & G1 & G2 & ->).
    rewrite (pending_todo _ _ _ PL). exists ((c :: concat g1) :: g2). split; [|rewrite concat_app; reflexivity].
    constructor; [|exact G2]. exists (concat g1). split; [reflexivity|].
    pose proof (adds_below _ _ _ _ _ G P A) as B. clear - G1 B. revert g1 G1.
    induction B as [|d new Hd B IH]; intros g1 G1; inv G1; [constructor|]. cbn [concat]. apply Forall_app.
    split; [|apply IH; assumption]. destruct H1 as (rest & -> & Hr). constructor; [exact Hd|].
    eapply Forall_impl; [|exact Hr]. intros x Hx. eapply below_trans; eassumption.
Qed.


(** ** Caches *)

Lemma start_clean v f k : clean_cache k -> clean_cache (snd (start_from_parsed X v f k)).
Proof.
  intros H. unfold start_from_parsed. destruct (from_parsed X f) as [fr| | |]; try exact H.
  unfold start_from_reader. destruct (fr_content fr) as [[c|z base] tr]; [exact H|].
  destruct (select_links X 0 base z v); try (left; reflexivity).
  destruct (_ ++ _); [right|left]; reflexivity.
Qed.
Lemma continue_clean v b k : clean_cache k -> clean_cache (snd (continue_walk X v b k)).
Proof.
  intros H. unfold continue_walk. destruct (fv_pending v) as [|[c r] pending]; [exact H|].
  destruct (tr_continue_walk X (fv_state v) b r) as [fr| | |]; try exact H.
  destruct (fr_content fr) as [[d|z base] tr]; [|exact H].
  destruct (maybe_target_slice X d r (fv_range v)); try exact H.
  destruct pending; [right; reflexivity|exact H].
Qed.

Lemma walk_next_cache w b k1 k2 : clean_cache k1 -> clean_cache k2 ->
  fst (walk_next X w b k1) = fst (walk_next X w b k2) /\ clean_cache (snd (walk_next X w b k1)).
Proof.
  intros C1 C2.
  destruct (match w_current w with Some ie => in_file (ie_kind ie) | None => false end) eqn:IF.
  - destruct (w_current w) as [[ic [| | | | |[v|] sz|] ip im id]|] eqn:C; try discriminate IF.
    unfold walk_next. rewrite C. unfold next_in_file.
    pose proof (Visit_proofs.continue_cache X v b k1 k2) as E. pose proof (continue_clean v b k1 C1) as F.
    destruct (continue_walk X v b k1) as [r1 k1'], (continue_walk X v b k2) as [r2 k2']. cbn [fst snd] in E, F. subst r2.
    destruct (walk_read r1) as [[? ?]| | |]; split; try reflexivity; exact F.
  - assert (NF : forall ie, w_current w = Some ie -> in_file (ie_kind ie) = false) by (intros ie E; rewrite E in IF; exact IF).
    destruct (try_parse dbg b) as [f| | |] eqn:P;
      try (unfold walk_next; rewrite P; destruct (w_current w) as [[? [| | | | |[v|] ?|] ? ? ?]|];
           try (split; [reflexivity|exact C1]); specialize (NF _ eq_refl); discriminate NF).
    rewrite !(next_not_file X w b _ NF f P).
    assert (FD : forall links conv entry, fst (finish_dir w links conv entry k1) = fst (finish_dir w links conv entry k2)
      /\ clean_cache (snd (finish_dir w links conv entry k1))).
    { intros. unfold finish_dir. destruct (push_links _ _ _) as [[u| | |] q]; try (split; [reflexivity|exact C1]).
      destruct (match q with [] => _ | _ => _ end) as [[? ?] ?]. destruct entry as [[? ?]| | |]; split; try reflexivity; exact C1. }
    assert (FF : forall r, fst (failed w r k1) = fst (failed w r k2) /\ clean_cache (snd (failed w r k1)))
      by (intros; split; [reflexivity|exact C1]).
    pose proof (start_cache X None f k1 k2 ltac:(rewrite (clean_opt k1 C1), (clean_opt k2 C2); reflexivity)) as E.
    pose proof (start_clean None f k1 C1) as F.
    destruct (u_type (f_data f)).
    1,3: unfold idle_default; destruct (start_from_parsed X None f k1) as [r1 k1'], (start_from_parsed X None f k2) as [r2 k2'];
      cbn [fst snd] in E, F; subst r2; destruct (walk_read r1) as [[[[? ?] ?] ?]| | |]; try (split; [reflexivity|exact F]);
      destruct (w_next w) as [[[? ?] ?]|]; [|split; [reflexivity|exact F]];
      cbv zeta; destruct (w_current w) as [i|]; [destruct (as_entry X i _ _ _ _ _)|]; try (split; [reflexivity|exact F]);
      destruct (w_pending w); split; try reflexivity; exact F.
    + destruct (check_directory_supported f); try apply FF. destruct (w_next w) as [[[? ?] ?]|]; [apply FD|apply FF].
    + apply FF.
    + destruct (w_next w) as [[[? ?] ?]|]; [|apply FF].
      destruct (w_current w) as [i|]; [destruct (as_entry X i _ _ _ _ _)|]; try apply FF;
        destruct (w_pending w); split; try reflexivity; exact C1.
    + destruct (check_supported f); try apply FF. destruct (w_next w) as [[[? ?] ?]|]; [apply FD|apply FF].
Qed.

End thms.
