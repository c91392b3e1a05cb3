(** * Ends_walk: walks, and the example programs, over stores without cycles *)
From Verif Require Import Base Tac Wire Utf8 Cid Pb Reader Visit Dir Dir_proofs Walk SpecAdder SpecFile SpecDir SpecWalk Visit_proofs Walk_thms PropertiesWalk.
From Verif Require SpecFileSteps SpecWalkSteps SpecLookupSteps Steps_proofs Walk_exact Lookup_exact.
From Verif Require Import Programs SpecPrograms Store_proofs SpecRuns Runs_proofs SpecEnds Ends_proofs.

(** ** Only parsing can go on for ever *)
Lemma nd_bind {E A B} (m : outcome E A) (f : A -> outcome E B) :
  m <> Diverge -> (forall a, m = Ok a -> f a <> Diverge) -> bind m f <> Diverge.
Proof. destruct m; cbn; intros H1 H2; try congruence. apply H2. reflexivity. Qed.
Lemma nd_unwrap {E A} (o : option A) : @unwrap E A o <> Diverge.
Proof. destruct o; discriminate. Qed.
Lemma nd_assert {E} b : @assert E b <> Diverge.
Proof. destruct b; discriminate. Qed.
Lemma nd_dassert {E} d b : @dassert E d b <> Diverge.
Proof. destruct d, b; discriminate. Qed.
Lemma nd_add {E} d a b : @add64 E d a b <> Diverge.
Proof. unfold add64. destruct (_ <? _); [discriminate|]. destruct d; discriminate. Qed.
Lemma nd_sub {E} d a b : @sub64 E d a b <> Diverge.
Proof. unfold sub64. destruct (_ <=? _); [discriminate|]. destruct d; discriminate. Qed.
Lemma nd_map_err {E F A} (g : E -> F) (m : outcome E A) : m <> Diverge -> map_err g m <> Diverge.
Proof. destruct m; cbn; congruence. Qed.
Ltac nd := repeat first [discriminate | apply nd_unwrap | apply nd_assert | apply nd_dassert | apply nd_add | apply nd_sub
  | apply nd_map_err | (apply nd_bind; [|intros ? _]) | (match goal with |- (if ?b then _ else _) <> _ => destruct b end)].

Section walks.
Context (X : ext).
Lemma nd_parts f off md : from_parts X f off md <> Diverge.
Proof.
  unfold from_parts. destruct (u_type (f_data f)); try discriminate; destruct (u_hashtype (f_data f)), (u_fanout (f_data f)); nd; destruct (u_filesize (f_data f)); nd.
Qed.
Lemma nd_select t : forall z i base, select_links X i base z t <> Diverge.
Proof.
  induction z as [|[l n] z IH]; intros i base; cbn [select_links]; [discriminate|]. nd; try apply IH.
  unfold to_pending. destruct (ext_cid_decode _ _); discriminate.
Qed.
Lemma nd_slice c r t : maybe_target_slice X c r t <> Diverge.
Proof. destruct t as [t|]; cbn [maybe_target_slice]; [|discriminate]. unfold target_slice, slice_index. nd. Qed.
Lemma cw_diverge v b k : fst (continue_walk X v b k) = Diverge -> try_parse (ext_dbg X) b = Diverge.
Proof.
  unfold continue_walk. destruct (fv_pending v) as [|[c r] rest]; [discriminate|]. unfold tr_continue_walk, from_continued.
  destruct (check_is_suitable_next _ _ _); [discriminate|]. destruct (try_parse (ext_dbg X) b) as [f|e| |]; cbn [map_err bind]; try discriminate; [|reflexivity].
  intros H. exfalso. revert H.
  destruct (u_mode (f_data f)), (u_mtime (f_data f)); try discriminate.
  pose proof (nd_parts f (fst r) (tr_metadata (fv_state v))) as N. destruct (from_parts X f _ _) as [fr|e| |]; try discriminate; [|congruence].
  unfold fr_content. destruct (is_nil (fr_links fr)).
  - pose proof (nd_slice (fr_data fr) r (fv_range v)) as M. destruct (maybe_target_slice _ _ _ _); try discriminate; [|congruence]. destruct rest; discriminate.
  - cbn [fst]. pose proof (nd_select (fv_range v) (combine (fr_links fr) (fr_blocksizes fr)) 0 (fr_offset fr)) as M. destruct (select_links _ _ _ _ _); cbn; congruence.
Qed.
Lemma nd_start f k : fst (start_from_parsed X idle_default f k) <> Diverge.
Proof.
  unfold start_from_parsed, from_parsed. pose proof (nd_parts f 0 (metadata_of (f_data f))) as N. destruct (from_parts X f _ _) as [fr|e| |]; try discriminate; [|congruence].
  unfold start_from_reader, fr_content. destruct (is_nil (fr_links fr)); [discriminate|].
  pose proof (nd_select idle_default (combine (fr_links fr) (fr_blocksizes fr)) 0 (fr_offset fr)) as M. destruct (select_links _ _ _ _ _); try discriminate; [|congruence].
  destruct (_ ++ _); discriminate.
Qed.
Lemma nd_read {A} (r : outcome read_failed A) : r <> Diverge -> walk_read r <> Diverge.
Proof. destruct r as [|[]| |]; cbn; congruence. Qed.
Lemma nd_pop_to depth : forall d p, pop_to d depth p <> Diverge.
Proof. induction d as [|d IH]; intros p; cbn [pop_to]; [discriminate|]. nd. apply IH. Qed.
Lemma nd_pop_bucket depth : forall d p, pop_bucket d depth p <> Diverge.
Proof. induction d as [|d IH]; intros p; cbn [pop_bucket]; nd. apply IH. Qed.
Lemma nd_entry ie kd c name depth md : as_entry X ie kd c name depth md <> Diverge.
Proof. unfold as_entry, set_path. nd. apply nd_pop_to. Qed.
Lemma nd_bucket ie c name depth : as_bucket ie c name depth <> Diverge.
Proof. unfold as_bucket. destruct (ie_kind ie) as [| | | | |[?|]|]; nd; apply nd_pop_bucket. Qed.
Lemma nd_push convert : (forall i l, convert i l <> Diverge) -> forall ls p, fst (push_links convert ls p) <> Diverge.
Proof.
  intros C. induction ls as [|[i l] ls IH]; intros p; cbn [push_links]; [discriminate|].
  specialize (C i l). destruct (convert i l); try discriminate; [apply IH|congruence].
Qed.
Lemma nd_target i l : link_target X i l <> Diverge.
Proof. unfold link_target, try_convert_cid. destruct (ext_cid_decode _ _); discriminate. Qed.
Lemma nd_convert i l : try_convert_cid X i l <> Diverge.
Proof. unfold try_convert_cid. destruct (ext_cid_decode _ _); discriminate. Qed.
Lemma nd_link d i l : convert_link X d i l <> Diverge.
Proof. unfold convert_link. apply nd_bind; [apply nd_target|intros ? _]. destruct (l_name l) as [[|x s]|]; nd. Qed.
Lemma nd_sharded d s i l : convert_sharded_link X d s i l <> Diverge.
Proof. unfold convert_sharded_link. apply nd_bind; [apply nd_target|intros ? _]. unfold str_from. destruct (l_name l) as [t|]; nd. Qed.
Lemma nd_finish w links convert entry k : (forall i l, convert i l <> Diverge) -> entry <> Diverge -> fst (fst (finish_dir w links convert entry k)) <> Diverge.
Proof.
  intros C N. unfold finish_dir. pose proof (nd_push convert C (enumerate_rev links) (w_pending w)) as P.
  destruct (push_links _ _ _) as [[r|e| |] q]; cbn [fst] in P; try discriminate; [|congruence].
  destruct q as [|n q]; destruct entry as [[ie it]|e| |]; try discriminate; congruence.
Qed.
Lemma walk_diverge w b k : fst (fst (walk_next X w b k)) = Diverge -> try_parse (ext_dbg X) b = Diverge.
Proof.
  intros E. evar (R : walk_result).
  assert (Ew : walk_next X w b k = match w_current w with Some (InnerEntry _ (KFile (Some v) size) _ _ _ as ie) => next_in_file X w ie v size b k | _ => R end)
    by (unfold R; reflexivity). rewrite Ew in E. clear Ew.
  assert (In_file : forall ie v size, fst (fst (next_in_file X w ie v size b k)) = Diverge -> try_parse (ext_dbg X) b = Diverge).
  { intros ie v size. unfold next_in_file. pose proof (cw_diverge v b k) as C. destruct (continue_walk X v b k) as [r k0]. cbn [fst] in C.
    destruct r as [[bs step]|[]| |]; cbn [walk_read]; try discriminate. intros _. apply C. reflexivity. }
  assert (Rest : fst (fst R) = Diverge -> try_parse (ext_dbg X) b = Diverge).
  2: { destruct (w_current w) as [[c0 kd p0 md0 d0]|]; [|exact (Rest E)]. destruct kd as [| | | | |[v|] size|]; try exact (Rest E). exact (In_file _ _ _ E). }
  clear E In_file. unfold R. clear R. destruct (try_parse (ext_dbg X) b) as [f|e0| |] eqn:P; try discriminate; [|reflexivity].
  intros H. exfalso. revert H.
  assert (Entry : forall (kd : inner_kind) c name depth md,
    match w_current w with None => Ok (new_root kd c md name depth) | Some ie => as_entry X ie kd c name depth md end <> Diverge).
  { intros. destruct (w_current w); [apply nd_entry|discriminate]. }
  destruct (u_type (f_data f)).
  1, 3: pose proof (nd_start f k) as S; destruct (start_from_parsed X idle_default f k) as [r k0]; cbn [fst] in S; apply nd_read in S;
    destruct (walk_read r) as [[[[bs size] md] step]|e0| |]; try discriminate; [|congruence];
    destruct (w_next w) as [[[c name] depth]|]; [|discriminate];
    pose proof (Entry (KFile step size) c name depth md) as Q;
    match goal with |- context [match ?m with Ok _ => _ | Err _ => _ | Panic => _ | Diverge => _ end] => destruct m end; try discriminate; [|congruence];
    destruct (w_pending w); discriminate.
  - destruct (check_directory_supported f) as [f'| | |] eqn:Cd; try discriminate.
    2: { unfold check_directory_supported in Cd. match type of Cd with (if ?b then _ else _) = _ => destruct b end; discriminate Cd. }
    destruct (w_next w) as [[[c name] depth]|]; [|discriminate]. apply nd_finish; [apply nd_link|].
    destruct (w_current w); [|discriminate]. nd. apply nd_entry.
  - discriminate.
  - destruct (w_next w) as [[[c name] depth]|]; [|discriminate]. pose proof (Entry KSymlink c name depth (metadata_of (f_data f))) as Q.
    match goal with |- context [match ?m with Ok _ => _ | Err _ => _ | Panic => _ | Diverge => _ end] => destruct m end; try discriminate; [|congruence].
    destruct (w_pending w); discriminate.
  - destruct (check_supported f) as [?| | |] eqn:Cs; try discriminate.
    2: { assert (check_supported f <> Diverge) by (unfold check_supported; nd). congruence. }
    destruct (w_next w) as [[[c name] depth]|]; [|discriminate]. apply nd_finish; [apply nd_sharded|].
    destruct (w_current w); [|discriminate]. nd; [apply nd_bucket|apply nd_entry].
Qed.

(** ** Walks *)
Context (get : cid -> option bytes).
Notation unfolded := (unfolded X get).

Definition awaits (w : walker) (n : nat) : Prop :=
  if should_continue w then exists c others, w_pending_links w = Ok (c, others) /\ unfolded (c :: others) n else True.

Lemma followed_some f new : map Some new = map (link_cid X) (followed f) -> some_of new (targets X (f_links f)).
Proof.
  intros H. assert (Q : forall ls new, map Some new = map (link_cid X) ls -> some_of new (targets X ls)).
  { clear. induction ls as [|l ls IH]; intros [|c new] H; try discriminate H; [constructor|]. injection H as H1 H2.
    unfold targets. cbn [flat_map]. rewrite <- H1. cbn [app]. constructor. apply IH, H2. }
  unfold followed in H. destruct (u_type (f_data f)); try (apply Q, H). destruct new; [apply so_none|discriminate H].
Qed.
Lemma awaits_next root name bs asked items w c others n b k it w' k' :
  walks X anything (walker_new root name) bs asked items w -> should_continue w = true -> w_pending_links w = Ok (c, others) ->
  unfolded (c :: others) n -> get c = Some b -> clean_cache k -> walk_next X w b k = (Ok it, w', k') ->
  exists m, (m < n)%nat /\ awaits w' m.
Proof.
  intros W SC PL U G K E. destruct (C46_walk_step X root name bs asked items w W SC) as (c' & others' & PL' & H). rewrite PL in PL'. injection PL' as <- <-.
  destruct (H b k it w' k' K E) as (f & new & P & F & N). destruct (un_step X get c others n b f new U G P (followed_some f new F)) as (m & L & Um & _).
  exists m. split; [exact L|]. unfold awaits. destruct (new ++ others) as [|c2 o2]; [rewrite N; exact Logic.I|]. destruct N as [-> N]. eauto.
Qed.
Lemma walk_bound w bs2 asked2 items2 w2 : walks X (store get) w bs2 asked2 items2 w2 -> forall root name bs asked items n,
  walks X anything (walker_new root name) bs asked items w -> awaits w n -> (length asked2 <= n)%nat.
Proof.
  induction 1 as [w|w c others b k k' it w1 bs2 asked2 items2 w2 SC PL G K E H IH]; intros root name bs asked items n W A; [cbn; lia|].
  unfold awaits in A. rewrite SC in A. destruct A as (c' & o' & PL' & U). rewrite PL in PL'. injection PL' as <- <-.
  destruct (awaits_next _ _ _ _ _ _ _ _ _ _ _ _ _ _ W SC PL U G K E) as (m & L & A). cbn [length].
  enough (length asked2 <= m)%nat by lia. eapply IH; [|exact A]. eapply Walk_exact.walks_snoc; [exact W|exact SC|exact PL|exact Logic.I|exact K|exact E].
Qed.
Lemma walk_ends root name bs asked items w n : unfolded [root] n ->
  walks X (store get) (walker_new root name) bs asked items w -> (length asked <= n)%nat.
Proof.
  intros U W. eapply walk_bound; [exact W|constructor|]. unfold awaits. cbn. exists root, []. split; [reflexivity|exact U].
Qed.

(** ** The programs *)
Context (fs : disk) (dir : bytes) (Gd : good_dir dir).
Hypothesis D : forall c b, on_disk fs dir c (Contents b) -> get c = Some b.
Hypothesis Pa : parsable X get.

Lemma cat_ends : forall fuel ov links prev written read content n, at_step ov links prev -> unfolded (map fst links) n -> (n <= fuel)%nat ->
  fst (cat_loop X fuel fs dir ov written read content) <> Diverge.
Proof.
  induction fuel as [|fuel IH]; intros ov links prev written read content n A U L.
  { destruct ov as [v|]; cbn [cat_loop]; [|discriminate]. destruct A as [NE _]. destruct links as [|[c r] rest]; [congruence|]. inversion U; subst; lia. }
  destruct ov as [v|]; cbn [cat_loop]; [|discriminate].
  destruct A as [NE T]. destruct links as [|[c r] rest]; [congruence|].
  destruct (@disk_cases fs dir Gd read_failed c) as [(b & O & RB)|(err & Un & RB)].
  2:{ destruct (cat_round X v c r rest prev [] None T) as [PL _]. rewrite PL. cbn [map_err bind fst]. rewrite RB. discriminate. }
  destruct (cat_round X v c r rest prev b None T) as [PL (res1 & NS & R)]. rewrite PL. cbn [map_err bind fst]. rewrite RB. cbn [bind].
  rewrite plus_add64. destruct (SpecFileSteps.plus X read (blen b)) as [read'|]; cbn [bind]; [|discriminate].
  destruct res1 as [[[o links] prev']|e| |].
  - destruct R as (ov & R & A). rewrite R. cbn [map_err bind]. rewrite plus_add64.
    destruct (SpecFileSteps.plus X content (blen o)) as [content'|]; [|discriminate].
    destruct (next_new X _ _ _ _ _ _ _ _ NS) as (f & new & P & E & S). destruct (un_step X get c (map fst rest) n b f new U (D _ _ O) P S) as (m & Lm & Um & _).
    eapply IH; [exact A|exact (eq_ind_r (fun l => unfolded l m) Um E)|lia].
  - rewrite R. discriminate.
  - rewrite R. discriminate.
  - exfalso. apply (Pa c b (D _ _ O)). eapply next_diverge. exact NS.
Qed.
Lemma cat_walk_ends c n fuel : unfolded [c] n -> (n <= fuel)%nat -> fst (cat_walk X fuel fs dir c) <> Diverge.
Proof.
  intros U L. unfold cat_walk. destruct (@disk_cases fs dir Gd read_failed c) as [(b & O & RB)|(err & Un & RB)]; rewrite RB; cbn [bind]; [|discriminate].
  rewrite plus_add64. destruct (SpecFileSteps.plus X 0 (blen b)) as [read|]; cbn [bind]; [|discriminate].
  destruct (cat_start X b) as (res & F & R). destruct res as [[[out links] prev]|e| |].
  - destruct R as (size & md & ov & R & A). unfold idle_default. rewrite R. cbn [map_err bind]. rewrite plus_add64. destruct (SpecFileSteps.plus X 0 (blen out)) as [content|]; [|discriminate].
    destruct (first_new X _ _ _ _ _ F) as (f & P & S). destruct (un_step X get c [] n b f _ U (D _ _ O) P S) as (m & Lm & Um & _). rewrite app_nil_r in Um.
    eapply cat_ends; [exact A|exact Um|lia].
  - unfold idle_default. rewrite R. discriminate.
  - unfold idle_default. rewrite R. discriminate.
  - exfalso. apply (Pa c b (D _ _ O)). eapply first_diverge. exact F.
Qed.

Lemma get_ends : forall fuel w k printed root name bs asked items n, walks X anything (walker_new root name) bs asked items w -> clean_cache k ->
  awaits w n -> (n <= fuel)%nat -> fst (get_loop X fuel fs dir w k printed) <> Diverge.
Proof.
  induction fuel as [|fuel IH]; intros w k printed root name bs asked items n W K A L; cbn [get_loop]; unfold awaits in A; destruct (should_continue w) eqn:SC; try discriminate.
  { destruct A as (c & others & _ & U). inversion U; subst; lia. }
  destruct A as (c & others & PL & U). rewrite PL. cbn [map_err bind fst].
  destruct (@disk_cases fs dir Gd walk_error c) as [(b & O & RB)|(err & Un & RB)]; rewrite RB; [|discriminate].
  pose proof (walk_diverge w b k) as ND. pose proof (walk_next_cache X w b k k K K) as KC. destruct (walk_next X w b k) as [[r w'] k'] eqn:E. cbn [fst snd] in ND, KC.
  destruct r as [it|e| |]; cbn [map_err bind]; try discriminate.
  - destruct (get_lines it) as [ls|e| |] eqn:Gl; try discriminate.
    + destruct (awaits_next _ _ _ _ _ _ _ _ _ _ _ _ _ _ W SC PL U (D _ _ O) K E) as (m & Lm & A).
      eapply IH; [|apply KC|exact A|lia]. eapply Walk_exact.walks_snoc; [exact W|exact SC|exact PL|exact Logic.I|exact K|exact E].
    + exfalso. revert Gl. destruct it; cbn [get_lines]; try discriminate. destruct (utf8_valid _); discriminate.
  - exfalso. apply (Pa c b (D _ _ O)). apply ND. reflexivity.
Qed.
Lemma get_walk_ends c n fuel : unfolded [c] n -> (n <= fuel)%nat -> fst (get_walk X fuel fs dir c) <> Diverge.
Proof.
  intros U L. unfold get_walk. eapply get_ends; [constructor|left; reflexivity| |exact L]. unfold awaits. cbn. exists c, []. split; [reflexivity|exact U].
Qed.

Lemma buckets_end needle : forall fuel c queue k n, clean k -> unfolded (c :: queue) n -> (n <= fuel)%nat ->
  fst (resolve_buckets X fuel fs dir (Lookup (c :: queue) needle) k) <> Diverge.
Proof.
  induction fuel as [|fuel IH]; intros c queue k n K U L; cbn [resolve_buckets]; [inversion U; subst; lia|].
  cbn [lk_pending_links lk_links map_err bind fst]. destruct (@disk_cases fs dir Gd resolve_error c) as [(b & O & RB)|(err & Un & RB)]; rewrite RB; [|discriminate].
  destruct (buckets_round X needle c queue b k K) as (r & N & k' & E & K'). rewrite E.
  destruct r as [[d| |d others]|e| |]; cbn [Lookup_exact.seen]; try discriminate.
  - destruct (next_awaits X _ _ _ _ _ N) as (f & new & P & Ee & S). destruct (un_step X get c queue n b f new U (D _ _ O) P S) as (m & Lm & _ & Um).
    apply (IH d others k' m K'); [rewrite Ee; exact Um|lia].
  - exfalso. apply (Pa c b (D _ _ O)). eapply nc_diverges. exact N.
Qed.
Lemma resolve_ends (A : forall c, exists n, unfolded [c] n) : forall path c, exists N, forall fuel k, (N <= fuel)%nat -> clean k ->
  resolve_walk X fuel fs dir c path k <> Diverge.
Proof.
  intros path c.
  assert (Q : exists N, forall fuel, (N <= fuel)%nat -> forall k, clean k -> resolve_walk X fuel fs dir c path k <> Diverge); [|destruct Q as (N & Q); exists N; auto].
  revert c. induction path as [|s rest IH]; intros c; [exists 0%nat; discriminate|].
  destruct (@disk_cases fs dir Gd resolve_error c) as [(b & O & RB)|(err & Un & RB)].
  2:{ exists 0%nat. intros fuel _ k K. cbn [resolve_walk]. rewrite RB. discriminate. }
  (* the answer of the first call does not depend on the cache *)
  destruct (Lookup_exact.first_model X s b None (or_introl eq_refl)) as (r & F & _).
  assert (Fr : forall k, clean k -> exists k', resolve X b s k = (Lookup_exact.seen s r, k') /\ clean k').
  { intros k K. destruct (first_round X s b k K) as (r' & F' & k' & E & K'). rewrite (Lookup_exact.first_det X _ _ _ _ F' F) in E. eauto. }
  destruct r as [[d| |d others]|e| |].
  - destruct (IH d) as (N & H). exists N. intros fuel L k K. cbn [resolve_walk]. rewrite RB. cbn [bind]. destruct (Fr k K) as (k' & -> & K'). cbn [Lookup_exact.seen]. apply H; assumption.
  - exists 0%nat. intros fuel L k K. cbn [resolve_walk]. rewrite RB. cbn [bind]. destruct (Fr k K) as (k' & -> & K'). discriminate.
  - destruct (A c) as (n & U). destruct (first_awaits X _ _ _ _ F) as (f & P & S). destruct (un_step X get c [] n b f _ U (D _ _ O) P S) as (m & Lm & Um & _). rewrite app_nil_r in Um.
    assert (SD : search_on X fs dir s d others (fst (resolve_buckets X m fs dir (Lookup (d :: others) s) None))).
    { apply (search_sound X fs dir Gd s m d others None (or_introl eq_refl)). eapply buckets_end; [left; reflexivity|exact Um|lia]. }
    destruct (search_complete X fs dir Gd _ _ _ _ SD) as (_ & M & H).
    set (res := fst (resolve_buckets X m fs dir (Lookup (d :: others) s) None)) in *.
    assert (Q : exists N, forall fuel, (N <= fuel)%nat -> forall k, clean k -> (do o <- res; match o with Some d => resolve_walk X fuel fs dir d rest k | None => Ok None end) <> Diverge).
    { destruct res as [[d'|]|e| |] eqn:Er; try (exists 0%nat; discriminate).
      - destruct (IH d') as (N & HN). exists N. intros fuel L k K. cbn [bind]. apply HN; assumption.
      - exfalso. revert Er. unfold res. eapply buckets_end; [left; reflexivity|exact Um|lia]. }
    destruct Q as (N & HN). exists (N + M)%nat. intros fuel L k K. cbn [resolve_walk]. rewrite RB. cbn [bind]. destruct (Fr k K) as (k' & -> & K'). cbn [Lookup_exact.seen].
    pose proof (H fuel ltac:(lia) k' K') as Q. destruct (search_sound X fs dir Gd s fuel d others k' K') as [S1 _].
    destruct (resolve_buckets X fuel fs dir (Lookup (d :: others) s) k') as [o k2]. cbn [fst snd] in Q, S1. subst o. apply HN; [lia|exact S1].
  - exists 0%nat. intros fuel L k K. cbn [resolve_walk]. rewrite RB. cbn [bind]. destruct (Fr k K) as (k' & -> & K'). discriminate.
  - exists 0%nat. intros fuel L k K. cbn [resolve_walk]. rewrite RB. cbn [bind]. destruct (Fr k K) as (k' & -> & K'). discriminate.
  - exfalso. apply (Pa c b (D _ _ O)). eapply fc_diverges. exact F.
Qed.
End walks.
