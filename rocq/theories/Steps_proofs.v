(** * Steps_proofs: file visits do what SpecFileSteps.v says. *)
From Verif Require Import Base Tac Wire Cid Pb Reader Visit SpecFile SpecWalk Visit_proofs SpecFileSteps.

Section steps.
Context (X : ext).
Notation bytes := (list byte).

Definition before_of (off : N) (e : ending) : before :=
  match e with TreeCoverage e => AfterNode off e | Chunk e => AfterLeaf e end.

Lemma plus_add a b : @add64 read_failed (ext_dbg X) a b = match plus X a b with Some s => Ok s | None => Panic end.
Proof. unfold add64, plus. destruct (a + b <? two64) eqn:E; [reflexivity|]. destruct (ext_dbg X); reflexivity. Qed.

(** ** The place of a block *)
Lemma misplaced_model e off r :
  match check_is_suitable_next e off r with
  | Some err => misplaced (before_of off e) r err
  | None => forall err, ~ misplaced (before_of off e) r err
  end.
Proof.
  destruct e as [e|e]; cbn [check_is_suitable_next before_of].
  - destruct (N.leb_spec (fst r) off); destruct (N.ltb_spec e (snd r)); cbn [andb]; [apply expands; assumption| | |].
    all: destruct (N.ltb_spec (fst r) e); cbn [andb];
      try (apply overlaps; assumption);
      destruct (N.ltb_spec (fst r) off); try (apply earlier; assumption); try lia.
    all: intros err M; inv M; lia.
  - destruct (N.eqb_spec (fst r) e); cbn [negb]; [|apply jumps; assumption]. intros err M. inv M. congruence.
Qed.
Lemma misplaced_det p r e e' : misplaced p r e -> misplaced p r e' -> e = e'.
Proof. intros H H'. inv H; inv H'; try reflexivity; lia. Qed.

(** ** The contents of a block *)
Lemma opt_own f : opt (u_data (f_data f)) [] (fun d => d) = own_data f.
Proof. unfold own_data. destruct (u_data (f_data f)); reflexivity. Qed.

Lemma judged_model f off md :
  judged X f off (do fr <- from_parts X f off md; Ok (before_of off (fr_end fr)))
  /\ forall fr, from_parts X f off md = Ok fr ->
     exists fs e, u_filesize (f_data f) = Some fs /\ fr = FileReader off e (f_links f) (own_data f) (u_blocksizes (f_data f)) md fs.
Proof.
  unfold from_parts. set (u := f_data f).
  assert (T : (is_file u /\ forall A (a b c d e : A), match u_type u with File | Raw => a | _ => b end = a) \/ (~ is_file u)).
  { unfold is_file. destruct (u_type u); ((left; split; [auto|reflexivity]) || (right; intros [?|?]; discriminate)). }
  destruct (Nat.eqb (length (f_links f)) (length (u_blocksizes u))) eqn:M; cbn [negb].
  2:{ assert (Mm : ~ matched f) by (intros H; apply Nat.eqb_neq in M; apply M, H).
      split; [|intros fr; destruct (u_type u); discriminate].
      destruct (u_type u) eqn:Et; cbn [bind]; try (unfold u in Et; rewrite <- Et; apply j_type; intros [H|H]; congruence);
        apply j_counts; [right|assumption|left|assumption]; assumption. }
  apply Nat.eqb_eq in M. change (matched f) in M.
  assert (V : opt (u_data u) true is_nil && negb (opt (u_filesize u) 0 (fun n => n) =? 0) && is_nil (f_links f) = true <-> void f).
  { unfold void, own_data. fold u. destruct (u_filesize u) as [n|]; cbn [opt].
    - destruct (N.eqb_spec n 0); destruct (f_links f); destruct (u_data u) as [[|x d]|]; cbn [opt is_nil negb andb];
        split; try discriminate; try (intros (? & ? & k & Hk & ?); congruence); intros _; eauto 6.
    - change (0 =? 0) with true. rewrite andb_false_r. split; [discriminate|]. intros (_ & _ & k & Hk & _). discriminate. }
  destruct (u_type u) eqn:Et;
    try (split; [|discriminate]; cbn [bind]; unfold u in Et; rewrite <- Et; apply j_type; intros [H|H]; congruence).
  all: assert (T' : is_file (f_data f)) by (unfold is_file; fold u; auto); clear T.
  all: destruct (opt (u_data u) true is_nil && negb (opt (u_filesize u) 0 (fun n => n) =? 0) && is_nil (f_links f)) eqn:Ev;
    [split; [|discriminate]; cbn [bind]; apply j_void; [assumption|assumption|apply V; reflexivity]|].
  all: assert (NV : ~ void f) by (intros H; apply V in H; discriminate); clear V.
  all: destruct (u_hashtype u) eqn:Eh; [split; [|discriminate]; cbn [bind]; unfold u in Eh; rewrite <- Eh; apply j_props; auto; intros [H _]; congruence|].
  all: destruct (u_fanout u) eqn:Ef; [split; [|discriminate]; cbn [bind]; unfold u in Eh, Ef; rewrite <- Eh, <- Ef; apply j_props; auto; intros [_ H]; congruence|].
  all: assert (B : bare (f_data f)) by (split; assumption).
  all: destruct (is_nil (f_links f)) eqn:En; [apply is_nil_true in En|apply is_nil_false in En].
  all: unfold u; rewrite opt_own; fold u.
  all: destruct (u_filesize u) as [fs|] eqn:Es; cbn [opt]; rewrite ?plus_add.
  all: try (destruct (plus X off fs) as [e|] eqn:Ep; cbn [bind unwrap fr_end before_of]).
  all: try (destruct (plus X off (blen (own_data f))) as [e|] eqn:Ep; cbn [bind unwrap fr_end before_of]).
  all: split; [|first [discriminate|intros fr H; injection H as <-; eauto]].
  all: first [eapply j_leaf; eassumption|eapply j_node; eassumption|eapply j_overflow; eassumption|apply j_nosize_leaf; assumption|apply j_nosize_node; assumption].
Qed.
Lemma judged_det f off r r' : judged X f off r -> judged X f off r' -> r = r'.
Proof.
  intros H H'. inv H; inv H'; try reflexivity; try contradiction; try congruence.
  all: repeat match goal with V : void _ |- _ => destruct V as (? & ? & ? & ? & ?) end; congruence.
Qed.

(** ** Links *)
Lemma touches_model target r : block_is_in_target_range r target = true <-> touches target r.
Proof.
  unfold block_is_in_target_range, touches. destruct target as [[a b]|]; [|tauto]. cbn [fst snd]. apply N.leb_le.
Qed.
Lemma touches_false target r : block_is_in_target_range r target = false <-> ~ touches target r.
Proof. rewrite <- touches_model. destruct (block_is_in_target_range r target); split; congruence. Qed.

Lemma picks_model target ls : forall i off zs, length ls = length zs ->
  picks X target i off ls zs (select_links X i off (combine ls zs) target).
Proof.
  induction ls as [|l ls IH]; intros i off [|z zs] L; try discriminate; cbn [combine select_links]; [constructor|].
  rewrite plus_add. destruct (plus X off z) as [e|] eqn:P; cbn [bind]; [|apply p_overflow; exact P].
  injection L as L. specialize (IH (Datatypes.S i) e zs L).
  destruct (block_is_in_target_range (off, e) target) eqn:T.
  - apply touches_model in T. unfold to_pending.
    change (opt (l_hash l) [] (fun h => h)) with (match l_hash l with Some h => h | None => [] end).
    destruct (ext_cid_decode X _) as [c|] eqn:D; cbn [bind].
    + destruct (select_links X (Datatypes.S i) e (combine ls zs) target) as [ps|err| |] eqn:S; cbn [bind];
        [eapply p_take|eapply p_take_fails|eapply p_take_fails|eapply p_take_fails]; try eassumption; try discriminate.
    + eapply p_invalid; eassumption.
  - apply touches_false in T. eapply p_skip; eassumption.
Qed.
Lemma picks_ends target i off ls zs r : picks X target i off ls zs r -> r <> Diverge.
Proof. induction 1; try discriminate; assumption. Qed.
Lemma picks_det target i off ls zs r r' : picks X target i off ls zs r -> picks X target i off ls zs r' -> r = r'.
Proof.
  intros H. revert r'. induction H as [| |i off e l ls z zs r P T H IH| |i off e l ls z zs c ps P T C H IH|i off e l ls z zs c r P T C H IH NE];
    intros r' H'; inv H'; try reflexivity; try congruence.
  all: repeat match goal with A : plus X ?a ?b = Some _, B : plus X ?a ?b = Some _ |- _ => rewrite A in B; injection B as <- end.
  all: try contradiction.
  all: repeat match goal with A : link_cid X ?a = Some _, B : link_cid X ?a = Some _ |- _ => rewrite A in B; injection B as <- end.
  all: try congruence.
  all: try match goal with A : picks X _ _ _ _ _ _ |- _ => specialize (IH _ A) end; try (injection IH as <-); subst; try reflexivity; try congruence.
  all: try (exfalso; match goal with N : forall ps, _ <> Ok ps |- _ => eapply N; reflexivity end).
Qed.

(** ** Bytes *)
Definition u64_target (target : option range) : Prop :=
  match target with None => True | Some (a, b) => a < two64 /\ b < two64 end.

Lemma cut_model (target : option range) (r : range) d : u64_target target -> cut target r d (maybe_target_slice X d r target).
Proof.
  intros U. destruct target as [[a b]|]; [|apply cut_all; reflexivity]. destruct U as [Ua Ub]. cbn [maybe_target_slice]. unfold target_slice.
  match goal with |- context [negb ?x] => destruct x eqn:T end; cbn [negb]; [|apply cut_none, touches_false; exact T].
  apply touches_model in T. cbn [fst snd]. assert (T' := T). cbn [touches] in T'. destruct r as [s e]. cbn [fst snd] in *.
  assert (K : forall x y, x = N.max a s - s -> y = N.min b e - s ->
     cut (Some (a, b)) (s, e) d (slice_index d x y)).
  { intros x y -> ->. unfold slice_index, get_range. fold (blen d).
    destruct (N.leb_spec (N.max a s - s) (N.min b e - s)) as [_|]; [|lia]. cbn [andb].
    destruct (N.leb_spec (N.min b e - s) (blen d)) as [Lb|Lb]; cbn [unwrap].
    - eapply cut_part; [reflexivity|exact T|exact Lb].
    - eapply cut_short; [reflexivity|exact T|exact Lb]. }
  destruct (N.ltb_spec a s); [|destruct (N.ltb_spec e b)].
  - rewrite sub64_ok by lia. cbn [bind]. apply K; lia.
  - rewrite !sub64_ok by lia. cbn [bind]. apply K; lia.
  - rewrite !sub64_ok by lia. cbn [bind]. rewrite add64_ok by lia. cbn [bind]. apply K; lia.
Qed.
Lemma cut_det target r d x y : cut target r d x -> cut target r d y -> x = y.
Proof.
  intros H H'. inv H; inv H'; try reflexivity; try congruence; try contradiction; try (exfalso; match goal with N : ~ touches None _ |- _ => apply N; exact Logic.I end).
  all: match goal with A : Some _ = Some _ |- _ => injection A as <- <- end; try reflexivity; lia.
Qed.

(** ** A parsed block *)
Definition open_model (target : option range) (r : range) (rest : list pending_link) (f : flat) (md : metadata)
  : outcome read_failed (bytes * list pending_link * before) :=
  do fr <- from_parts X f (fst r) md;
  match fr_content fr with
  | (FBytes d, tr) => do s <- maybe_target_slice X d r target; Ok (s, rest, before_of (tr_last_offset tr) (tr_last_ending tr))
  | (FLinks z base, tr) => do sel <- select_links X 0 base z target; Ok ([], sel ++ rest, before_of (tr_last_offset tr) (tr_last_ending tr))
  end.

Lemma opened_model target r rest f md : u64_target target -> opened X target r rest f (open_model target r rest f md).
Proof.
  intros U. unfold open_model. destruct (judged_model f (fst r) md) as [J S].
  destruct (from_parts X f (fst r) md) as [fr|e| |]; cbn [bind] in *; [|apply o_err; exact J|apply o_panic; exact J|inversion J].
  destruct (S _ eq_refl) as (fs & e & Hs & ->). clear S. unfold fr_content.
  cbn [fr_links fr_data fr_offset fr_end fr_file_size fr_metadata fr_blocksizes tr_last_offset tr_last_ending] in *.
  destruct (is_nil (f_links f)) eqn:En; [apply is_nil_true in En|apply is_nil_false in En].
  - destruct e as [e|e]; cbn [before_of] in *; [inversion J; congruence|].
    pose proof (cut_model target r (own_data f) U) as C. destruct (maybe_target_slice X (own_data f) r target) as [s|err| |]; cbn [bind].
    + apply o_leaf; assumption.
    + inversion C.
    + eapply o_short; eassumption.
    + inversion C.
  - destruct e as [e|e]; cbn [before_of] in *; [|inversion J; congruence].
    assert (M : matched f) by (inversion J; assumption).
    pose proof (picks_model target (f_links f) 0 (fst r) (u_blocksizes (f_data f)) M) as P.
    destruct (select_links X 0 (fst r) _ target) as [ps|err| |]; cbn [bind].
    + apply o_node; assumption.
    + eapply o_node_err; eassumption.
    + eapply o_node_panic; eassumption.
    + exfalso. exact (picks_ends _ _ _ _ _ _ P eq_refl).
Qed.
Lemma opened_det target r rest f x y : opened X target r rest f x -> opened X target r rest f y -> x = y.
Proof.
  intros H H'. inv H; inv H'.
  all: match goal with A : judged X ?g _ ?a, B : judged X ?g _ ?b |- _ =>
     pose proof (judged_det _ _ _ _ A B) as EJ; try discriminate EJ; try (injection EJ as <-); try (injection EJ as <- <-); clear A B end.
  all: try reflexivity; try congruence.
  all: try match goal with A : cut _ _ _ _, B : cut _ _ _ _ |- _ => pose proof (cut_det _ _ _ _ _ A B); congruence end.
  all: match goal with A : picks X _ _ _ _ _ _, B : picks X _ _ _ _ _ _ |- _ => pose proof (picks_det _ _ _ _ _ _ _ A B); congruence end.
Qed.

(** ** The calls *)
Lemma first_det target b x y : first_step X target b x -> first_step X target b y -> x = y.
Proof.
  intros H H'. inv H; inv H'; try congruence.
  match goal with A : try_parse _ b = Ok ?f, B : try_parse _ b = Ok ?g |- _ => rewrite A in B; injection B as <- end.
  eapply opened_det; eassumption.
Qed.
Lemma next_det target p r rest b x y : next_step X target p r rest b x -> next_step X target p r rest b y -> x = y.
Proof.
  intros H H'. inv H; inv H'; try congruence;
    try (exfalso; match goal with A : forall e, ~ misplaced _ _ e, B : misplaced _ _ ?e |- _ => exact (A e B) end);
    try (match goal with A : misplaced _ _ ?e, B : misplaced _ _ ?e' |- _ => rewrite (misplaced_det _ _ _ _ A B); reflexivity end);
    match goal with A : try_parse _ b = Ok ?f, B : try_parse _ b = Ok ?g |- _ => rewrite A in B; injection B as <- end;
    try contradiction; try reflexivity.
  eapply opened_det; eassumption.
Qed.

Lemma says_metadata u : metadata_of u = says u.
Proof. unfold metadata_of, says. destruct (u_mtime u) as [[s [n|]]|]; reflexivity. Qed.
Lemma unreadable_model e : read_failed_of e = unreadable e.
Proof. destruct e; reflexivity. Qed.

Definition done_of {A} (o : outcome read_failed (bytes * list pending_link * before)) (k : bytes -> list pending_link -> A) : outcome read_failed A :=
  match o with Ok (out, links, _) => Ok (k out links) | Err e => Err e | Panic => Panic | Diverge => Diverge end.

(** what [visit_start] returns *)
Lemma start_model target b : u64_target target ->
  exists r, first_step X target b r
  /\ match r with
     | Ok (out, links, prev) => exists f size ov,
         try_parse (ext_dbg X) b = Ok f /\ u_filesize (f_data f) = Some size
         /\ visit_start X target b = Ok (out, size, says (f_data f), ov)
         /\ match ov with
            | None => links = []
            | Some v => links <> [] /\ fv_pending v = links /\ fv_range v = target
                        /\ prev = before_of (tr_last_offset (fv_state v)) (tr_last_ending (fv_state v))
            end
     | Err e => visit_start X target b = Err e
     | Panic => visit_start X target b = Panic
     | Diverge => visit_start X target b = Diverge
     end.
Proof.
  intros U. unfold visit_start, from_block.
  destruct (try_parse (ext_dbg X) b) as [f|e| |] eqn:P; cbn [map_err bind].
  2:{ exists (Err (unreadable e)). split; [apply f_unreadable; exact P|]. rewrite unreadable_model. reflexivity. }
  2:{ exists Panic. split; [apply f_panic; exact P|reflexivity]. }
  2:{ exists Diverge. split; [apply f_diverge; exact P|reflexivity]. }
  pose proof (opened_model target (0, blen (own_data f)) [] f (metadata_of (f_data f)) U) as O.
  unfold open_model in O. cbn [fst] in O. destruct (judged_model f 0 (metadata_of (f_data f))) as [_ S].
  destruct (from_parts X f 0 (metadata_of (f_data f))) as [fr|e| |]; cbn [bind] in *.
  2:{ exists (Err e). split; [eapply f_opened; eassumption|reflexivity]. }
  2:{ exists Panic. split; [eapply f_opened; eassumption|reflexivity]. }
  2:{ exists Diverge. split; [eapply f_opened; eassumption|reflexivity]. }
  destruct (S _ eq_refl) as (fs & e & Hs & ->). clear S. unfold start_from_reader, fr_content in *.
  cbn [fr_links fr_data fr_offset fr_end fr_file_size fr_metadata fr_blocksizes tr_last_offset tr_last_ending tr_file_size] in *.
  destruct (is_nil (f_links f)).
  - destruct (maybe_target_slice X (own_data f) (0, blen (own_data f)) target) as [s|err| |]; cbn [bind fst] in *;
      (eexists; split; [eapply f_opened; eassumption|]); try reflexivity.
    exists f, fs, None. rewrite says_metadata. auto.
  - destruct (select_links X 0 0 _ target) as [ps|err| |]; cbn [bind fst opt app] in *;
      (eexists; split; [eapply f_opened; eassumption|]); try reflexivity.
    rewrite says_metadata, app_nil_r. destruct ps as [|p ps]; cbn [fst].
    + exists f, fs, None. auto.
    + exists f, fs. eexists. split; [reflexivity|]. split; [exact Hs|]. split; [reflexivity|].
      cbn [fv_pending fv_range fv_state tr_last_offset tr_last_ending]. repeat split; discriminate.
Qed.

(** what [continue_walk] returns *)
Lemma continue_model v b k c r rest : u64_target (fv_range v) -> fv_pending v = (c, r) :: rest ->
  exists res, next_step X (fv_range v) (before_of (tr_last_offset (fv_state v)) (tr_last_ending (fv_state v))) r rest b res
  /\ match res with
     | Ok (out, links, prev) => exists ov k',
         continue_walk X v b k = (Ok (out, ov), k')
         /\ match ov with
            | None => links = [] /\ exists e, prev = AfterLeaf e
            | Some v' => (links = [] -> exists s e, prev = AfterNode s e) /\ fv_pending v' = links /\ fv_range v' = fv_range v
                        /\ prev = before_of (tr_last_offset (fv_state v')) (tr_last_ending (fv_state v'))
            end
     | Err e => fst (continue_walk X v b k) = Err e
     | Panic => fst (continue_walk X v b k) = Panic
     | Diverge => fst (continue_walk X v b k) = Diverge
     end.
Proof.
  intros U Hp. unfold continue_walk. rewrite Hp. unfold tr_continue_walk, from_continued.
  set (p := before_of (tr_last_offset (fv_state v)) (tr_last_ending (fv_state v))).
  pose proof (misplaced_model (tr_last_ending (fv_state v)) (tr_last_offset (fv_state v)) r) as M. fold p in M.
  destruct (check_is_suitable_next _ _ r) as [e|].
  { exists (Err (FileErr e)). split; [apply n_misplaced; exact M|reflexivity]. }
  destruct (try_parse (ext_dbg X) b) as [f|e| |] eqn:P; cbn [map_err bind].
  2:{ exists (Err (unreadable e)). split; [apply n_unreadable; assumption|]. rewrite unreadable_model. reflexivity. }
  2:{ exists Panic. split; [apply n_panic; assumption|reflexivity]. }
  2:{ exists Diverge. split; [apply n_diverge; assumption|reflexivity]. }
  assert (D : no_metadata (f_data f) \/ ~ no_metadata (f_data f)).
  { unfold no_metadata. destruct (u_mode (f_data f)); [right; intros [? _]; discriminate|].
    destruct (u_mtime (f_data f)); [right; intros [_ ?]; discriminate|left; auto]. }
  destruct D as [D|D].
  2:{ exists (Err (FileErr (NonRootDefinesMetadata (says (f_data f))))). split; [eapply n_metadata; eassumption|].
      rewrite <- says_metadata. destruct (u_mode (f_data f)) eqn:E1; [reflexivity|]. destruct (u_mtime (f_data f)) eqn:E2; [reflexivity|].
      exfalso. apply D. split; assumption. }
  destruct D as [D1 D2]. rewrite D1, D2.
  pose proof (opened_model (fv_range v) r rest f (tr_metadata (fv_state v)) U) as O.
  unfold open_model in O. destruct (judged_model f (fst r) (tr_metadata (fv_state v))) as [J S].
  assert (N : forall x, opened X (fv_range v) r rest f x -> next_step X (fv_range v) p r rest b x)
    by (intros x H; eapply n_opened; [exact M|exact P|split; assumption|exact H]).
  destruct (from_parts X f (fst r) (tr_metadata (fv_state v))) as [fr|e| |]; cbn [bind] in *.
  2:{ exists (Err e). split; [apply N, O|reflexivity]. }
  2:{ exists Panic. split; [apply N, O|reflexivity]. }
  2:{ exists Diverge. split; [apply N, O|reflexivity]. }
  destruct (S _ eq_refl) as (fs & e & Hs & ->). clear S. unfold fr_content in *.
  cbn [fr_links fr_data fr_offset fr_end fr_file_size fr_metadata fr_blocksizes tr_last_offset tr_last_ending tr_file_size] in *.
  destruct (is_nil (f_links f)) eqn:En; [apply is_nil_true in En|apply is_nil_false in En].
  - destruct (maybe_target_slice X (own_data f) r (fv_range v)) as [s|err| |]; cbn [bind] in *;
      (eexists; split; [apply N; exact O|]); try reflexivity.
    destruct e as [e|e]; cbn [before_of] in *; [inversion J; congruence|].
    destruct rest as [|q rest]; eexists _, _; (split; [reflexivity|]).
    + split; [reflexivity|eauto].
    + cbn [fv_pending fv_range fv_state tr_last_offset tr_last_ending before_of]. split; [discriminate|]. repeat split.
  - destruct (select_links X 0 (fst r) _ (fv_range v)) as [ps|err| |]; cbn [bind] in *;
      (eexists; split; [apply N; exact O|]); try reflexivity.
    destruct e as [e|e]; cbn [before_of] in *; [|inversion J; congruence].
    eexists _, _; (split; [reflexivity|]). cbn [fv_pending fv_range fv_state tr_last_offset tr_last_ending before_of]. split; [eauto|]. repeat split.
Qed.

(** ** Histories *)
Lemma visit_snoc gives t bs asked out v b c o k k' out' ov :
  visit X gives t bs asked out (Some v) -> pending_links v = Ok (c, o) -> gives c b ->
  continue_walk X v b k = (Ok (out', ov), k') -> visit X gives t (bs ++ [b]) (asked ++ [c]) (out ++ out') ov.
Proof.
  intros H P G C. remember (Some v) as sv eqn:Ev. inversion H as [|root o1 size md v0 bs0 asked0 out2 ov0 S C0]; subst; [discriminate|].
  rewrite <- app_assoc. cbn [app]. eapply visit_multi; [exact S|]. clear - C0 P G C.
  remember (Some v) as sv eqn:Ev. induction C0 as [w|w c0 o0 b0 k0 k0' out0 w' bs0 asked0 out2 ov0 P0 G0 C0 C1 IH|]; subst.
  - injection Ev as ->. cbn [app]. destruct ov as [v'|].
    + rewrite <- (app_nil_r out'). eapply cont_next; [exact P|exact G|exact C|apply cont_here].
    + eapply cont_last; eassumption.
  - rewrite <- app_assoc. cbn [app]. eapply cont_next; [exact P0|exact G0|exact C0|]. apply IH. reflexivity.
  - discriminate.
Qed.

Definition tracks (v : file_visit) (target : option range) (links : list pending_link) (prev : before) : Prop :=
  fv_pending v = links /\ fv_range v = target
  /\ prev = before_of (tr_last_offset (fv_state v)) (tr_last_ending (fv_state v)).

Lemma visit_unfolds gives target bs asked out ov : u64_target target -> visit X gives target bs asked out ov ->
  exists links prev, unfolds X target bs asked out links prev
  /\ match ov with
     | None => links = []
     | Some v => tracks v target links prev
     end.
Proof.
  intros U H.
  assert (C : forall v bs1 asked1 out1 ov, continues X gives v bs1 asked1 out1 ov -> forall bs0 asked0 out0 links prev,
    unfolds X target bs0 asked0 out0 links prev -> tracks v target links prev ->
    exists links' prev', unfolds X target (bs0 ++ bs1) (asked0 ++ asked1) (out0 ++ out1) links' prev'
    /\ match ov with None => links' = [] | Some v => tracks v target links' prev' end).
  { clear H ov. intros v bs1 asked1 out1 ov H. induction H as [v|v c o b k k' out1 v' bs1 asked1 out2 ov P G CW C IH|v c o b k k' out1 P G CW];
      intros bs0 asked0 out0 links prev Un (T1 & T2 & T3).
    - rewrite !app_nil_r. exists links, prev. split; [exact Un|]. repeat split; assumption.
    - apply pending_links_ok in P as (r & rest & P & ->). rewrite T1 in P. subst links. 
      destruct (continue_model v b k c r rest) as (res & NS & R); [rewrite T2; exact U|exact T1|]. rewrite T2, <- T3 in NS.
      destruct res as [[[o1 links'] prev']|e| |]; [|rewrite CW in R; discriminate..]. destruct R as (ov' & k2 & R & R2). rewrite CW in R.
      injection R as -> <- ->. destruct R2 as (_ & R2 & R3 & R4). rewrite T2 in R3.
      destruct (IH (bs0 ++ [b]) (asked0 ++ [c]) (out0 ++ o1) links' prev') as (l2 & p2 & Un2 & Q).
      + eapply u_next; eassumption.
      + repeat split; assumption.
      + exists l2, p2. rewrite <- !app_assoc in Un2. split; [exact Un2|exact Q].
    - apply pending_links_ok in P as (r & rest & P & ->). rewrite T1 in P. subst links.
      destruct (continue_model v b k c r rest) as (res & NS & R); [rewrite T2; exact U|exact T1|]. rewrite T2, <- T3 in NS.
      destruct res as [[[o1 links'] prev']|e| |]; [|rewrite CW in R; discriminate..]. destruct R as (ov' & k2 & R & R2). rewrite CW in R.
      injection R as -> <- ->. destruct R2 as (-> & _). exists [], prev'. split; [eapply u_next; eassumption|reflexivity]. }
  destruct (start_model target (hd [] bs) U) as (r & F & R).
  inversion H as [root o1 size md S E1 E2 E3 E4|root o1 size md v bs1 asked1 out2 ov1 S CW E1 E2 E3 E4]; subst; cbn [hd] in *; rewrite S in R;
    (destruct r as [[[o2 links] prev]|e| |]; [|discriminate..]; destruct R as (f & size' & ov' & P & Z & R & R2); injection R as <- <- -> <-).
  - exists links, prev. split; [apply u_first; exact F|exact R2].
  - destruct R2 as (NE & R2 & R3 & R4). apply (C _ _ _ _ _ CW [root] [] o1 links prev); [apply u_first; exact F|]. repeat split; assumption.
Qed.

(** and back: whatever unfolds is a visit *)
Lemma unfolds_visit target bs asked out links prev : u64_target target -> unfolds X target bs asked out links prev ->
  exists ov, visit X anything target bs asked out ov /\ match ov with None => links = [] | Some v => tracks v target links prev end.
Proof.
  intros U H. induction H as [b out links prev F|bs asked out c r rest prev b out' links' prev' H IH N].
  - destruct (start_model target b U) as (r & F' & R). rewrite (first_det _ _ _ _ F' F) in R.
    destruct R as (f & size & ov & P & Z & S & R). destruct ov as [v|].
    + exists (Some v). split; [rewrite <- (app_nil_r out); eapply visit_multi; [exact S|apply cont_here]|]. destruct R as (_ & R). exact R.
    + exists None. split; [eapply visit_single; exact S|exact R].
  - destruct IH as (ov & V & T). destruct ov as [v|]; [|discriminate]. destruct T as (T1 & T2 & T3).
    destruct (continue_model v b None c r rest) as (res & NS & R); [rewrite T2; exact U|exact T1|].
    rewrite T2, <- T3 in NS. rewrite (next_det _ _ _ _ _ _ _ NS N) in R. destruct R as (ov' & k' & CW & R).
    exists ov'. split.
    + eapply visit_snoc; [exact V|unfold pending_links; rewrite T1; reflexivity|exact Logic.I|exact CW].
    + destruct ov' as [v'|]; [|apply R]. destruct R as (_ & R2 & R3 & R4). rewrite T2 in R3. repeat split; assumption.
Qed.
End steps.
