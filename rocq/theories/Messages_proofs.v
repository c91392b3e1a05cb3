(** * Messages_proofs: proofs about the messages of errors *)
From Coq Require Import Strings.String.
From Coq Require Import Init.Byte.
From Verif Require Import Base Tac Wire Utf8 Cid Pb Parsed Reader Visit Dir Builder Walk Errors AdderDebug Output Messages
  SpecText Text_proofs SpecOutput Output_proofs Names_text_proofs PropertiesText.

Lemma bind_err {E A B} (m : outcome E A) (f : A -> outcome E B) e : bind m f = Err e -> m = Err e \/ exists a, m = Ok a /\ f a = Err e.
Proof. destruct m; cbn; intros H; try discriminate; eauto. left. congruence. Qed.
Lemma map_err_err {E E' A} (g : E -> E') (m : outcome E A) e : map_err g m = Err e -> exists e', m = Err e' /\ e = g e'.
Proof. destruct m; cbn; intros H; try discriminate. injection H as <-. eauto. Qed.
Lemma assert_err {E} b (e : E) : assert b = Err e -> False.
Proof. destruct b; discriminate. Qed.
Lemma dassert_err {E} d b (e : E) : dassert d b = Err e -> False.
Proof. destruct d, b; discriminate. Qed.
Lemma unwrap_err {E A} (o : option A) (e : E) : unwrap o = Err e -> False.
Proof. destruct o; discriminate. Qed.

(** ** The names in errors are text *)

Definition ic_text (e : invalid_cid) : Prop := text (ic_name e).
Definition rf_text (e : read_failed) : Prop := match e with InvalidCid e => ic_text e | _ => True end.
Definition lk_text (e : lookup_error) : Prop :=
  match e with LInvalidCid e | LMultiple (OneValid _ e) => ic_text e | _ => True end.
Definition rs_text (e : resolve_error) : Prop := match e with RLookup e => lk_text e | _ => True end.
Definition wk_text (e : walk_error) : Prop := match e with EInvalidCid e => ic_text e | _ => True end.

Lemma invalid_text nth l : lnames l -> ic_text (invalid_cid_of nth l).
Proof. intros T. unfold ic_text, invalid_cid_of, lnames in *. cbn [ic_name]. destruct (l_name l) as [s|]; cbn [opt]; [apply T; reflexivity|exact text_nil]. Qed.
Lemma parsed_names X b f : try_parse (ext_dbg X) b = Ok f -> Forall lnames (f_links f).
Proof. intros H. apply Forall_forall. intros l I name E. exact (C64_names _ _ _ H l name I E). Qed.
Lemma strs_names ls : Forall link_str ls -> Forall lnames ls.
Proof. intros F. eapply Forall_impl; [|exact F]. intros l [H _] name E. rewrite E in H. apply valid_text, H. Qed.
Lemma failed_names dbg b e : try_parse dbg b = Err e -> match e with InvalidDagPb _ => True | InvalidUnixFs _ n | NoData n => Forall lnames (n_links n) end.
Proof.
  intros H. unfold try_parse in H. apply bind_err in H as [H|(n & H1 & H)].
  - apply map_err_err in H as (e' & _ & ->). exact Logic.I.
  - destruct (pbnode_parse dbg b) as [n'| | |] eqn:E; cbn [map_err] in H1; try discriminate. injection H1 as <-. apply pbnode_parse_strs, strs_names in E.
    destruct (n_data n') as [[o [|x xs]]|]; try (injection H as <-; exact E).
    apply bind_err in H as [H|(d & _ & H)]; [|discriminate H]. apply map_err_err in H as (e' & _ & ->). exact E.
Qed.

Section errors.
Context (X : ext).

Lemma select_text : forall zipped nth base v e, Forall (fun z => lnames (fst z)) zipped -> select_links X nth base zipped v = Err e -> rf_text e.
Proof.
  induction zipped as [|[l z] rest IH]; intros nth base v e F E; cbn [select_links] in E; [discriminate E|]. inversion_clear F as [|? ? F1 F2].
  apply bind_err in E as [E|(n & _ & E)]; [unfold add64 in E; destruct (_ <? _), (ext_dbg X); discriminate E|].
  destruct (block_is_in_target_range (base, n) v); [|exact (IH _ _ _ _ F2 E)].
  apply bind_err in E as [E|(p & _ & E)].
  - unfold to_pending in E. destruct (ext_cid_decode X _); [discriminate E|]. injection E as <-. apply invalid_text, F1.
  - apply bind_err in E as [E|(ps & _ & E)]; [exact (IH _ _ _ _ F2 E)|discriminate E].
Qed.
Lemma parts_links inner off md fr : from_parts X inner off md = Ok fr -> fr_links fr = f_links inner.
Proof.
  unfold from_parts. intros E. destruct (u_type (f_data inner)); try discriminate E;
    (destruct (negb _); [discriminate E|]); (destruct (_ && _); [discriminate E|]); destruct (u_hashtype _); try discriminate E; destruct (u_fanout _); try discriminate E;
    apply bind_ok in E as (e & _ & E); apply bind_ok in E as (fs & _ & E); injection E as <-; reflexivity.
Qed.
Lemma parts_err inner off md e : from_parts X inner off md = Err e -> rf_text e.
Proof.
  unfold from_parts. intros E. assert (G : forall e', e = FileErr e' -> rf_text e) by (intros ? ->; exact Logic.I).
  destruct (u_type (f_data inner)); try (injection E as <-; exact Logic.I);
    (destruct (negb _); [injection E as <-; exact Logic.I|]); (destruct (_ && _); [injection E as <-; exact Logic.I|]); destruct (u_hashtype _);
    try (injection E as <-; exact Logic.I); destruct (u_fanout _); try (injection E as <-; exact Logic.I);
    (apply bind_err in E as [E|(x & _ & E)];
     [destruct (is_nil _); [|destruct (u_filesize _)];
      try (apply bind_err in E as [E|(y & _ & E)]; [unfold add64 in E; destruct (_ <? _), (ext_dbg X); discriminate E|discriminate E]); injection E as <-; exact Logic.I
     |apply bind_err in E as [E|(y & _ & E)]; [apply unwrap_err in E; destruct E|discriminate E]]).
Qed.
Lemma content_names fr : Forall lnames (fr_links fr) -> match fst (fr_content fr) with FLinks zipped _ => Forall (fun z => lnames (fst z)) zipped | _ => True end.
Proof.
  intros F. unfold fr_content. cbn [fst]. destruct (is_nil (fr_links fr)); [exact Logic.I|].
  apply Forall_forall. intros [l z] I. cbn [fst]. apply in_combine_l in I. rewrite Forall_forall in F. exact (F l I).
Qed.
Lemma slice_err content r v e : maybe_target_slice X content r v = Err e -> False.
Proof.
  intros E. destruct v as [v|]; [|discriminate E]. unfold maybe_target_slice, target_slice, slice_index in E.
  assert (S : forall a b (e : read_failed), sub64 (ext_dbg X) a b = Err e -> False) by (intros a b e0; unfold sub64; destruct (b <=? a), (ext_dbg X); discriminate).
  assert (A : forall a b (e : read_failed), add64 (ext_dbg X) a b = Err e -> False) by (intros a b e0; unfold add64; destruct (a + b <? two64), (ext_dbg X); discriminate).
  destruct (negb (block_is_in_target_range r (Some v))); [discriminate E|]. destruct (fst v <? fst r); [|destruct (snd r <? snd v)];
    repeat (apply bind_err in E as [E|(? & _ & E)]; [first [apply S in E; exact E|apply A in E; exact E]|]); apply unwrap_err in E; exact E.
Qed.
Lemma start_text v fr c e k : Forall lnames (fr_links fr) -> start_from_reader X v fr c = (Err e, k) -> rf_text e.
Proof.
  intros F E. unfold start_from_reader in E. pose proof (content_names fr F) as C. destruct (fr_content fr) as [content tr]. cbn [fst] in C.
  destruct content as [content|zipped base].
  - injection E as E _. apply bind_err in E as [E|(s & _ & E)]; [apply slice_err in E; destruct E|discriminate E].
  - destruct (select_links X 0 base zipped v) as [sel|e0| |] eqn:Q; try discriminate E.
    + destruct (opt c [] (fun i => i) ++ sel); discriminate E.
    + injection E as <- _. exact (select_text _ _ _ _ _ C Q).
Qed.
Lemma parsed_text f v c e k : Forall lnames (f_links f) -> start_from_parsed X v f c = (Err e, k) -> rf_text e.
Proof.
  intros F E. unfold start_from_parsed, from_parsed in E. destruct (from_parts X f 0 _) as [fr|e0| |] eqn:P; try discriminate E.
  - apply (start_text v fr c e k); [rewrite (parts_links _ _ _ _ P); exact F|exact E].
  - injection E as <- _. exact (parts_err _ _ _ _ P).
Qed.
Lemma visit_start_text v b e : visit_start X v b = Err e -> rf_text e.
Proof.
  unfold visit_start, from_block. intros E. apply bind_err in E as [E|(fr & Q & E)].
  - apply bind_err in E as [E|(f & _ & E)]; [|exact (parts_err _ _ _ _ E)]. apply map_err_err in E as (e' & _ & ->). destruct e'; exact Logic.I.
  - apply bind_ok in Q as (f & Q1 & Q). destruct (try_parse (ext_dbg X) b) as [f'| | |] eqn:P; try discriminate Q1. injection Q1 as <-.
    destruct (start_from_reader X v fr None) as [r k] eqn:R. cbn [fst] in E. subst r.
    apply (start_text v fr None e k); [rewrite (parts_links _ _ _ _ Q); exact (parsed_names X b f' P)|exact R].
Qed.
Lemma continue_text v b c e k : continue_walk X v b c = (Err e, k) -> rf_text e.
Proof.
  unfold continue_walk. intros E. destruct (fv_pending v) as [|[c0 r] pending]; [discriminate E|].
  destruct (tr_continue_walk X (fv_state v) b r) as [fr|e0| |] eqn:T; try discriminate E.
  - assert (L : Forall lnames (fr_links fr)).
    { unfold tr_continue_walk in T. destruct (check_is_suitable_next _ _ _); [discriminate T|]. unfold from_continued in T.
      apply bind_ok in T as (f & Q1 & T). destruct (try_parse (ext_dbg X) b) as [f'| | |] eqn:P; try discriminate Q1. injection Q1 as <-.
      destruct (u_mode (f_data f')); try discriminate T. destruct (u_mtime (f_data f')); try discriminate T.
      rewrite (parts_links _ _ _ _ T). exact (parsed_names X b f' P). }
    pose proof (content_names fr L) as C. destruct (fr_content fr) as [content tr]. cbn [fst] in C. destruct content as [content|zipped base].
    + destruct (maybe_target_slice X content r (fv_range v)) as [s|e0| |] eqn:M; try discriminate E; [destruct pending; discriminate E|]. apply slice_err in M. destruct M.
    + injection E as E _. apply bind_err in E as [E|(s & _ & E)]; [exact (select_text _ _ _ _ _ C E)|discriminate E].
  - injection E as <- _. unfold tr_continue_walk in T. destruct (check_is_suitable_next _ _ _); [injection T as <-; exact Logic.I|].
    unfold from_continued in T. apply bind_err in T as [T|(f & _ & T)].
    + apply map_err_err in T as (e' & _ & ->). destruct e'; exact Logic.I.
    + destruct (u_mode (f_data f)); [injection T as <-; exact Logic.I|]. destruct (u_mtime (f_data f)); [injection T as <-; exact Logic.I|]. exact (parts_err _ _ _ _ T).
Qed.

(** directories *)
Lemma convert_err nth l e : lnames l -> try_convert_cid X nth l = Err e -> ic_text e.
Proof. intros T. unfold try_convert_cid. destruct (ext_cid_decode X _); [discriminate|]. intros [= <-]. apply invalid_text, T. Qed.
Lemma multiple_text first j l : lnames l -> lk_text (LMultiple (multiple_of X first j l)).
Proof. intros T. unfold multiple_of. destruct (ext_cid_decode X _); [exact Logic.I|]. apply invalid_text, T. Qed.
Lemma partition_text needle : forall ls nth found work e, Forall lnames ls -> partition X nth ls needle found work = Err e -> lk_text e.
Proof.
  induction ls as [|l ls IH]; intros nth found work e F E; cbn [partition] in E; [discriminate E|]. inversion_clear F as [|? ? F1 F2].
  apply bind_err in E as [E|(hit & _ & E)].
  - destruct (2 <? _); [|discriminate E]. apply bind_err in E as [E|(? & _ & E)]; [|discriminate E]. unfold str_from in E. destruct (is_char_boundary _ _); discriminate E.
  - destruct hit; [destruct found as [first|]|].
    + injection E as <-. apply multiple_text, F1.
    + apply bind_err in E as [E|(c & _ & E)]; [|exact (IH _ _ _ _ F2 E)]. apply map_err_err in E as (e' & E & ->). exact (convert_err _ _ _ F1 E).
    + destruct (blen _ =? 2); [|exact (IH _ _ _ _ F2 E)]. apply bind_err in E as [E|(c & _ & E)]; [|exact (IH _ _ _ _ F2 E)].
      apply map_err_err in E as (e' & E & ->). exact (convert_err _ _ _ F1 E).
Qed.
Lemma conclude_err r needle k e k' : conclude r needle k = (Err e, k') -> r = Err e.
Proof. unfold conclude. destruct r as [[[c|] [|l ls]]| | |]; intros E; try discriminate E. injection E as <- _. reflexivity. Qed.
Lemma lookup_text f needle k e k' : Forall lnames (f_links f) -> lookup_or_start X f needle k = (Err e, k') -> lk_text e.
Proof.
  intros F E. unfold lookup_or_start in E. destruct (check_supported f); try discriminate E; [|injection E as <- _; exact Logic.I].
  apply conclude_err in E. exact (partition_text _ _ _ _ _ _ F E).
Qed.
Lemma lk_continue_text v b k e k' : lk_continue_walk X v b k = (Err e, k') -> lk_text e.
Proof.
  unfold lk_continue_walk. intros E. destruct (lk_links v) as [|c links]; [discriminate E|].
  destruct (try_parse (ext_dbg X) b) as [f|e0| |] eqn:P; try discriminate E.
  - destruct (is_hamt _); [|injection E as <- _; exact Logic.I]. destruct (check_supported f); try discriminate E; [|injection E as <- _; exact Logic.I].
    apply conclude_err in E. exact (partition_text _ _ _ _ _ _ (parsed_names X b f P) E).
  - destruct e0; injection E as <- _; exact Logic.I.
Qed.
Lemma matching_in needle : forall ls nth i l, In (i, l) (matching nth ls needle) -> In l ls.
Proof.
  induction ls as [|l0 ls IH]; intros nth i l I; cbn [matching] in I; [destruct I|].
  destruct (bytes_eqb _ _); [destruct I as [[= <- <-]|I]; [left; reflexivity|]|]; right; exact (IH _ _ _ I).
Qed.
Lemma plain_text ls needle e : Forall lnames ls -> resolve_plain X ls needle = Err e -> rs_text e.
Proof.
  intros F E. unfold resolve_plain in E. rewrite Forall_forall in F. destruct (matching 0 ls needle) as [|[i first] more] eqn:M; [discriminate E|].
  assert (G : forall j l, In (j, l) ((i, first) :: more) -> lnames l) by (intros j l I; rewrite <- M in I; exact (F l (matching_in _ _ _ _ _ I))).
  apply bind_err in E as [E|(c & _ & E)].
  - apply map_err_err in E as (e' & E & ->). exact (convert_err _ _ _ (G _ _ (or_introl eq_refl)) E).
  - destruct more as [|[j second] more]; [discriminate E|]. injection E as <-. apply multiple_text. exact (G j second (or_intror (or_introl eq_refl))).
Qed.
Lemma resolve_text b needle k e k' : resolve X b needle k = (Err e, k') -> rs_text e.
Proof.
  unfold resolve. intros E. destruct (try_parse (ext_dbg X) b) as [f|e0| |] eqn:P; try discriminate E.
  - pose proof (parsed_names X b f P) as F. destruct (u_type (f_data f)); try (injection E as <- _; exact Logic.I).
    + destruct (check_directory_supported f) as [f'| | |] eqn:C; try discriminate E; [|injection E as <- _; exact Logic.I]. injection E as E _.
      apply (plain_text (f_links f') needle); [|exact E].
      unfold check_directory_supported in C. match type of C with (if ?b then _ else _) = _ => destruct b end; [discriminate C|]. injection C as <-. exact F.
    + destruct (lookup_or_start X f needle k) as [r k0] eqn:L. injection E as E _. apply map_err_err in E as (e' & -> & ->). exact (lookup_text _ _ _ _ _ F L).
  - pose proof (failed_names _ _ _ P) as N. destruct e0; injection E as E _; try (apply (plain_text _ needle) in E; assumption). subst e. exact Logic.I.
Qed.

(** walks *)
Lemma read_text {A} (r : outcome read_failed A) e : (forall e, r = Err e -> rf_text e) -> walk_read r = Err e -> wk_text e.
Proof.
  intros H. destruct r as [a|e0| |]; cbn [walk_read]; intros E; try discriminate E. specialize (H e0 eq_refl).
  destruct e0; try discriminate E; injection E as <-; first [exact Logic.I|exact H].
Qed.
Lemma set_path_err ie name depth e : set_path X ie name depth = Err e -> False.
Proof.
  unfold set_path. intros E. apply bind_err in E as [E|(? & _ & E)]; [exact (dassert_err _ _ _ E)|].
  apply bind_err in E as [E|(p & _ & E)].
  - revert E. generalize (ie_path ie). induction (ie_depth ie) as [|d IH]; intros p E; cbn [pop_to] in E; [discriminate E|].
    destruct (depth <=? S d)%nat; [|discriminate E]. apply bind_err in E as [E|(q & _ & E)]; [exact (unwrap_err _ _ E)|exact (IH q E)].
  - apply bind_err in E as [E|(? & _ & E)]; [exact (dassert_err _ _ _ E)|discriminate E].
Qed.
Lemma as_entry_err ie k c name depth md e : as_entry X ie k c name depth md = Err e -> False.
Proof.
  unfold as_entry. destruct (in_file _); [discriminate|]. intros E. apply bind_err in E as [E|(p & _ & E)]; [exact (set_path_err _ _ _ _ E)|discriminate E].
Qed.
Lemma as_bucket_err ie c name depth e : as_bucket ie c name depth = Err e -> False.
Proof.
  assert (G : (do _ <- assert (is_nil name); do pd <- pop_bucket (ie_depth ie) depth (ie_path ie); do _ <- assert (snd pd =? depth)%nat;
    Ok (InnerEntry c KBucket (fst pd) (ie_metadata ie) (snd pd))) = Err e -> False).
  { intros E. apply bind_err in E as [E|(? & _ & E)]; [exact (assert_err _ _ E)|].
    apply bind_err in E as [E|(p & _ & E)].
    - revert E. generalize (ie_path ie). induction (ie_depth ie) as [|d IH]; intros p E; cbn [pop_bucket] in E; (destruct (depth <? _)%nat; [|discriminate E]); [discriminate E|].
      apply bind_err in E as [E|(q & _ & E)]; [exact (unwrap_err _ _ E)|exact (IH q E)].
    - apply bind_err in E as [E|(? & _ & E)]; [exact (assert_err _ _ E)|discriminate E]. }
  unfold as_bucket. destruct (ie_kind ie) as [| | | | |[v|] size|]; try exact G; try discriminate.
  intros E. apply bind_err in E as [E|(? & _ & E)]; [exact (assert_err _ _ E)|discriminate E].
Qed.
Lemma target_text nth l e : lnames l -> link_target X nth l = Err e -> wk_text e.
Proof. intros T E. unfold link_target in E. apply map_err_err in E as (e' & E & ->). exact (convert_err _ _ _ T E). Qed.
Lemma link_err depth nth l e : lnames l -> convert_link X depth nth l = Err e -> wk_text e.
Proof.
  intros T E. unfold convert_link in E. apply bind_err in E as [E|(c & _ & E)]; [exact (target_text _ _ _ T E)|].
  destruct (l_name l) as [[|x s]|]; try discriminate E. cbn [bind] in E. apply bind_err in E as [E|(? & _ & E)]; [destruct (assert_err _ _ E)|discriminate E].
Qed.
Lemma sharded_err d1 d2 nth l e : lnames l -> convert_sharded_link X d1 d2 nth l = Err e -> wk_text e.
Proof.
  intros T E. unfold convert_sharded_link in E. apply bind_err in E as [E|(c & _ & E)]; [exact (target_text _ _ _ T E)|].
  apply bind_err in E as [E|(dn & _ & E)].
  - destruct (l_name l) as [s|]; [|discriminate E]. destruct (2 <? blen s); [|destruct (blen s =? 2); discriminate E].
    apply bind_err in E as [E|(? & _ & E)]; [|discriminate E]. unfold str_from in E. destruct (is_char_boundary _ _); discriminate E.
  - apply bind_err in E as [E|(? & _ & E)]; [destruct (assert_err _ _ E)|discriminate E].
Qed.
Lemma push_err convert ls : (forall nth l e, In (nth, l) ls -> convert nth l = Err e -> wk_text e) ->
  forall pending e p, push_links convert ls pending = (Err e, p) -> wk_text e.
Proof.
  induction ls as [|[nth l] ls IH]; intros H pending e p E; cbn [push_links] in E; [discriminate E|].
  destruct (convert nth l) as [x|e0| |] eqn:C; try discriminate E.
  - refine (IH _ _ _ _ E). intros n l0 e0 I. apply H. right. exact I.
  - injection E as <- _. exact (H nth l e0 (or_introl eq_refl) C).
Qed.
Lemma finish_err w ls convert entry k e w' k' : (forall nth l e, In l ls -> convert nth l = Err e -> wk_text e) ->
  (forall e, entry = Err e -> False) -> finish_dir w ls convert entry k = (Err e, w', k') -> wk_text e.
Proof.
  intros C H E. unfold finish_dir in E. destruct (push_links convert (enumerate_rev ls) (w_pending w)) as [r p] eqn:P. destruct r as [u|e0| |]; try discriminate E.
  - destruct p as [|n p]; destruct entry as [[ie it]|e0| |]; try discriminate E; destruct (H e0 eq_refl).
  - injection E as <- _ _. refine (push_err convert _ _ _ _ _ P). intros nth l e1 I. apply C. unfold enumerate_rev in I. rewrite <- in_rev in I. exact (in_combine_r _ _ _ _ I).
Qed.
Lemma next_err w b k e w' k' : walk_next X w b k = (Err e, w', k') -> wk_text e.
Proof.
  intros E. evar (R : walk_result).
  assert (Ew : walk_next X w b k = match w_current w with Some (InnerEntry _ (KFile (Some v) size) _ _ _ as ie) => next_in_file X w ie v size b k | _ => R end)
    by (unfold R; reflexivity). rewrite Ew in E. clear Ew.
  assert (In_file : forall ie v size, next_in_file X w ie v size b k = (Err e, w', k') -> wk_text e).
  { intros ie v size Q. unfold next_in_file in Q. destruct (continue_walk X v b k) as [r k0] eqn:C.
    destruct (walk_read r) as [[bs step]|e0| |] eqn:RR; try discriminate Q. injection Q as <- _ _. apply (read_text r); [|exact RR]. intros e1 ->. exact (continue_text _ _ _ _ _ C). }
  assert (Rest : R = (Err e, w', k') -> wk_text e).
  2: { destruct (w_current w) as [[c0 kd p0 md0 d0]|]; [|exact (Rest E)]. destruct kd as [| | | | |[v|] size|]; try exact (Rest E). exact (In_file _ _ _ E). }
  clear E In_file. unfold R. clear R. intros E. destruct (try_parse (ext_dbg X) b) as [f|e0| |] eqn:P; try discriminate E.
  2: { injection E as <- _ _. destruct e0; exact Logic.I. }
  pose proof (parsed_names X b f P) as F. rewrite Forall_forall in F.
  assert (Entry : forall (kd : inner_kind) c name depth md e0,
    match w_current w with None => Ok (new_root kd c md name depth) | Some ie => as_entry X ie kd c name depth md end = Err e0 -> False).
  { intros. destruct (w_current w) as [ie0|]; [eapply as_entry_err; eassumption|discriminate]. }
  assert (Supp : forall f', check_directory_supported f = Ok f' -> f' = f).
  { intros f'. unfold check_directory_supported. match goal with |- (if ?b then _ else _) = _ -> _ => destruct b end; congruence. }
  assert (Leaf : forall (A : Type) (m : outcome walk_error A) (g : A -> walk_result), (forall e0, m = Err e0 -> False) -> (forall a e0 w0 k0, g a <> (Err e0, w0, k0)) ->
    forall kk, match m with Ok a => g a | Err e0 => failed w (Err e0) kk | Panic => failed w Panic kk | Diverge => failed w Diverge kk end = (Err e, w', k') -> wk_text e).
  { intros A m g M G kk Q. destruct m as [a|e0| |]; try discriminate Q; [destruct (G _ _ _ _ Q)|destruct (M e0 eq_refl)]. }
  destruct (u_type (f_data f)).
  1, 3: destruct (start_from_parsed X idle_default f k) as [r k0] eqn:S; destruct (walk_read r) as [[[[bs size] md] step]|e0| |] eqn:RR; try discriminate E;
    [destruct (w_next w) as [[[c name] depth]|]; [|discriminate E]; refine (Leaf _ _ _ (fun e0 => Entry _ _ _ _ _ e0) _ _ E); intros a e0 w0 kk Q; destruct (w_pending w); discriminate Q
    |injection E as <- _ _; apply (read_text r); [|exact RR]; intros e1 ->; exact (parsed_text _ _ _ _ _ (proj2 (Forall_forall _ _) F) S)].
  - destruct (check_directory_supported f) as [f'| | |]; try discriminate E; [|injection E as <- _ _; exact Logic.I]. rewrite (Supp f' eq_refl) in E.
    destruct (w_next w) as [[[c name] depth]|]; [|discriminate E].
    refine (finish_err w _ _ _ _ _ _ _ _ _ E); [intros nth l e0 I; apply link_err, F, I|].
    intros e0 Q. destruct (w_current w); [|discriminate Q]. apply bind_err in Q as [Q|(? & _ & Q)]; [exact (as_entry_err _ _ _ _ _ _ _ Q)|discriminate Q].
  - injection E as <- _ _. exact Logic.I.
  - destruct (w_next w) as [[[c name] depth]|]; [|discriminate E]. refine (Leaf _ _ _ (fun e0 => Entry _ _ _ _ _ e0) _ _ E). intros a e0 w0 kk Q. destruct (w_pending w); discriminate Q.
  - destruct (check_supported f) as [?| | |]; try discriminate E; [|injection E as <- _ _; exact Logic.I].
    destruct (w_next w) as [[[c name] depth]|]; [|discriminate E].
    refine (finish_err w _ _ _ _ _ _ _ _ _ E); [intros nth l e0 I; apply sharded_err, F, I|].
    intros e0 Q. destruct (w_current w); [|discriminate Q].
    destruct (is_nil name); apply bind_err in Q as [Q|(? & _ & Q)]; try discriminate Q; [exact (as_bucket_err _ _ _ _ _ Q)|exact (as_entry_err _ _ _ _ _ _ _ Q)].
Qed.
End errors.

(** ** Builders *)
Definition build_text (full : bytes) (e : build_error) : Prop :=
  match e with
  | RootedPath s | RepeatSlashesInPath s | PathEndsInSlash s | DuplicatePath s | LeafAsDirectory s => s = full
  | TooManyRootLevelEntries => True
  end.
Lemma loop_err wrap full f : (forall d key n e d' n', f d key n = (Err e, d', n') -> build_text full e) ->
  forall remaining depth d counter e d' c', modify_loop wrap full f remaining depth d counter = (Err e, d', c') -> build_text full e.
Proof.
  intros Hf. induction remaining as [|next rest IH]; intros depth d counter e d' c' E; cbn [modify_loop] in E; [discriminate E|].
  destruct (check_segment full depth next _) as [u|e0| |] eqn:C; try discriminate E.
  - destruct u. destruct rest as [|s rest].
    + destruct (match depth with O => negb wrap && negb (dirb_is_empty d) | _ => false end).
      * injection E as <- _ _. exact Logic.I.
      * destruct (f d next (Some counter)) as [[r d1] n1] eqn:Q. injection E as -> _ _. exact (Hf _ _ _ _ _ _ Q).
    + destruct (bt_get next (d_nodes d)) as [[l z|sub]|].
      * injection E as <- _ _. reflexivity.
      * destruct (modify_loop wrap full f (s :: rest) (S depth) sub counter) as [[r d1] c1] eqn:Q. injection E as -> _ _. exact (IH _ _ _ _ _ _ Q).
      * destruct (match depth with O => negb wrap && negb (dirb_is_empty d) | _ => false end); [injection E as <- _ _; exact Logic.I|].
        unfold dirb_new in E. destruct (d_id d =? counter); [discriminate E|].
        destruct (modify_loop wrap full f (s :: rest) (S depth) _ (counter + 1)) as [[r d1] c1] eqn:Q. injection E as -> _ _. exact (IH _ _ _ _ _ _ Q).
  - injection E as <- _ _. unfold check_segment in C. destruct depth, next, rest; try discriminate C; injection C as <-; reflexivity.
Qed.
Lemma modify_err b full f e b' : (forall d key n e d' n', f d key n = (Err e, d', n') -> build_text full e) -> modify_with b full f = (Err e, b') -> build_text full e.
Proof.
  intros Hf E. unfold modify_with in E. destruct (ends_with_slash full); [injection E as <- _; reflexivity|]. destruct (contains_slashes full); [injection E as <- _; reflexivity|].
  destruct (modify_loop _ full f _ _ _ _) as [[r d1] c1] eqn:Q. injection E as -> _. exact (loop_err _ _ _ Hf _ _ _ _ _ _ _ Q).
Qed.
Lemma put_link_err b full c z e b' : put_link b full c z = (Err e, b') -> build_text full e.
Proof. apply modify_err. intros d key n e0 d' n'. unfold put_leaf. destruct (bt_get key _); intros Q; try discriminate Q. injection Q as <- _ _. reflexivity. Qed.
Lemma set_metadata_err b full md e b' : set_metadata b full md = (Err e, b') -> build_text full e.
Proof.
  apply modify_err. intros d key n e0 d' n'. unfold put_metadata. destruct (bt_get key _) as [[l z|sub]|]; intros Q; try discriminate Q.
  - injection Q as <- _ _. reflexivity.
  - destruct n; [|discriminate Q]. unfold dirb_new in Q. destruct (_ =? _); discriminate Q.
Qed.
