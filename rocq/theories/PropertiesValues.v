(** * PropertiesValues: C80, what values look like when they are debugged *)
From Coq Require Import Strings.String.
From Coq Require Import Init.Byte.
From Verif Require Import Base Tac Wire Utf8 Cid Pb Dagpb Parse_safety Reader Visit Dir Builder Walk SpecBuilder Paths_proofs Builder_thms Builder_use PropertiesBuilder
  AdderDebug Output Messages SpecText Text_proofs SpecOutput Output_proofs SpecDir SpecFile SpecWalk Names_text_proofs SpecMessages PropertiesMessages
  Values SpecValues Examples_builder.

(** ** the model prints what the specification says *)
Ltac shape := unfold record_text, variant_text; cbn [map fst snd joined]; cbn [ascii lit list_byte_of_string app]; repeat rewrite <- app_assoc; cbn [app]; reflexivity.
Lemma n_ok n : number n (numeral 10 n).
Proof. apply numeral_ok. lia. Qed.
Lemma range_shown r : span_is r (range_debug r).
Proof. exists (numeral 10 (fst r)), (numeral 10 (snd r)). split; [apply n_ok|]. split; [apply n_ok|reflexivity]. Qed.
Lemma option_shown {A} (is : A -> bytes -> Prop) (f : A -> bytes) o : match o with Some x => is x (f x) | None => True end ->
  option_is is o (some_debug (option_map f o)).
Proof. destruct o as [x|]; [|reflexivity]. intros H. exists (f x). split; [exact H|reflexivity]. Qed.
Lemma bool_shown b : bool_debug b = truth b.
Proof. destruct b; reflexivity. Qed.
Lemma joined_commas ts : commas ts = joined ts.
Proof. induction ts as [|t [|u ts] IH]; [reflexivity..|]. change (t ++ lit ", " ++ commas (u :: ts) = t ++ ascii ", " ++ joined (u :: ts)). rewrite IH. reflexivity. Qed.
Lemma items_shown {A} (is : A -> bytes -> Prop) (f : A -> bytes) l : Forall (fun x => is x (f x)) l -> items_are is l (list_debug (map f l)).
Proof.
  intros F. exists (map f l). split; [induction F; constructor; assumption|]. unfold list_debug. rewrite joined_commas. reflexivity.
Qed.
Lemma octets_shown b : octets b (slice_debug b).
Proof.
  exists (map (fun x => numeral 10 (b2n x)) b). split; [induction b; constructor; [apply n_ok|assumption]|].
  unfold slice_debug, list_debug. rewrite joined_commas. reflexivity.
Qed.

#[local] Opaque numeral metadata_debug debug_str list_debug some_debug slice_debug bool_debug range_debug.
Section shown.
Context (F : foreign) (shown : cid -> bytes) (P : forall c, t_plain F c = true -> 32 <= c /\ c <> 127).
Let q_ok s : text s -> quoted s (debug_str (t_plain F) s).
Proof. intros T. apply debug_ok; [exact P|exact T]. Qed.

Lemma segment_shown s : segment_is s (segment_debug s).
Proof. eexists. split; [apply octets_shown|]. unfold segment_debug. rewrite !bool_shown. shape. Qed.
Lemma item_shown it : itext it -> item_is (t_cid F) it (continued_debug F it).
Proof.
  destruct it as [c p|c p md|s c p md size|c p md|o c p md]; intros T; cbn [itext item_is continued_debug] in *.
  - eexists. split; [apply q_ok, T|]. shape.
  - eexists _, _. split; [apply q_ok, T|]. split; [apply metadata_shown|]. shape.
  - eexists _, _, _, _. split; [apply segment_shown|]. split; [apply q_ok, T|]. split; [apply metadata_shown|]. split; [apply n_ok|]. shape.
  - eexists _, _. split; [apply q_ok, T|]. split; [apply metadata_shown|]. shape.
  - eexists _, _, _. split; [apply octets_shown|]. split; [apply q_ok, T|]. split; [apply metadata_shown|]. shape.
Qed.
Lemma ending_shown e : ending_is e (ending_debug e).
Proof. destruct e; (eexists; split; [apply n_ok|]; shape). Qed.
Lemma traversal_shown v : traversal_is v (traversal_debug v).
Proof.
  eexists _, _, _, _. split; [apply ending_shown|]. split; [apply n_ok|]. split; [apply n_ok|]. split; [apply metadata_shown|].
  unfold traversal_debug. shape.
Qed.
Lemma visit_shown v : visit_is (t_cid F) v (file_visit_debug F v).
Proof.
  eexists _, _, _. split; [apply (items_shown (pending_is (t_cid F)) (pending_debug F))|].
  - apply Forall_forall. intros p _. eexists. split; [apply range_shown|]. unfold pending_debug. shape.
  - split; [apply (option_shown span_is range_debug); destruct (fv_range v); [apply range_shown|exact Logic.I]|].
    split; [apply traversal_shown|]. unfold file_visit_debug. shape.
Qed.
Lemma kind_shown k : kind_is (t_cid F) k (kind_debug F k).
Proof.
  destruct k as [| | | | |v z|]; try reflexivity. eexists _, _. split; [apply (option_shown (visit_is (t_cid F)) (file_visit_debug F)); destruct v; [apply visit_shown|exact Logic.I]|].
  split; [apply n_ok|]. unfold kind_debug. shape.
Qed.
Lemma link_shown l : ltext l -> link_is (t_cid F) l (link_debug F l).
Proof. destruct l as [[c n] d]. intros T. eexists _, _. split; [apply q_ok, T|]. split; [apply n_ok|]. unfold link_debug. shape. Qed.
Lemma walker_shown w : wtext w -> walker_is (t_cid F) shown w (walker_debug F shown w).
Proof.
  intros (T1 & T2 & T3). eexists _, _, _. split; [|split; [|split]].
  - apply (option_shown (entry_is (t_cid F) shown) (inner_debug F shown)). destruct (w_current w) as [e|]; [|exact Logic.I].
    eexists _, _, _, _. split; [apply n_ok|]. split; [apply kind_shown|]. split; [apply q_ok, T1|]. split; [apply metadata_shown|].
    unfold inner_debug. shape.
  - apply (option_shown (link_is (t_cid F)) (link_debug F)). destruct (w_next w) as [l|]; [|exact Logic.I]. apply link_shown, T2.
  - apply (items_shown (link_is (t_cid F)) (link_debug F)). apply Forall_rev. eapply Forall_impl; [|exact T3]. exact link_shown.
  - unfold walker_debug. rewrite bool_shown. shape.
Qed.
Lemma lookup_shown v : text (lk_needle v) -> lookup_is (lk_needle v) (N.of_nat (length (lk_links v))) (lookup_debug F v).
Proof. intros T. eexists _, _. split; [apply n_ok|]. split; [apply q_ok, T|]. unfold lookup_debug. shape. Qed.
Lemma node_shown n : text (n_path n) -> node_is shown n (tree_node_debug F shown n).
Proof. intros T. eexists _, _, _. split; [apply q_ok, T|]. split; [apply n_ok|]. split; [apply n_ok|]. unfold tree_node_debug. shape. Qed.
End shown.

(** ** C80 *)

(** Along every walk, whatever the blocks are: the walker and the items it
    returns. *)
Theorem C80_walk : forall X F shown, (forall c, t_plain F c = true -> 32 <= c /\ c <> 127) ->
  forall root name bs asked items w, text name -> walks X anything (walker_new root name) bs asked items w ->
  walker_is (t_cid F) shown w (walker_debug F shown w) /\ Forall (fun it => item_is (t_cid F) it (continued_debug F it)) items.
Proof.
  intros X F sh P root name bs asked items w T H. apply (new_text root) in T.
  enough (G : wtext w /\ Forall itext items).
  { destruct G as [G1 G2]. split; [apply walker_shown; [exact P|exact G1]|]. eapply Forall_impl; [|exact G2]. intros it. apply item_shown, P. }
  revert T. induction H as [|w c others b k k' it w1 bs asked items w2 _ _ _ _ N _ IH]; intros T; [split; [exact T|constructor]|].
  destruct (next_text X _ _ _ _ _ _ T N) as [T1 T2]. destruct (IH T1). split; [assumption|constructor; assumption].
Qed.
Print Assumptions C80_walk.

(** File visits, also before they start. *)
Theorem C80_visit : forall F v, visit_is (t_cid F) v (file_visit_debug F v).
Proof. exact visit_shown. Qed.
Print Assumptions C80_visit.
Theorem C80_idle : forall v : option (N * N), exists r, option_is span_is v r
  /\ idle_debug v = record_text (ascii "IdleFileVisit") [(ascii "range", r)].
Proof.
  intros v. exists (some_debug (option_map range_debug v)). split; [apply (option_shown span_is range_debug); destruct v; [apply range_shown|exact Logic.I]|].
  unfold idle_debug. shape.
Qed.
Print Assumptions C80_idle.

(** Lookups tell how many links they have yet to follow (those of
    [pending_links]), and the name. *)
Definition resolved_is (debugged : cid -> bytes) (needle : bytes) (r : maybe_resolved) (t : bytes) : Prop :=
  match r with
  | Found c => t = variant_text (ascii "Found") [debugged c]
  | NotFound => t = ascii "NotFound"
  | NeedToLoadMore v => exists first rest u, lk_pending_links v = Ok (first, rest)
      /\ lookup_is needle (1 + N.of_nat (length rest)) u /\ t = variant_text (ascii "NeedToLoadMore") [u]
  end.
Lemma resolved_shown F needle r : (forall c, t_plain F c = true -> 32 <= c /\ c <> 127) -> text needle ->
  match r with NeedToLoadMore v => lk_needle v = needle /\ lk_links v <> [] | _ => True end ->
  resolved_is (t_cid F) needle r (resolved_debug F r).
Proof.
  intros P T. destruct r as [c|v|]; [reflexivity| |reflexivity]. intros [<- N]. unfold resolved_is, lk_pending_links.
  destruct (lk_links v) as [|c l] eqn:E; [contradiction N; reflexivity|]. exists c, l, (lookup_debug F v). split; [reflexivity|]. split; [|reflexivity].
  replace (1 + N.of_nat (length l)) with (N.of_nat (length (lk_links v))) by (rewrite E; cbn [length]; lia). apply lookup_shown; [exact P|exact T].
Qed.
Lemma conclude_needle r needle k m k' : conclude r needle k = (Ok m, k') ->
  match m with NeedToLoadMore v => lk_needle v = needle /\ lk_links v <> [] | _ => True end.
Proof.
  unfold conclude. destruct r as [[[c|] [|l ls]]| | |]; intros [= <- _]; try exact Logic.I. split; [reflexivity|discriminate].
Qed.
Theorem C80_lookup : forall X F, (forall c, t_plain F c = true -> 32 <= c /\ c <> 127) -> forall needle, text needle ->
  (forall b k r k', resolve X b needle k = (Ok r, k') -> resolved_is (t_cid F) needle r (resolved_debug F r))
  /\ (forall v b k r k', lk_needle v = needle -> lk_continue_walk X v b k = (Ok r, k') -> resolved_is (t_cid F) needle r (resolved_debug F r)).
Proof.
  intros X F P needle T. split.
  - intros b k r k' H. apply resolved_shown; [exact P|exact T|]. unfold resolve in H.
    assert (Pl : forall ls, resolve_plain X ls needle = Ok r -> match r with NeedToLoadMore v => lk_needle v = needle /\ lk_links v <> [] | _ => True end).
    { intros ls E. unfold resolve_plain in E. destruct (matching 0 ls needle) as [|[i first] more]; [injection E as <-; exact Logic.I|].
      destruct (try_convert_cid X i first); cbn [map_err bind] in E; try discriminate E. destruct more as [|[j z] more]; [injection E as <-; exact Logic.I|discriminate E]. }
    destruct (try_parse (ext_dbg X) b) as [f|[e|n|e n]| |]; try discriminate H; try (injection H as H _; exact (Pl _ H)).
    destruct (u_type (f_data f)); try discriminate H.
    + destruct (check_directory_supported f) as [f'| | |]; try discriminate H. injection H as H _. exact (Pl _ H).
    + unfold lookup_or_start in H. destruct (check_supported f); cbn [map_err] in H; try discriminate H.
      match type of H with (let '(_, _) := conclude ?a ?b ?c in _) = _ => destruct (conclude a b c) as [r0 k0] eqn:C end.
      destruct r0 as [m| | |]; cbn [map_err] in H; try discriminate H. injection H as <- _. exact (conclude_needle _ _ _ _ _ C).
  - intros v b k r k' <- H. apply resolved_shown; [exact P|exact T|]. unfold lk_continue_walk in H. destruct (lk_links v); [discriminate H|].
    destruct (try_parse (ext_dbg X) b) as [f|[e|n|e n]| |]; try discriminate H. destruct (is_hamt _); [|discriminate H].
    destruct (check_supported f); try discriminate H. exact (conclude_needle _ _ _ _ _ H).
Qed.
Print Assumptions C80_lookup.

(** Nodes of built trees do not show their blocks, only the size. *)
Lemma join_text l : Forall text l -> text (join l).
Proof.
  induction 1 as [|n l T F IH]; [exact text_nil|]. destruct l as [|m l]; [exact T|]. change (join (n :: m :: l)) with (n ++ x2f :: join (m :: l)).
  apply text_app; [exact T|]. apply text_ascii; [reflexivity|exact IH].
Qed.
Theorem C80_tree : forall X F shown, (forall c, t_plain F c = true -> 32 <= c /\ c <> 127) ->
  forall opts ks node, Forall (fun k => text (call_path k)) ks -> emitted X (after (builder_new opts) ks) node ->
  node_is shown node (tree_node_debug F shown node).
Proof.
  intros X F sh P opts ks node T E. apply node_shown; [exact P|]. destruct (C30_tree opts ks) as (t & Ht & _).
  destruct (emitted_at X opts ks t Ht node E) as (names & es & S & _ & -> & _). cbn [node_of n_path]. apply join_text.
  assert (Tx : forall k rest, In k (accepted (builder_new opts) ks) -> segments (call_path k) (names ++ rest) -> Forall text names).
  { intros k rest I Sg. apply accepted_in in I. rewrite Forall_forall in T. specialize (T k I). apply split_text in T.
    apply segments_split in Sg. rewrite <- Sg in T. apply Forall_app in T. apply T. }
  destruct (proj1 (proj2 (proj2 Ht) names)) as [->|(_ & [(p & md & I & Sg)|(k & n & rest & I & Sg)])]; [exists es; exact S|constructor| |].
  - apply (Tx (SetMetadata p md) []); [exact I|]. rewrite app_nil_r. exact Sg.
  - exact (Tx k (n :: rest) I Sg).
Qed.
Print Assumptions C80_tree.

(** A wrapped block tells where its data is, and its own size. *)
Theorem C80_wrapped : forall dbg block ty nd, wrap_node_data dbg block = Ok nd ->
  exists place, wrapped_is ty block place (node_data_debug ty nd)
  /\ match place with
     | Some (a, b) => exists before data after, node_data dbg block = Ok (Some data) /\ block = before ++ data ++ after
         /\ a = N.of_nat (length before) /\ b = a + N.of_nat (length data)
     | None => node_data dbg block = Ok None
     end.
Proof.
  intros dbg block ty nd H. exists (nd_range nd).
  assert (I : nd_inner nd = block).
  { unfold wrap_node_data in H. destruct (node_data_slice dbg block) as [[[off sub]|]| | |]; cbn [bind] in H; try discriminate H; [|injection H as <-; reflexivity].
    destruct (subslice_to_range block off sub); cbn [unwrap bind] in H; [|discriminate H]. injection H as <-. reflexivity. }
  split.
  - exists (numeral 10 (blen (nd_inner nd))), (some_debug (option_map range_debug (nd_range nd))). rewrite I at 1. split; [apply n_ok|].
    split; [apply (option_shown span_is range_debug); destruct (nd_range nd); [apply range_shown|exact Logic.I]|].
    unfold node_data_debug. shape.
  - unfold wrap_node_data in H. unfold node_data. unfold node_data_slice in *. destruct (pbnode_parse dbg block) as [n| | |] eqn:Ep; cbn [bind] in H |- *; try discriminate H.
    pose proof (pbnode_parse_slice dbg block n Ep) as Hs. unfold slice_ok in Hs.
    destruct (n_data n) as [[off x]|]; cbn [option_map snd]; [|injection H as <-; reflexivity].
    unfold subslice_to_range in H. destruct (_ <? _); [discriminate H|]. destruct (_ <=? _); [discriminate H|]. cbn [unwrap bind] in H. injection H as <-. cbn [nd_range].
    pose proof (get_range_some _ _ _ _ Hs) as [H1 [H2 H3]]. unfold get_range in Hs. destruct (_ && _); [|discriminate Hs]. injection Hs as Hx.
    exists (firstn (N.to_nat off) block), x, (skipn (length x) (skipn (N.to_nat off) block)). split; [reflexivity|]. split; [|split].
    + rewrite <- (firstn_skipn (N.to_nat off) block) at 1. f_equal. rewrite <- (firstn_skipn (length x) (skipn (N.to_nat off) block)) at 1. f_equal.
      rewrite <- Hx at 2. f_equal. unfold blen. lia.
    + rewrite firstn_length. unfold blen in *. lia.
    + reflexivity.
Qed.
Print Assumptions C80_wrapped.

(** No control characters anywhere. *)
Lemma vis_joined ts : Forall (Forall visible) ts -> Forall visible (joined ts).
Proof.
  induction 1 as [|t ts V F IH]; [constructor|]. destruct ts as [|u ts]; [exact V|]. change (joined (t :: u :: ts)) with (t ++ ascii ", " ++ joined (u :: ts)).
  apply Forall_app. split; [exact V|]. apply Forall_app. split; [apply visible_str; reflexivity|exact IH].
Qed.
Lemma vis_variant name vs : Forall visible name -> Forall (Forall visible) vs -> Forall visible (variant_text name vs).
Proof.
  intros V F. unfold variant_text. apply Forall_app. split; [exact V|]. apply Forall_app. split; [apply visible_str; reflexivity|].
  apply Forall_app. split; [apply vis_joined, F|apply visible_str; reflexivity].
Qed.
Lemma vis_record name fs : Forall visible name -> Forall (fun f => Forall visible (fst f) /\ Forall visible (snd f)) fs -> Forall visible (record_text name fs).
Proof.
  intros V F. unfold record_text. apply Forall_app. split; [exact V|]. apply Forall_app. split; [apply visible_str; reflexivity|].
  apply Forall_app. split; [|apply visible_str; reflexivity]. apply vis_joined. induction F as [|f fs [F1 F2] F IH]; constructor; [|exact IH].
  apply Forall_app. split; [exact F1|]. apply Forall_app. split; [apply visible_str; reflexivity|exact F2].
Qed.
Lemma vis_num n t : number n t -> Forall visible t.
Proof. apply (numeral_visible 10). lia. Qed.
Lemma vis_option {A} (is : A -> bytes -> Prop) o t : (forall x u, is x u -> Forall visible u) -> option_is is o t -> Forall visible t.
Proof.
  intros V. destruct o as [x|]; [|intros ->; apply visible_str; reflexivity]. intros (u & I & ->). apply Forall_app. split; [apply visible_str; reflexivity|].
  apply Forall_app. split; [exact (V x u I)|apply visible_str; reflexivity].
Qed.
Lemma vis_items {A} (is : A -> bytes -> Prop) l t : (forall x u, is x u -> Forall visible u) -> items_are is l t -> Forall visible t.
Proof.
  intros V (ts & F & ->). apply Forall_app. split; [apply visible_str; reflexivity|]. apply Forall_app. split; [|apply visible_str; reflexivity].
  apply vis_joined. induction F as [|x u l ts I F IH]; constructor; [exact (V x u I)|exact IH].
Qed.
Lemma vis_octets b t : octets b t -> Forall visible t.
Proof. intros (ts & F & ->). apply (vis_items number (map b2n b)); [intros x u; apply vis_num|]. exists ts. split; [exact F|reflexivity]. Qed.
Lemma vis_truth b : Forall visible (truth b).
Proof. destruct b; apply visible_str; reflexivity. Qed.
Lemma vis_span r t : span_is r t -> Forall visible t.
Proof. intros (a & b & A & B & ->). apply Forall_app. split; [exact (vis_num _ _ A)|]. apply Forall_app. split; [apply visible_str; reflexivity|exact (vis_num _ _ B)]. Qed.
Lemma vis_metadata m t : metadata_is m t -> Forall visible t.
Proof.
  intros (a & b & A & B & ->). repeat (apply Forall_app; split); try (apply visible_str; reflexivity).
  - exact (vis_option _ _ _ (fun x u => numeral_visible 10 x u ltac:(lia)) A).
  - refine (vis_option _ _ _ _ B). intros [z n] u (s & k & S & K & ->). repeat (apply Forall_app; split); try (apply visible_str; reflexivity).
    + exact (integer_visible _ _ S).
    + exact (vis_num _ _ K).
Qed.
Ltac field := first [split; [apply visible_str; reflexivity|field]|assumption|apply vis_truth|eapply vis_num; eassumption|eapply vis_octets; eassumption|eapply quoted_visible; eassumption|eapply vis_metadata; eassumption].
Ltac fields := first [apply vis_record|apply vis_variant]; [first [apply visible_str; reflexivity|apply Forall_nil]|]; repeat (apply Forall_cons; [try field|]); try apply Forall_nil.
Theorem C80_visible : forall debugged shown : cid -> bytes,
  (forall c, Forall visible (debugged c)) -> (forall c, Forall visible (shown c)) ->
  (forall it t, item_is debugged it t -> Forall visible t)
  /\ (forall w t, walker_is debugged shown w t -> Forall visible t)
  /\ (forall v t, visit_is debugged v t -> Forall visible t)
  /\ (forall needle n t, lookup_is needle n t -> Forall visible t)
  /\ (forall node t, node_is shown node t -> Forall visible t)
  /\ (forall ty block place t, Forall visible ty -> wrapped_is ty block place t -> Forall visible t).
Proof.
  intros debugged sh Vd Vs.
  assert (Ve : forall e t, ending_is e t -> Forall visible t).
  { intros e t H. destruct e; destruct H as (a & A & ->); fields. }
  assert (Vr : forall v t, traversal_is v t -> Forall visible t).
  { intros v t (e & o & z & m & He & Ho & Hz & Hm & ->). apply Ve in He. fields. }
  assert (Vv : forall v t, visit_is debugged v t -> Forall visible t).
  { intros v t (p & r & s & Hp & Hr & Hs & ->). apply Vr in Hs.
    assert (A1 : Forall visible p).
    { refine (vis_items _ _ _ _ Hp). intros x u (a & A & ->). apply vis_span in A. pose proof (Vd (fst x)). fields. }
    pose proof (vis_option _ _ _ vis_span Hr) as A2. fields. }
  assert (Vl : forall l t, link_is debugged l t -> Forall visible t).
  { intros l t (q & d & Q & D & ->). pose proof (Vd (fst (fst l))). fields. }
  assert (Vg : forall s t, segment_is s t -> Forall visible t).
  { intros s t (a & A & ->). fields. }
  split; [|split; [|split; [exact Vv|split; [|split]]]].
  - intros it t H. destruct it as [c p|c p md|s c p md size|c p md|o c p md]; cbn [item_is] in H; pose proof (Vd c).
    + destruct H as (q & Q & ->). fields.
    + destruct H as (q & m & Q & M & ->). fields.
    + destruct H as (g & q & m & z & G & Q & M & Z & ->). apply Vg in G. fields.
    + destruct H as (q & m & Q & M & ->). fields.
    + destruct H as (o' & q & m & O & Q & M & ->). fields.
  - intros w t (c & n & p & C & N & Pp & ->).
    assert (A1 : Forall visible c).
    { refine (vis_option _ _ _ _ C). intros e u (d & k & q & m & D & K & Q & M & ->). pose proof (Vs (ie_cid e)).
      assert (Vk : Forall visible k).
      { destruct (ie_kind e) as [| | | | |v z|]; try (rewrite K; apply visible_str; reflexivity). destruct K as (a & b & A & B & ->).
        apply (vis_option _ _ _ Vv) in A. fields. }
      fields. }
    pose proof (vis_option _ _ _ Vl N) as A2. pose proof (vis_items _ _ _ Vl Pp) as A3. fields.
  - intros needle n t (a & q & A & Q & ->). fields.
  - intros node t (q & z & s & Q & Z & Sz & ->). pose proof (Vs (n_cid node)). fields.
  - intros ty block place t T (l & r & L & R & ->). pose proof (vis_option _ _ _ vis_span R) as A2.
    apply vis_record.
    + apply Forall_app. split; [apply visible_str; reflexivity|]. apply Forall_app. split; [exact T|apply visible_str; reflexivity].
    + repeat (apply Forall_cons; [field|]). apply Forall_nil.
Qed.
Print Assumptions C80_visible.

(** an empty directory at the root of a walk, wrapped, and built with a newline
    in its name *)
Definition empty_dir_block : bytes := [x0a; x02; x08; x01].
Example C80_nonvacuous : forall dbg,
  (exists w', walk_next (toy dbg) (walker_new (Cid true 85 0 []) []) empty_dir_block None = (Ok (WRootDirectory (Cid true 85 0 []) [] (MData None None)), w', None)
     /\ w_continue w' = false)
  /\ continued_debug ex_foreign (WRootDirectory (Cid true 85 0 []) [] (MData None None))
     = lit "RootDirectory(c, " ++ [x22; x22] ++ lit ", Metadata { mode: None, mtime: None })"
  /\ (exists nd, wrap_node_data dbg empty_dir_block = Ok nd
     /\ node_data_debug (lit "&[u8]") nd = lit "NodeData<&[u8]> { inner.len: 4, range: Some(2..4) }")
  /\ map (fun r => match r with Ok (Some d) => tree_node_debug ex_foreign (fun _ => lit "C") d | _ => [] end)
       (results (toy dbg) 1 (build (after (builder_new unwrapped) [SetMetadata [x61; x0a] md1])))
     = [lit "TreeNode { path: " ++ [x22] ++ lit "a\n" ++ [x22] ++ lit ", cid: C, total_size: 4, size: 4 }"].
Proof.
  intros dbg. split; [|split; [|split]].
  - destruct dbg; eexists; split; vm_compute; reflexivity.
  - vm_compute. reflexivity.
  - destruct dbg; eexists; split; vm_compute; reflexivity.
  - destruct dbg; vm_compute; reflexivity.
Qed.
