(** * Properties C15-C24 and the file part of C46: reading files
    (/repo/src/file/reader.rs, /repo/src/file/visit.rs).
    Only theorem statements and short glue; the proofs are in Visit_proofs.v and
    Visit_thms.v, the vocabulary in SpecFile.v, the concrete DAGs in
    Examples_file.v. *)
From Coq Require Import Permutation.
From Verif Require Import Base Tac Wire Cid Sha256 Pb Adder SpecAdder Adder_proofs Adder_thms
  Reader Visit SpecFile Visit_proofs Visit_thms Examples_file.

(** C16: the visit of a well-formed DAG ends and returns the whole content *)
Theorem C16_reads_all : forall X get root f c,
  try_parse (ext_dbg X) root = Ok f -> file_dag X get f c -> blen c < two64 ->
  forall out, reads X get None root out <-> out = c.
Proof.
  intros X get root f c Hp Hd Hc out. pose proof (root_reads X get None root f c Hp Hd Hc) as H.
  rewrite sl_none in H by exact Hc. split; [|intros ->; exact H].
  intros H'. eapply reads_det; eassumption.
Qed.
Print Assumptions C16_reads_all.
Example C16_nonvacuous : forall X, ext_ok X -> exists get root f,
  try_parse (ext_dbg X) root = Ok f /\ file_dag X get f [x61; x62; x63; x64] /\ length (f_links f) = 3%nat.
Proof. intros X HX. exists ex_get, (flat_write ex_root), ex_root. split; [apply ex_root_parse|]. split; [apply ex_dag, HX|reflexivity]. Qed.

(** C17: with a target range, exactly the bytes in [a, b) *)
Theorem C17_range : forall X get root f c a b,
  try_parse (ext_dbg X) root = Ok f -> file_dag X get f c -> blen c < two64 ->
  forall out, reads X get (with_target_range idle_default (a, b)) root out <-> out = byte_range a b c.
Proof.
  intros X get root f c a b Hp Hd Hc out. pose proof (root_reads X get (Some (a, b)) root f c Hp Hd Hc) as H.
  rewrite sl_some in H. split; [|intros ->; exact H].
  intros H'. eapply reads_det; eassumption.
Qed.
Print Assumptions C17_range.
(** [byte_range] is what it should be, also for empty, inverted and too large ranges *)
Theorem C17_byte_range : forall a b c i, 
  (i < length (byte_range a b c))%nat <-> (N.of_nat i + a < b /\ N.of_nat i + a < blen c).
Proof.
  intros a b c i. unfold byte_range, blen. rewrite firstn_length, skipn_length. lia.
Qed.
Theorem C17_byte_range_nth : forall a b c i, N.of_nat i + a < b ->
  nth_error (byte_range a b c) i = nth_error c (i + N.to_nat a).
Proof.
  intros a b c i H. unfold byte_range.
  assert (L : (i < N.to_nat (b - a))%nat) by lia.
  assert (E : nth_error (firstn (N.to_nat (b - a)) (skipn (N.to_nat a) c)) i = nth_error (skipn (N.to_nat a) c) i).
  { generalize dependent (N.to_nat (b - a)). generalize (skipn (N.to_nat a) c). clear. induction i as [|i IH]; intros l n Hn;
      destruct n; try lia; destruct l; try reflexivity. cbn. apply IH. lia. }
  rewrite E. clear. revert c. generalize (N.to_nat a). induction n as [|n IH]; intros c.
  - rewrite Nat.add_0_r. reflexivity.
  - destruct c as [|x c]; [cbn; destruct i; [reflexivity|destruct (i + S n)%nat eqn:E; [lia|destruct i; reflexivity]]|].
    replace (i + S n)%nat with (S (i + n)) by lia. cbn. apply IH.
Qed.
Print Assumptions C17_byte_range_nth.
Example C17_instance : forall X, ext_ok X ->
  reads X ex_get (Some (1, 3)) (flat_write ex_root) [x62; x63]
  /\ reads X ex_get (Some (3, 1)) (flat_write ex_root) []
  /\ reads X ex_get (Some (2, 900)) (flat_write ex_root) [x63; x64].
Proof.
  intros X HX. repeat split; eapply (proj2 (C17_range X ex_get _ _ _ _ _ (ex_root_parse _) (ex_dag X HX) eq_refl _)); reflexivity.
Qed.

(** C15: reading back what the adder emitted *)
Theorem C15_read_back : forall X chunk bf a0 c out a last get,
  ext_ok X -> cfg_ok chunk bf -> moderate chunk bf -> 2 <= bf \/ blen c <= chunk ->
  adder_new chunk bf = Ok a0 -> session X a0 c out a -> blen c <= max_content ->
  finish X a = Ok last ->
  (forall cd b, In (cd, b) (out ++ last) -> get cd = Some b) ->
  exists before root, out ++ last = before ++ [(Cid true 0x70 0x12 (ext_sha256 X root), root)]
    /\ (forall o, reads X get None root o <-> o = c)
    /\ (forall s e o, reads X get (Some (s, e)) root o <-> o = byte_range s e c).
Proof.
  intros X chunk bf a0 c out a last get HX Hcfg Hm Hb Hn Hs Hc Hf Hg.
  destruct (session_finish X HX chunk bf a0 c out a Hcfg Hn Hs Hb Hc) as (last' & r & all' & F1 & F2 & F3 & _ & F5).
  rewrite Hf in F1. injection F1 as <-.
  destruct (adder_dag X HX get chunk bf c r Hcfg Hm Hb Hc F2) as (f & P & _ & D).
  { intros cd b Hin. apply Hg. rewrite F3. unfold tree_blocks in Hin. eapply Permutation_in; [|exact Hin].
    apply Permutation_map, Permutation_sym, F5. }
  exists (map (cblock_of X) all'), (block X r). rewrite F3, map_app. split; [reflexivity|].
  assert (Hlt : blen c < two64) by (unfold max_content, two64 in *; lia).
  split; [exact (C16_reads_all X get _ f c P D Hlt)|].
  intros s e. exact (C17_range X get _ f c s e P D Hlt).
Qed.
Print Assumptions C15_read_back.
Example C15_nonvacuous : forall X c, ext_ok X -> blen c <= 262144 ->
  exists out a last get, session X adder_default c out a /\ finish X a = Ok last
  /\ (forall cd b, In (cd, b) (out ++ last) -> get cd = Some b).
Proof.
  intros X c HX Hc.
  assert (Hcfg : cfg_ok 262144 174) by (repeat split; vm_compute; congruence).
  assert (Hb : blen c <= max_content) by (unfold max_content; lia).
  destruct (session_exists X HX 262144 174 adder_default c Hcfg eq_refl Hb) as (out & a & Hs).
  destruct (session_finish X HX 262144 174 adder_default c out a Hcfg eq_refl Hs (or_intror Hc) Hb) as (last & r & all' & F1 & F2 & F3 & _ & F5).
  assert (R : exists d, r = FLeaf d).
  { destruct c as [|x c].
    - exists []. eapply canonical_unique; [exact F2|]. unfold canonical, chunks. cbn [map]. constructor.
    - exists (x :: c). eapply canonical_unique; [exact F2|]. unfold canonical, chunks.
      rewrite pieces_short; [constructor|unfold blen in Hc; cbn [length] in *; lia|discriminate]. }
  destruct R as [d ->].
  exists out, a, last, (fun _ => Some (block X (FLeaf d))). split; [exact Hs|]. split; [exact F1|].
  intros cd b Hin. rewrite F3 in Hin. apply in_map_iff in Hin as (t & E & Ht).
  apply (Permutation_in _ F5) in Ht. cbn [nodes] in Ht. destruct Ht as [<-|[]]. unfold cblock_of in E. congruence.
Qed.

(** C18: every pending link (the first one is the block asked for next) covers a
    range that overlaps or touches the target range *)
Theorem C18_touching : forall X get a b root bs asked out v c others,
  visit X (store get) (Some (a, b)) (root :: bs) asked out (Some v) ->
  pending_links v = Ok (c, others) ->
  forall d, In d (c :: others) -> exists s e, covers X get root d s e /\ s <= b /\ a <= e.
Proof.
  intros X get a b root bs asked out v c others Hv Hp d Hd.
  apply visit_covers in Hv as [_ HK]. apply pending_links_ok in Hp as (r & rest & Hp & ->).
  rewrite Hp in HK. rewrite Forall_forall in HK.
  assert (Hin : In d (map fst ((c, r) :: rest))) by exact Hd.
  apply in_map_iff in Hin as (p & <- & Hin). destruct (HK p Hin) as (s & e & _ & Hc & Hr).
  exists s, e. split; [exact Hc|]. unfold block_is_in_target_range in Hr. cbn [fst snd] in Hr.
  apply N.leb_le in Hr. lia.
Qed.
Print Assumptions C18_touching.
(** for the range [3, 4) of [ab] [[c] []] [d] the first leaf is not asked for *)
Example C18_nonvacuous : forall X, ext_ok X -> exists v,
  visit X (store ex_get) (Some (3, 4)) [flat_write ex_root] [] [] (Some v)
  /\ pending_links v = Ok (idc 2, [idc 3]).
Proof.
  intros X HX.
  assert (S : visit_start X (Some (3, 4)) (flat_write ex_root) = Ok ([], 4, nomd,
    Some (FileVisit [(idc 2, (2, 3)); (idc 3, (3, 4))] (Some (3, 4)) (Traversal (TreeCoverage 4) 0 4 nomd)))).
  { apply (start_nodem X _ _ _ _ _ _ _ (ex_root_parse _)); [discriminate|reflexivity|reflexivity|].
    cbn [combine select_links].
    repeat (rewrite !(add64_ok (E := read_failed)) by reflexivity; cbn [bind];
            match goal with |- context [block_is_in_target_range ?a ?b] =>
              let v := eval vm_compute in (block_is_in_target_range a b) in change (block_is_in_target_range a b) with v end;
            cbv iota; rewrite ?idc_pending by exact HX; cbn [bind]).
    reflexivity. }
  eexists. split; [change (@nil byte) with (@nil byte ++ []); eapply visit_multi; [exact S|apply cont_here]|reflexivity].
Qed.

(** C19: start reports the file size, and right after start so does the visit... *)
Theorem C19_start_size : forall X get target root f c out size md ov,
  try_parse (ext_dbg X) root = Ok f -> file_dag X get f c ->
  visit_start X target root = Ok (out, size, md, ov) ->
  size = blen c /\ match ov with Some v => fv_file_size v = blen c | None => True end.
Proof.
  intros X get target root f c out size md ov Hp Hd Hs.
  apply start_ok in Hs as (f' & e & Hp' & _ & _ & _ & Hfs & _ & S). rewrite Hp in Hp'. injection Hp' as <-.
  assert (E : size = blen c).
  { unfold fs_of in Hfs. destruct Hd as [f _ _ _ H|f cs _ _ _ H _]; rewrite H in Hfs; injection Hfs as <-; reflexivity. }
  split; [exact E|]. destruct S as [(_ & _ & ->)|(_ & _ & sel & _ & ->)]; [exact I|]. destruct sel; [exact I|]. exact E.
Qed.
Print Assumptions C19_start_size.
Example C19_nonvacuous : forall X, ext_ok X -> exists v,
  try_parse (ext_dbg X) (flat_write ex_root) = Ok ex_root /\ file_dag X ex_get ex_root [x61; x62; x63; x64]
  /\ visit_start X None (flat_write ex_root) = Ok ([], 4, nomd, Some v) /\ fv_file_size v = 4.
Proof.
  intros X HX. exists (FileVisit [(idc 1, (0, 2)); (idc 2, (2, 3)); (idc 3, (3, 4))] None (Traversal (TreeCoverage 4) 0 4 nomd)). split; [apply ex_root_parse|]. split; [apply ex_dag, HX|]. split.
  - apply (start_nodem X None _ _ _ _ _ _ (ex_root_parse _)); [discriminate|reflexivity|reflexivity|].
    cbn [combine select_links]. rewrite !(add64_ok (E := read_failed)) by reflexivity. cbn [bind block_is_in_target_range].
    rewrite !idc_pending by exact HX. cbn [bind]. rewrite !(add64_ok (E := read_failed)) by reflexivity. cbn [bind].
    rewrite !idc_pending by exact HX. cbn [bind]. rewrite !(add64_ok (E := read_failed)) by reflexivity. cbn [bind].
    rewrite !idc_pending by exact HX. reflexivity.
  - reflexivity.
Qed.
(** ...but later it is the size of whatever block was visited last *)
Theorem C19_file_size_refuted : forall X, ext_ok X -> exists get root f c bs asked out v,
  try_parse (ext_dbg X) root = Ok f /\ file_dag X get f c
  /\ visit X (store get) None (root :: bs) asked out (Some v) /\ fv_file_size v <> blen c.
Proof.
  intros X HX. exists ex_get, (flat_write ex_root), ex_root, [x61; x62; x63; x64].
  assert (S : visit_start X None (flat_write ex_root) = Ok ([], 4, nomd,
    Some (FileVisit [(idc 1, (0, 2)); (idc 2, (2, 3)); (idc 3, (3, 4))] None (Traversal (TreeCoverage 4) 0 4 nomd)))).
  { apply (start_nodem X None _ _ _ _ _ _ (ex_root_parse _)); [discriminate|reflexivity|reflexivity|].
    cbn [combine select_links]. rewrite !(add64_ok (E := read_failed)) by reflexivity. cbn [bind block_is_in_target_range].
    rewrite !idc_pending by exact HX. cbn [bind]. rewrite !(add64_ok (E := read_failed)) by reflexivity. cbn [bind].
    rewrite !idc_pending by exact HX. cbn [bind]. rewrite !(add64_ok (E := read_failed)) by reflexivity. cbn [bind].
    rewrite !idc_pending by exact HX. reflexivity. }
  pose proof (continue_leafm X (idc 1) 0 2 [(idc 2, (2, 3)); (idc 3, (3, 4))] None (Traversal (TreeCoverage 4) 0 4 nomd)
    (flat_write (ex_msg 1)) Raw [x61; x62] None (ex_parse _ 1 ltac:(lia)) ltac:(auto) eq_refl eq_refl) as C.
  destruct (continue_walk X _ (flat_write (ex_msg 1)) None) as [o k'] eqn:E in C. cbn [fst maybe_target_slice bind] in C. subst o.
  eexists _, _, _, _. split; [apply ex_root_parse|]. split; [apply ex_dag, HX|]. split.
  - eapply visit_multi; [exact S|]. eapply cont_next; [reflexivity| |exact E|apply cont_here]. reflexivity.
  - vm_compute. discriminate.
Qed.
Print Assumptions C19_file_size_refuted.
(** ...which is what the code reports *)
Theorem C19_last_block_size : forall X v b k out v' k',
  continue_walk X v b k = (Ok (out, Some v'), k') ->
  exists f, try_parse (ext_dbg X) b = Ok f /\ u_filesize (f_data f) = Some (fv_file_size v').
Proof. exact continue_size. Qed.
Print Assumptions C19_last_block_size.

(** C19, exactly and for arbitrary blocks: start reports the size told by the
    root, and file_size() is the size told by the block visited last. *)
Theorem C19_exact : forall X gives target,
  (forall root out size md ov, visit_start X target root = Ok (out, size, md, ov) ->
     exists f, try_parse (ext_dbg X) root = Ok f /\ u_filesize (f_data f) = Some size)
  /\ (forall bs b asked out v, visit X gives target (bs ++ [b]) asked out (Some v) ->
     exists f, try_parse (ext_dbg X) b = Ok f /\ u_filesize (f_data f) = Some (fv_file_size v)).
Proof.
  intros X gives target.
  assert (S : forall root out size md ov, visit_start X target root = Ok (out, size, md, ov) ->
     exists f, try_parse (ext_dbg X) root = Ok f /\ u_filesize (f_data f) = Some size
       /\ forall v, ov = Some v -> fv_file_size v = size).
  { intros root out size md ov H. apply start_ok in H as (f & e & P & _ & _ & _ & Hfs & _ & H). exists f. split; [exact P|]. split; [exact Hfs|].
    intros v ->. destruct H as [(_ & _ & H)|(_ & _ & sel & _ & H)]; [discriminate|]. destruct sel; [discriminate|]. injection H as ->. reflexivity. }
  split; [intros root out size md ov H; destruct (S _ _ _ _ _ H) as (f & P & Z & _); eauto|].
  assert (K : forall v bs asked out ov, continues X gives v bs asked out ov -> forall v', ov = Some v' ->
    bs = [] /\ v' = v \/ exists bs' b f, bs = bs' ++ [b] /\ try_parse (ext_dbg X) b = Ok f /\ u_filesize (f_data f) = Some (fv_file_size v')).
  { induction 1 as [v|v c others b k k' out v1 bs asked out2 ov P G C H IH|]; intros v' E; [injection E as <-; auto| |discriminate].
    right. destruct (IH v' E) as [[-> ->]|(bs' & b' & f & -> & Q)].
    - apply continue_size in C as (f & Q). exists [], b, f. auto.
    - exists (b :: bs'), b', f. auto. }
  intros bs b asked out v H. inversion H as [|root o size md v0 bs0 asked0 o2 ov H0 H1 E]; subst.
  destruct (S _ _ _ _ _ H0) as (f0 & P & Z & V). destruct (K _ _ _ _ _ H1 v eq_refl) as [[-> ->]|(bs' & b' & f & -> & Q)].
  - destruct bs as [|x bs]; [|destruct bs; discriminate]. injection E as ->. exists f0. split; [exact P|]. rewrite (V v0 eq_refl). exact Z.
  - rewrite app_comm_cons in E. apply app_inj_tail in E as [_ ->]. eauto.
Qed.
Print Assumptions C19_exact.
(** a visit in which both differ: C19_file_size_refuted *)

(** C20: whatever the blocks are, a completed visit consumed the blocks of one
    DAG in depth-first order, its leaves are contiguous from 0, and it returned
    exactly the data of the leaves in this order.  With overflow checks the
    offsets do not wrap. *)
Theorem C20_contiguous : forall X blocks asked out,
  visit X anything None blocks asked out None ->
  exists leaves, layout X [0] blocks leaves [] /\ contiguous 0 leaves
    /\ (ext_dbg X = true -> Forall (fun '(off, size, _) => off + size < two64) leaves)
    /\ out = concat (map snd leaves).
Proof.
  intros X blocks asked out H. apply visit_layout in H as (leaves & stack & H1 & H2 & H3 & H4 & ->).
  exists leaves. auto.
Qed.
Print Assumptions C20_contiguous.
(** at every point of the visit, too *)
Theorem C20_contiguous_prefix : forall X blocks asked out v,
  visit X anything None blocks asked out (Some v) ->
  exists leaves stack, layout X [0] blocks leaves stack /\ contiguous 0 leaves
    /\ out = concat (map snd leaves).
Proof.
  intros X blocks asked out v H. apply visit_layout in H as (leaves & stack & H1 & H2 & H3 & H4 & _).
  exists leaves, stack. auto.
Qed.
Print Assumptions C20_contiguous_prefix.

Lemma visit_weaken X (g1 g2 : cid -> bytes -> Prop) t blocks asked out ov :
  (forall c b, g1 c b -> g2 c b) -> visit X g1 t blocks asked out ov -> visit X g2 t blocks asked out ov.
Proof.
  intros Hi H. inv H; [eapply visit_single; eassumption|]. eapply visit_multi; [eassumption|].
  clear - Hi H1. induction H1; [apply cont_here| |].
  - eapply cont_next; eauto.
  - eapply cont_last; eauto.
Qed.
Example C20_nonvacuous : forall X, ext_ok X -> exists blocks asked out,
  visit X anything None blocks asked out None /\ (3 <= length blocks)%nat /\ out = [x61; x62; x63; x64].
Proof.
  intros X HX.
  destruct (proj2 (C16_reads_all X ex_get _ _ _ (ex_root_parse _) (ex_dag X HX) eq_refl _) eq_refl) as (bs & asked & H).
  exists (flat_write ex_root :: bs), asked, [x61; x62; x63; x64]. split; [|split; [|reflexivity]].
  - eapply visit_weaken; [|exact H]. intros; exact I.
  - apply (visit_weaken X _ anything) in H; [|intros; exact I].
    destruct (C20_contiguous _ _ _ _ H) as (leaves & L & _).
    inversion L as [|? ? ? ? f ? ? ? P E|? ? ? ? f ? ? P Hl _ L2]; subst; rewrite ex_root_parse in P; injection P as <-; [discriminate|].
    cbn in L2. destruct bs as [|b1 [|b2 bs]]; [inversion L2| |cbn; lia].
    inversion L2 as [|? ? ? ? f ? ? ? P E E2 L3|? ? ? ? f ? ? P Hl' Len L3]; subst.
    + inversion L3.
    + inversion L3 as [st E1 E2 E3|?|?]; subst. destruct (u_blocksizes (f_data f)); discriminate.
Qed.

(** C21 refuted: a visit completes with 2 bytes of a file said to have 10 *)
Theorem C21_sizes_refuted : forall X, ext_ok X -> exists root bs asked out md ov,
  visit_start X None root = Ok ([], 10, md, ov)
  /\ visit X anything None (root :: bs) asked out None /\ blen out = 2.
Proof.
  intros X HX. destruct (evil_parse (ext_dbg X)) as (P & _).
  assert (S : visit_start X None (flat_write short_root) = Ok ([], 10, nomd,
    Some (FileVisit [(idc 1, (0, 2))] None (Traversal (TreeCoverage 10) 0 10 nomd)))).
  { apply (start_nodem X None _ _ _ _ _ _ P); [discriminate|reflexivity|reflexivity|].
    cbn [combine select_links]. rewrite !(add64_ok (E := read_failed)) by reflexivity. cbn [bind block_is_in_target_range].
    rewrite !idc_pending by exact HX. reflexivity. }
  pose proof (continue_leafm X (idc 1) 0 2 [] None (Traversal (TreeCoverage 10) 0 10 nomd)
    (flat_write (ex_msg 1)) Raw [x61; x62] None (ex_parse _ 1 ltac:(lia)) ltac:(auto) eq_refl eq_refl) as C.
  destruct (continue_walk X _ (flat_write (ex_msg 1)) None) as [o k'] eqn:E in C. cbn [fst maybe_target_slice bind] in C. subst o.
  eexists _, _, _, _, _, _. split; [exact S|]. split.
  - eapply visit_multi; [exact S|]. eapply cont_last; [reflexivity|exact I|exact E].
  - reflexivity.
Qed.
Print Assumptions C21_sizes_refuted.

(** C21, what does hold: if every leaf holds as many bytes as it claims, the
    bytes of each leaf are returned at the offset its parents claim for it.
    Missing: nothing relates the end of the last leaf to the size the root
    claims, nor the data of a leaf to the size it claims. *)
Theorem C21_offsets : forall X blocks asked out,
  visit X anything None blocks asked out None ->
  exists leaves, layout X [0] blocks leaves [] /\ out = concat (map snd leaves)
    /\ (Forall (fun '(_, size, d) => size = blen d) leaves ->
        forall l1 off size d l2, leaves = l1 ++ (off, size, d) :: l2 -> off = blen (concat (map snd l1)) mod two64).
Proof.
  intros X blocks asked out H. destruct (C20_contiguous _ _ _ _ H) as (leaves & L & C & _ & E).
  exists leaves. split; [exact L|]. split; [exact E|]. clear - C. intros F l1 off size d l2 ->.
  assert (G : forall from l1, contiguous from (l1 ++ (off, size, d) :: l2) -> from < two64 ->
     Forall (fun '(_, size, d) => size = blen d) (l1 ++ (off, size, d) :: l2) ->
     off = (from + blen (concat (map snd l1))) mod two64).
  { clear. intros from l1. revert from. induction l1 as [|[[o s] e] l1 IH]; intros from C Hlt F.
    - cbn in *. destruct C as [-> _]. rewrite N.add_0_r, N.mod_small by exact Hlt. reflexivity.
    - cbn [app contiguous] in C. destruct C as [-> C]. inv F. apply IH in C; [|apply N.mod_lt; discriminate|assumption].
      rewrite C. cbn [map concat]. rewrite blen_app. cbn [snd].
      rewrite N.add_mod_idemp_l by discriminate. f_equal. lia. }
  rewrite (G 0 l1 C eq_refl F). f_equal.
Qed.
Print Assumptions C21_offsets.
(** The number of bytes is the one reported if all sizes told by the blocks are
    true; that is nowhere checked (C21_sizes_refuted). *)
Theorem C21_truthful : forall X blocks asked out root bs size o md ov,
  visit X anything None blocks asked out None -> blocks = root :: bs ->
  visit_start X None root = Ok (o, size, md, ov) ->
  truthful X [size] blocks -> blen out = size.
Proof.
  intros X blocks asked out root bs size o md ov H _ _ T. destruct (C20_contiguous _ _ _ _ H) as (leaves & L & _ & _ & ->). clear - L T.
  assert (G : forall offs bs leaves stack, layout X offs bs leaves stack -> stack = [] -> forall sizes, length offs = length sizes ->
    truthful X sizes bs -> blen (concat (map snd leaves)) = sumN sizes).
  { clear. assert (Ls : forall zs base, length (starts base zs) = length zs) by (induction zs as [|z zs IH]; intros base; [reflexivity|]; cbn [starts length]; rewrite IH; reflexivity).
    induction 1 as [stack|off stack b bs f size leaves stack' P Hl Z H IH|off stack b bs f leaves stack' P Hl L H IH]; intros -> sizes E T.
    - destruct sizes; [reflexivity|discriminate].
    - inversion T as [|s sizes' ? ? f' P' Hl' Z' D T'|s sizes' ? ? f' P' Hl' Z' D T']; subst; rewrite P in P'; injection P' as <-; [|contradiction].
      cbn [map concat snd]. rewrite blen_app, (IH eq_refl sizes'), sumN_cons; [reflexivity| |exact T']. injection E as E. exact E.
    - inversion T as [|s sizes' ? ? f' P' Hl' Z' D T'|s sizes' ? ? f' P' Hl' Z' D T']; subst; rewrite P in P'; injection P' as <-; [contradiction|].
      rewrite (IH eq_refl (u_blocksizes (f_data f) ++ sizes') ltac:(rewrite !app_length, Ls; injection E as E; rewrite E; reflexivity) T').
      rewrite sumN_app, sumN_cons. reflexivity. }
  rewrite (G _ _ _ _ L eq_refl [size] eq_refl T), sumN_cons. apply N.add_0_r.
Qed.
Print Assumptions C21_truthful.
Example C21_truthful_nonvacuous : forall X, ext_ok X -> exists root bs asked out,
  visit X anything None (root :: bs) asked out None /\ truthful X [1] (root :: bs) /\ length bs = 2%nat.
Proof.
  intros X HX. exists (flat_write (ex_msg 2)), [flat_write (ex_msg 4); flat_write (ex_msg 5)].
  assert (S : visit_start X None (flat_write (ex_msg 2)) = Ok ([], 1, nomd,
    Some (FileVisit [(idc 4, (0, 1)); (idc 5, (1, 1))] None (Traversal (TreeCoverage 1) 0 1 nomd)))).
  { apply (start_nodem X None _ _ _ _ _ _ (ex_parse (ext_dbg X) 2 ltac:(lia))); [discriminate|reflexivity|reflexivity|].
    cbn [combine select_links]. rewrite !(add64_ok (E := read_failed)) by reflexivity. cbn [bind block_is_in_target_range].
    rewrite !idc_pending by exact HX. cbn [bind]. rewrite !(add64_ok (E := read_failed)) by reflexivity. cbn [bind].
    rewrite !idc_pending by exact HX. reflexivity. }
  pose proof (continue_leafm X (idc 4) 0 1 [(idc 5, (1, 1))] None (Traversal (TreeCoverage 1) 0 1 nomd)
    (flat_write (ex_msg 4)) File [x63] None (ex_parse _ 4 ltac:(lia)) ltac:(auto) eq_refl eq_refl) as C1.
  destruct (continue_walk X _ (flat_write (ex_msg 4)) None) as [o k'] eqn:E1 in C1. cbn [fst maybe_target_slice bind] in C1. subst o.
  pose proof (continue_leafm X (idc 5) 1 1 [] None (Traversal (Chunk 1) 0 1 nomd)
    (flat_write (ex_msg 5)) Raw [] None (ex_parse _ 5 ltac:(lia)) ltac:(auto) eq_refl eq_refl) as C2.
  destruct (continue_walk X _ (flat_write (ex_msg 5)) None) as [o k2] eqn:E2 in C2. cbn [fst maybe_target_slice bind] in C2. subst o.
  eexists _, _. split.
  - eapply visit_multi; [exact S|]. eapply cont_next; [reflexivity|exact I|exact E1|]. eapply cont_last; [reflexivity|exact I|exact E2].
  - split; [|reflexivity]. eapply truthful_node; [apply (ex_parse _ 2); lia|discriminate|reflexivity|reflexivity|].
    eapply (truthful_leaf X 1); [apply (ex_parse _ 4); lia|reflexivity|reflexivity|reflexivity|].
    eapply (truthful_leaf X 0); [apply (ex_parse _ 5); lia|reflexivity|reflexivity|reflexivity|constructor].
Qed.

(** and for well-formed DAGs everything fits *)
Theorem C21_wellformed : forall X get root f c,
  try_parse (ext_dbg X) root = Ok f -> file_dag X get f c -> blen c < two64 ->
  exists out size md ov, visit_start X None root = Ok (out, size, md, ov)
    /\ (forall o, reads X get None root o -> blen o = size).
Proof.
  intros X get root f c Hp Hd Hc.
  destruct (proj2 (C16_reads_all X get root f c Hp Hd Hc c) eq_refl) as (bs & asked & H).
  inversion H as [r0 o s m S|r0 o s m v b1 a1 o2 ov S C]; subst; eexists _, _, _, _; (split; [exact S|]);
    intros o' Ho; apply (C16_reads_all X get root f _ Hp Hd Hc) in Ho; subst o';
    destruct (C19_start_size _ _ _ _ _ _ _ _ _ _ Hp Hd S) as [-> _]; reflexivity.
Qed.
Print Assumptions C21_wellformed.

(** C22 refuted: panics on malformed blocks.  A leaf without a file size... *)
Theorem C22_no_filesize_refuted : forall X target, visit_start X target nosize_block = Panic.
Proof.
  intros X target. destruct (evil_parse (ext_dbg X)) as (_ & _ & _ & _ & _ & P).
  unfold visit_start, from_block. rewrite P. cbn [map_err bind]. unfold from_parts.
  cbn [f_data f_links u_type u_data u_filesize u_blocksizes u_hashtype u_fanout length Nat.eqb negb opt is_nil andb].
  rewrite (add64_ok (E := read_failed)) by reflexivity. reflexivity.
Qed.
Print Assumptions C22_no_filesize_refuted.
(** ...a leaf shorter than its parent says, visited with a range... *)
Theorem C22_short_leaf_refuted : forall X, ext_ok X -> exists root v out size md b,
  visit_start X (Some (3, 4)) root = Ok (out, size, md, Some v) /\ fst (continue_walk X v b None) = Panic.
Proof.
  intros X HX. destruct (evil_parse (ext_dbg X)) as (_ & P & _).
  assert (S : visit_start X (Some (3, 4)) (flat_write long_root) = Ok ([], 5, nomd,
    Some (FileVisit [(idc 1, (0, 5))] (Some (3, 4)) (Traversal (TreeCoverage 5) 0 5 nomd)))).
  { apply (start_nodem X _ _ _ _ _ _ _ P); [discriminate|reflexivity|reflexivity|].
    cbn [combine select_links]. rewrite !(add64_ok (E := read_failed)) by reflexivity.
    cbn [bind]. change (block_is_in_target_range (0, 0 + 5) (Some (3, 4))) with true. cbv iota.
    rewrite !idc_pending by exact HX. reflexivity. }
  pose proof (continue_leafm X (idc 1) 0 5 [] (Some (3, 4)) (Traversal (TreeCoverage 5) 0 5 nomd)
    (flat_write (ex_msg 1)) Raw [x61; x62] None (ex_parse _ 1 ltac:(lia)) ltac:(auto) eq_refl eq_refl) as C.
  eexists _, _, _, _, _, _. split; [exact S|]. rewrite C. 
  unfold maybe_target_slice, target_slice. change (block_is_in_target_range (0, 5) (Some (3, 4))) with true.
  cbn [negb fst snd]. change (3 <? 0) with false. change (5 <? 4) with false. cbv iota.
  rewrite !(sub64_ok (E := read_failed)) by lia. cbn [bind]. rewrite (add64_ok (E := read_failed)) by reflexivity. reflexivity.
Qed.
Print Assumptions C22_short_leaf_refuted.
(** ...a node none of whose links is in the range it is claimed to cover: the
    visit goes on, but has no next link... *)
Theorem C22_empty_pending_refuted : forall X, ext_ok X -> exists root v out size md b v' k',
  visit_start X (Some (5, 6)) root = Ok (out, size, md, Some v)
  /\ continue_walk X v b None = (Ok ([], Some v'), k')
  /\ pending_links v' = Panic /\ forall b' k, fst (continue_walk X v' b' k) = Panic.
Proof.
  intros X HX. destruct (evil_parse (ext_dbg X)) as (_ & _ & P & Q & _).
  assert (S : visit_start X (Some (5, 6)) (flat_write gap_root) = Ok ([], 8, nomd,
    Some (FileVisit [(idc 2, (0, 8))] (Some (5, 6)) (Traversal (TreeCoverage 8) 0 8 nomd)))).
  { apply (start_nodem X _ _ _ _ _ _ _ P); [discriminate|reflexivity|reflexivity|].
    cbn [combine select_links]. rewrite !(add64_ok (E := read_failed)) by reflexivity.
    cbn [bind]. change (block_is_in_target_range (0, 0 + 8) (Some (5, 6))) with true. cbv iota.
    rewrite !idc_pending by exact HX. reflexivity. }
  assert (Sel : select_links X 0 0 (combine [lnk 1] [2]) (Some (5, 6)) = Ok []).
  { cbn [combine select_links]. rewrite !(add64_ok (E := read_failed)) by reflexivity. reflexivity. }
  pose proof (continue_nodem X (idc 2) 0 8 [] (Some (5, 6)) (Traversal (TreeCoverage 8) 0 8 nomd)
    (flat_write gap_node) _ _ _ [] None Q ltac:(discriminate) eq_refl eq_refl eq_refl Sel) as C.
  destruct (continue_walk X _ (flat_write gap_node) None) as [o k'] eqn:E in C. cbn [fst] in C. subst o.
  eexists _, _, _, _, _, _, _, _. split; [exact S|]. split; [exact E|]. split; reflexivity.
Qed.
Print Assumptions C22_empty_pending_refuted.
(** ...and block sizes that overflow, with overflow checks *)
Theorem C22_overflow_refuted : forall X, ext_ok X -> ext_dbg X = true ->
  visit_start X None (flat_write huge_root) = Panic.
Proof.
  intros X HX Hd. destruct (evil_parse (ext_dbg X)) as (_ & _ & _ & _ & P & _).
  unfold visit_start, from_block. rewrite P. cbn [map_err bind].
  rewrite (from_parts_intro X huge_root 0 (metadata_of (f_data huge_root)) 1);
    [|repeat split; left; reflexivity|reflexivity|reflexivity|discriminate|reflexivity].
  cbn [bind]. unfold start_from_reader, fr_content. cbn [fr_links fr_blocksizes fr_offset huge_root nodem f_links f_data u_blocksizes is_nil combine select_links].
  rewrite (add64_ok (E := read_failed)) by reflexivity. cbn [bind block_is_in_target_range].
  rewrite !idc_pending by exact HX. cbn [bind].
  assert (A : @add64 read_failed (ext_dbg X) (0 + two63) two63 = Panic) by (rewrite Hd; reflexivity).
  rewrite A. reflexivity.
Qed.
Print Assumptions C22_overflow_refuted.

(** C22, what does hold: without a target range, pending_links never panics and
    start and continue_walk return Ok or Err for every block which
    FlatUnixFs::try_parse survives (see C04), which has a file size and, with
    overflow checks, whose sizes do not overflow at its offset [off].
    Missing: the cases refuted above. *)
Theorem C22_no_panic_otherwise : forall X,
  (forall b,
     try_parse (ext_dbg X) b <> Panic -> try_parse (ext_dbg X) b <> Diverge ->
     (forall f, try_parse (ext_dbg X) b = Ok f -> u_filesize (f_data f) <> None /\
        (ext_dbg X = false \/ (forall fs, u_filesize (f_data f) = Some fs -> fs < two64)
                              /\ sumN (u_blocksizes (f_data f)) < two64)) ->
     visit_start X None b <> Panic /\ visit_start X None b <> Diverge)
  /\ (forall blocks asked out v, visit X anything None blocks asked out (Some v) ->
      (exists c others, pending_links v = Ok (c, others))
      /\ exists leaves off rest, layout X [0] blocks leaves (off :: rest)
         /\ forall b k,
           try_parse (ext_dbg X) b <> Panic -> try_parse (ext_dbg X) b <> Diverge ->
           (forall f, try_parse (ext_dbg X) b = Ok f -> u_filesize (f_data f) <> None /\
              (ext_dbg X = false \/ (forall fs, u_filesize (f_data f) = Some fs -> off + fs < two64)
                                    /\ off + sumN (u_blocksizes (f_data f)) < two64)) ->
           fst (continue_walk X v b k) <> Panic /\ fst (continue_walk X v b k) <> Diverge).
Proof.
  intros X. split; [exact (start_total X)|].
  intros blocks asked out v H. apply visit_layout in H as (leaves & stack & H1 & H2 & H3 & H4 & -> & from & J1 & J2 & J3).
  unfold stack_of in *. destruct (fv_pending v) as [|[c r] rest] eqn:E; [congruence|]. split.
  - unfold pending_links. rewrite E. eauto.
  - exists leaves, (pl_start (c, r)), (map pl_start rest). split; [exact H1|].
    intros b k P1 P2 P3. eapply continue_total; [exact J2|unfold stack_of; rewrite E; reflexivity|exact P1|exact P2|exact P3].
Qed.
Print Assumptions C22_no_panic_otherwise.

(** C23: start and every later point of any visit report the metadata of the
    root, and no other block may have any *)
Theorem C23_metadata_kept : forall X gives target root bs asked out v,
  visit X gives target (root :: bs) asked out (Some v) ->
  exists f, try_parse (ext_dbg X) root = Ok f
    /\ md_mode (fv_metadata v) = u_mode (f_data f)
    /\ md_mtime (fv_metadata v)
       = match u_mtime (f_data f) with
         | Some (UnixTime s (Some n)) => Some (s, n)
         | Some (UnixTime s None) => Some (s, 0)
         | None => None
         end.
Proof.
  intros X gives target root bs asked out v H. apply visit_metadata in H as (f & Hp & -> & _). exists f.
  split; [exact Hp|]. split; [reflexivity|]. unfold metadata_of. cbn [md_mtime].
  destruct (u_mtime (f_data f)) as [[s [n|]]|]; reflexivity.
Qed.
Print Assumptions C23_metadata_kept.
Theorem C23_metadata_start : forall X target root out size md ov,
  visit_start X target root = Ok (out, size, md, ov) ->
  exists f, try_parse (ext_dbg X) root = Ok f /\ md_mode md = u_mode (f_data f)
    /\ md_mtime md
       = match u_mtime (f_data f) with
         | Some (UnixTime s (Some n)) => Some (s, n)
         | Some (UnixTime s None) => Some (s, 0)
         | None => None
         end.
Proof.
  intros X target root out size md ov H. apply start_ok in H as (f & e & Hp & _ & _ & -> & _).
  exists f. split; [exact Hp|]. split; [reflexivity|]. unfold metadata_of. cbn [md_mtime].
  destruct (u_mtime (f_data f)) as [[s [n|]]|]; reflexivity.
Qed.
Print Assumptions C23_metadata_start.
Theorem C23_non_root_rejected : forall X v b k f,
  try_parse (ext_dbg X) b = Ok f -> u_mode (f_data f) <> None \/ u_mtime (f_data f) <> None ->
  forall out ov, fst (continue_walk X v b k) <> Ok (out, ov).
Proof.
  intros X v b k f Hp Hm out ov H. destruct (continue_walk X v b k) as [o k'] eqn:E. cbn in H. subst o.
  apply continue_ok in E as (c & r & pending & f' & fs & e & _ & _ & Hp' & [M1 M2] & _).
  rewrite Hp in Hp'. injection Hp' as <-. tauto.
Qed.
Print Assumptions C23_non_root_rejected.
(** the error it is rejected with: the metadata found, unless every block
    whatsoever is refused at this point because the links of the blocks before do
    not fit together *)
Theorem C23_non_root_error : forall X v b k f,
  try_parse (ext_dbg X) b = Ok f -> u_mode (f_data f) <> None \/ u_mtime (f_data f) <> None ->
  pending_links v <> Panic ->
  (exists md, fst (continue_walk X v b k) = Err (FileErr (NonRootDefinesMetadata md))
    /\ md_mode md = u_mode (f_data f)
    /\ md_mtime md
       = match u_mtime (f_data f) with
         | Some (UnixTime s (Some n)) => Some (s, n)
         | Some (UnixTime s None) => Some (s, 0)
         | None => None
         end)
  \/ exists e, In e [TreeExpandsOnLinks; TreeOverlapsBetweenLinks; EarlierLink; TreeJumpsBetweenLinks]
     /\ forall b' k', fst (continue_walk X v b' k') = Err (FileErr e).
Proof.
  intros X v b k f Hp Hm Np. unfold pending_links in Np. unfold continue_walk.
  destruct (fv_pending v) as [|[c r] pending]; [congruence|]. unfold tr_continue_walk.
  destruct (check_is_suitable_next (tr_last_ending (fv_state v)) (tr_last_offset (fv_state v)) r) as [e|] eqn:Hs.
  - right. exists e. split; [|reflexivity]. unfold check_is_suitable_next in Hs.
    destruct (tr_last_ending (fv_state v)); repeat (destruct (_ : bool) in Hs); try discriminate; injection Hs as <-; cbn; auto.
  - left. exists (metadata_of (f_data f)). split.
    + unfold from_continued. rewrite Hp. cbn [map_err bind].
      destruct (u_mode (f_data f)); [reflexivity|]. destruct (u_mtime (f_data f)); [reflexivity|]. destruct Hm; congruence.
    + split; [reflexivity|]. unfold metadata_of. cbn [md_mtime]. destruct (u_mtime (f_data f)) as [[s [n|]]|]; reflexivity.
Qed.
Print Assumptions C23_non_root_error.
(** a file with metadata can be visited: mode 0644 on the root of [ab] [ab] *)
Definition meta_root : flat :=
  Flat [lnk 1; lnk 1] (UnixFs File None (Some 4) [2; 2] None None (Some 420) (Some (UnixTime (-5) None))).
Example C23_nonvacuous : forall X, ext_ok X -> exists v,
  visit X anything None [flat_write meta_root] [] [] (Some v)
  /\ md_mode (fv_metadata v) = Some 420 /\ md_mtime (fv_metadata v) = Some ((-5)%Z, 0).
Proof.
  intros X HX.
  assert (P : try_parse (ext_dbg X) (flat_write meta_root) = Ok meta_root) by (destruct (ext_dbg X); vm_compute; reflexivity).
  assert (S : exists v, visit_start X None (flat_write meta_root) = Ok ([], 4, metadata_of (f_data meta_root), Some v)).
  { unfold visit_start, from_block. rewrite P. cbn [map_err bind].
    rewrite (from_parts_intro X meta_root 0 (metadata_of (f_data meta_root)) 4);
      [|repeat split; left; reflexivity|reflexivity|reflexivity|discriminate|reflexivity].
    cbn [bind]. unfold start_from_reader, fr_content. cbn [fr_links fr_blocksizes fr_offset meta_root f_links f_data u_blocksizes is_nil combine select_links].
    rewrite !(add64_ok (E := read_failed)) by reflexivity. cbn [bind block_is_in_target_range].
    rewrite !idc_pending by exact HX. cbn [bind]. rewrite !(add64_ok (E := read_failed)) by reflexivity. cbn [bind].
    rewrite !idc_pending by exact HX. eexists. reflexivity. }
  destruct S as [v S]. exists v. split; [change (@nil byte) with (@nil byte ++ []); eapply visit_multi; [exact S|apply cont_here]|].
  assert (V : visit X anything None [flat_write meta_root] [] [] (Some v))
    by (change (@nil byte) with (@nil byte ++ []); eapply visit_multi; [exact S|apply cont_here]).
  destruct (C23_metadata_kept _ _ _ _ _ _ _ _ V) as (f & P' & M1 & M2). rewrite P in P'. injection P' as <-.
  rewrite M1, M2. split; reflexivity.
Qed.

(** C24, for file visits: the caches that can be around, i.e. [None], a fresh
    one, and what any operation leaves behind... *)
Inductive shared_cache (X : ext) : option cache -> Prop :=
| sc_none : shared_cache X None
| sc_default : shared_cache X (Some [])
| sc_start : forall v f k, shared_cache X k -> shared_cache X (snd (start_from_parsed X v f k))
| sc_continue : forall v b k, shared_cache X k -> shared_cache X (snd (continue_walk X v b k)).
(** ...do not change any result *)
Lemma shared_cache_empty X k : shared_cache X k -> opt k [] (fun i => i) = [].
Proof.
  intros H. induction H as [| |v f k H IH|v b k H IH]; try reflexivity.
  - unfold start_from_parsed. destruct (from_parsed X f) as [fr| | |]; try exact IH.
    unfold start_from_reader. destruct (fr_content fr) as [[c|z base] tr]; [exact IH|].
    destruct (select_links X 0 base z v); try reflexivity.
    destruct (_ ++ _); reflexivity.
  - unfold continue_walk. destruct (fv_pending v) as [|[c r] pending]; [exact IH|].
    destruct (tr_continue_walk X (fv_state v) b r) as [fr| | |]; try exact IH.
    destruct (fr_content fr) as [[ct|z base] tr]; [|exact IH].
    destruct (maybe_target_slice X ct r (fv_range v)); try exact IH. destruct pending; [reflexivity|exact IH].
Qed.
Theorem C24_visit_cache : forall X k, shared_cache X k ->
  (forall v f, fst (start_from_parsed X v f k) = fst (start_from_parsed X v f None))
  /\ (forall v b, fst (continue_walk X v b k) = fst (continue_walk X v b None)).
Proof.
  intros X k H. split.
  - intros v f. apply start_cache. rewrite (shared_cache_empty X k H). reflexivity.
  - intros v b. apply continue_cache.
Qed.
Print Assumptions C24_visit_cache.

(** C46, for file visits: at every point of every visit that runs to its end, the
    blocks asked for from there on are, in this order, each pending link followed
    by blocks below it *)
Theorem C46_visit_pending : forall X get target root bs0 asked0 out0 v c others bs asked out,
  visit X (store get) target (root :: bs0) asked0 out0 (Some v) ->
  pending_links v = Ok (c, others) ->
  continues X (store get) v bs asked out None ->
  exists groups, asked = concat groups
    /\ Forall2 (fun d g => exists rest, g = d :: rest /\ Forall (below X get d) rest) (c :: others) groups.
Proof.
  intros X get target root bs0 asked0 out0 v c others bs asked out _ Hp Hc.
  destruct (continues_groups X get v bs asked out None Hc eq_refl) as (groups & G1 & G2).
  apply pending_links_ok in Hp as (r & rest & Hp & ->). rewrite Hp in G1. exists groups. split; [exact G2|exact G1].
Qed.
Print Assumptions C46_visit_pending.
