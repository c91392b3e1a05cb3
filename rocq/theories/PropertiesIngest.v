(** * Properties C61 to C63: the last block of the file adder, and trees made of
    archives (/repo/src/file/adder.rs, /repo/benches/ingest-tar.rs).
    The proofs are in Ingest_proofs.v and Ingest_tree.v, the vocabulary in
    SpecIngest.v. *)
From Coq Require Import Sorting.Permutation.
From Verif Require Import Base Tac Wire Utf8 Cid Pb Dagpb Reader Visit Dir Builder Walk Adder SpecAdder Adder_proofs Adder_thms
  SpecFile SpecDir SpecBuilder Paths_proofs Builder_proofs Builder_thms Builder_use SpecWalk Programs SpecPrograms Programs_proofs
  Text_proofs Walk_paths Built_proofs Store_proofs Examples_file Examples_builder PropertiesAdder PropertiesBuilder PropertiesBuilt PropertiesPrograms Listing_proofs
  Ingest SpecIngest Ingest_proofs Ingest_tree Examples_ingest.

(** ** C61 *)

(** After any session on the bytes [c] finish returns nothing exactly when [c]
    is one full chunk: the root of the file, which one might expect among the
    last blocks, has then been returned by push already. *)
Theorem C61_finish_empty : forall X chunk bf a0 c out a last,
  ext_ok X -> cfg_ok chunk bf -> 2 <= bf \/ blen c <= chunk ->
  adder_new chunk bf = Ok a0 -> session X a0 c out a -> blen c <= max_content ->
  finish X a = Ok last -> (last = [] <-> blen c = chunk).
Proof.
  intros X chunk bf a0 c out a last HX Hcfg Hb Hn Hs Hc Hf. apply adder_new_ok in Hn.
  apply (finish_nothing X HX chunk bf c a out last Hcfg Hb); [|exact Hc|exact Hf].
  apply (session_state X HX chunk bf a0 c out a Hcfg Hn Hs Hc).
Qed.
Print Assumptions C61_finish_empty.

(** Otherwise the last block of finish is the root. *)
Theorem C61_root : forall X chunk bf a0 c out a last,
  ext_ok X -> cfg_ok chunk bf -> 2 <= bf \/ blen c <= chunk ->
  adder_new chunk bf = Ok a0 -> session X a0 c out a -> blen c <= max_content ->
  finish X a = Ok last ->
  exists r, canonical chunk bf c r
  /\ (blen c = chunk -> out = [(block_cid X (block X r), block X r)] /\ last = [])
  /\ (blen c <> chunk -> exists before, last = before ++ [(block_cid X (block X r), block X r)]).
Proof.
  intros X chunk bf a0 c out a last HX Hcfg Hb Hn Hs Hc Hf.
  destruct (C61_finish_empty X chunk bf a0 c out a last HX Hcfg Hb Hn Hs Hc Hf) as [E1 E2].
  destruct (session_finish X HX chunk bf a0 c out a Hcfg Hn Hs Hb Hc) as (last' & r & all' & F1 & F2 & F3 & _ & F5).
  rewrite Hf in F1. injection F1 as <-. exists r. split; [exact F2|]. split.
  - intros L. specialize (E2 L) as ->. split; [|reflexivity]. rewrite app_nil_r in F3. rewrite F3.
    assert (Ch : chunks (N.to_nat chunk) c = [c]).
    { assert (Lc : length c = N.to_nat chunk) by (unfold blen in L; lia). unfold chunks. destruct c as [|x c]; [destruct Hcfg; cbn in Lc; lia|].
      unfold pieces. cbn [length pieces_go]. rewrite <- Lc, firstn_all, skipn_all. destruct (length c); reflexivity. }
    unfold canonical in F2. rewrite Ch in F2. cbn [map] in F2. inversion F2 as [t|ts r' L2 B]; [subst r|cbn in L2; lia].
    cbn [nodes] in F5. apply Permutation_sym, Permutation_length_1_inv in F5. rewrite F5. reflexivity.
  - intros N. destruct (exists_last (l := last)) as (init & x & El); [intros Z; apply N, E1, Z|].
    exists init. rewrite El. f_equal. f_equal. rewrite El, map_app, app_assoc in F3. cbn [map] in F3. apply app_inj_tail in F3 as [_ ->]. reflexivity.
Qed.
Print Assumptions C61_root.

(** a full chunk of two bytes, and one more *)
Example C61_nonvacuous : forall X, ext_ok X -> cfg_ok 2 3 /\
  forall c, c = [x61; x62] \/ c = [x61; x62; x63] -> blen c <= max_content
  /\ exists a0 out a last, adder_new 2 3 = Ok a0 /\ session X a0 c out a /\ finish X a = Ok last.
Proof.
  intros X HX. assert (Cf : cfg_ok 2 3) by (vm_compute; repeat split; congruence). split; [exact Cf|].
  intros c Hc. assert (B : blen c <= max_content) by (destruct Hc as [->| ->]; vm_compute; congruence). split; [exact B|].
  destruct (sessions_exist X 2 3 (Adder 2 3 [] []) c HX Cf eq_refl B) as (out & a & Hs).
  destruct (session_finish X HX 2 3 _ c out a Cf eq_refl Hs) as (last & r & all' & F & _); [left; lia|exact B|].
  exists (Adder 2 3 [] []), out, a, last. auto.
Qed.

(** ** C62 *)

Definition ingest_start : builder := builder_new (TreeOptions (Some (512 * 1024)) true).

(** The result for an archive: that of the tree builder after the calls for the
    entries, when none of these is refused and no node of the tree is too large.
    A file must not be of exactly 256 KiB (see below). *)
Theorem C62_ingest : forall X es arch, ext_ok X -> Forall2 entry_of es arch -> Forall sensible arch ->
  (forall path content, In (Regular path content) arch -> blen content <> 262144) ->
  exists ks, Forall2 (call_for X) arch ks /\
  let b := after ingest_start ks in
  (consistent arch -> succeeds X b -> exists node N, finally X b node
     /\ forall fuel buffer, (N <= fuel)%nat ->
        ingest_tar X fuel (map Some es) buffer = Ok (n_cid node, n_total_size node, blen (n_block node)))
  /\ (~ consistent arch \/ ~ succeeds X b -> exists N, forall fuel buffer, (N <= fuel)%nat -> ingest_tar X fuel (map Some es) buffer = Panic).
Proof.
  intros X es arch HX F S NW. destruct (entries_calls X HX es arch F S NW) as (ks & Fk & Ak & Pk & I). exists ks. split; [exact Fk|]. intros b.
  pose proof (consistent_calls X ingest_options arch ks eq_refl Fk) as CC.
  destruct (C30_tree ingest_options ks) as (t & Ht & _).
  pose proof (last_of_wrapped X ingest_options ks t Ht eq_refl) as LW.
  pose proof (I ingest_options [] []) as IE. cbn [after app] in IE. rewrite app_nil_r in IE.
  split.
  - intros C Su. destruct LW as [(node & N & es' & Fi & _ & _ & Q)|[NS _]]; [|destruct (NS Su)]. exists node, N. split; [exact Fi|].
    intros fuel buffer L. destruct (IE buffer) as [IO _]. destruct (IO (proj2 CC C)) as (buffer' & E). unfold ingest_tar. rewrite E. cbn [ingest_entries bind fst].
    rewrite Q by exact L. reflexivity.
  - intros Z. assert (D : consistent arch \/ ~ consistent arch).
    { rewrite <- CC. clear. induction (returns (builder_new ingest_options) ks) as [|o l IH]; [left; constructor|].
      destruct o as [[]|e| |]; try (right; intros Q; apply Forall_cons_iff in Q as [Q _]; discriminate).
      destruct IH as [Q|Q]; [left; constructor; auto|right; intros Q'; apply Q; apply Forall_cons_iff in Q' as [_ Q']; exact Q']. }
    destruct D as [C|NC].
    + destruct Z as [Z|Z]; [destruct (Z C)|]. destruct LW as [(node & N & es' & (Su & _) & _)|[_ (N & Q)]]; [destruct (Z Su)|].
      exists N. intros fuel buffer L. destruct (IE buffer) as [IO _]. destruct (IO (proj2 CC C)) as (buffer' & E). unfold ingest_tar. rewrite E. cbn [ingest_entries bind fst].
      rewrite Q by exact L. reflexivity.
    + exists 0%nat. intros fuel buffer _. destruct (IE buffer) as [_ IP]. unfold ingest_tar.
      rewrite IP; [reflexivity|]. intros Q. apply NC, CC, Q.
Qed.
Print Assumptions C62_ingest.

(** Entries that cannot be added: errors of the archive, paths and link names
    that are not text, errors while the content is read, and files of exactly
    256 KiB. *)
Inductive unfit : option tar_entry -> Prop :=
| unfit_archive : unfit None
| unfit_path : forall e, utf8_valid (te_path e) = false -> unfit (Some e)
| unfit_link : forall e target, te_link e = Some target -> utf8_valid target = false -> unfit (Some e)
| unfit_read : forall path pieces more, ~ ends_in_slash path ->
    Forall (fun p => 1 <= blen p <= 262144) pieces -> blen (concat pieces) <= max_content ->
    unfit (Some (TarEntry path None (map Some pieces ++ None :: more)))
| unfit_whole_chunk : forall e path content, entry_of e (Regular path content) -> blen content = 262144 -> unfit (Some e).

Lemma unfit_panics X (HX : ext_ok X) e more b buffer : unfit e -> ingest_entries X (e :: more) b buffer = Panic.
Proof.
  intros U. destruct U as [|e U|e target El U|path pieces rest NS NE Hc|e path content E L]; cbn [ingest_entries]; [reflexivity| | | |].
  - unfold ingest_entry. rewrite U. reflexivity.
  - unfold ingest_entry. rewrite El, U. destruct (utf8_valid (te_path e)); reflexivity.
  - unfold ingest_entry. cbn [te_path te_link te_reads]. destruct (utf8_valid path); [|reflexivity]. cbn [assert bind].
    assert (ES : ends_with_slash path = false) by (destruct (ends_with_slash path) eqn:Q; [apply ends_with_slash_iff in Q; destruct (NS Q)|reflexivity]).
    rewrite ES. cbn [negb]. unfold entry_file. destruct (adder_run X HX pieces Hc) as (a' & bs & last & r & all' & P & _ & _ & _ & _ & _ & Sum & Bnd).
    fold (total (bs ++ last)) in Sum. rewrite total_app in Sum.
    destruct (content_steps X pieces adder_default a' bs P (None :: rest) (buffer ++ repeat x00 (N.to_nat (size_hint adder_default - blen buffer))) 0 NE (fill_len buffer)) as (buffer' & B' & E).
    { unfold max_content, two64 in *. lia. } { unfold two63, two64 in *. lia. }
    rewrite E. reflexivity.
  - inversion E as [path' pieces rest NS NE R E1 E2| |]. subst. unfold ingest_entry. cbn [te_path te_link te_reads]. destruct (utf8_valid path); [|reflexivity]. cbn [assert bind].
    assert (ES : ends_with_slash path = false) by (destruct (ends_with_slash path) eqn:Q; [apply ends_with_slash_iff in Q; destruct (NS Q)|reflexivity]).
    rewrite ES. cbn [negb]. unfold entry_file.
    destruct (file_read X HX pieces rest (buffer ++ repeat x00 (N.to_nat (size_hint adder_default - blen buffer)))) as [Fp _]; [unfold max_content; lia|exact NE|exact R|apply fill_len|].
    rewrite (Fp L). reflexivity.
Qed.

(** The first unfit entry ends the program. *)
Theorem C62_unfit : forall X es arch e more, ext_ok X -> Forall2 entry_of es arch -> Forall sensible arch ->
  (forall path content, In (Regular path content) arch -> blen content <> 262144) -> unfit e ->
  forall fuel buffer, ingest_tar X fuel (map Some es ++ e :: more) buffer = Panic.
Proof.
  intros X es arch e more HX F S NW U fuel buffer. unfold ingest_tar.
  change (builder_new ingest_options) with (after (builder_new ingest_options) []).
  rewrite (entries_bad X HX es arch e more ingest_options [] buffer F S NW); [reflexivity|].
  intros b buffer'. apply unfit_panics; assumption.
Qed.
Print Assumptions C62_unfit.

(** Of the archives with text for paths and link names, those with a file of
    exactly 256 KiB are never taken, although the same files, one byte shorter
    or longer, are: finish returns nothing for them (C61_finish_empty). *)
Theorem C62_whole_chunk_refuted : forall X es arch path content, ext_ok X -> Forall2 entry_of es arch -> Forall sensible arch ->
  In (Regular path content) arch -> blen content = 262144 ->
  forall fuel buffer, ingest_tar X fuel (map Some es) buffer = Panic.
Proof.
  intros X es arch path content HX F S I L fuel buffer.
  assert (Sp : exists es1 e es2 arch1, es = es1 ++ e :: es2 /\ Forall2 entry_of es1 arch1 /\ Forall sensible arch1
     /\ (forall path content, In (Regular path content) arch1 -> blen content <> 262144) /\ unfit (Some e)).
  { clear fuel buffer. induction F as [|e a es arch E F IH]; [destruct I|]. apply Forall_cons_iff in S as [Sa S].
    assert (D : (exists p x, a = Regular p x /\ blen x = 262144) \/ (forall p x, a = Regular p x -> blen x <> 262144)).
    { destruct a as [p x|p x|p]; [|right; discriminate|right; discriminate]. destruct (N.eq_dec (blen x) 262144); [left; eauto|right; intros ? ? [= <- <-]; assumption]. }
    destruct D as [(p & x & -> & Lx)|D].
    - exists [], e, es, []. split; [reflexivity|]. split; [constructor|]. split; [constructor|]. split; [intros ? ? []|]. eapply unfit_whole_chunk; eassumption.
    - destruct I as [->|I]; [destruct (D path content eq_refl L)|]. destruct (IH S I) as (es1 & e1 & es2 & arch1 & -> & F1 & S1 & N1 & U).
      exists (e :: es1), e1, es2, (a :: arch1). split; [reflexivity|]. split; [constructor; assumption|]. split; [constructor; assumption|]. split; [|exact U].
      intros p x [->|I']; [apply (D p x eq_refl)|apply (N1 p x I')]. }
  destruct Sp as (es1 & e & es2 & arch1 & -> & F1 & S1 & N1 & U). rewrite map_app. cbn [map].
  apply (C62_unfit X es1 arch1 (Some e) (map Some es2) HX F1 S1 N1 U).
Qed.
Print Assumptions C62_whole_chunk_refuted.

(** ** C63 *)

Lemma seen_line e : (forall c p, e <> SeenBucket c p) -> exists l, seen_lines e = [l] /\ line_path l = path_seen e.
Proof. intros N. destruct e; [..|destruct (N _ _ eq_refl)]; eexists; split; reflexivity. Qed.
Lemma dotted_not_path names : Forall loose_name names -> ~ path_names names -> dotted (join names).
Proof.
  intros F N. destruct names as [|n names]; [destruct (N Logic.I)|]. apply Forall_cons_iff in F as [Fn F].
  assert (D : In [x2e] names).
  { destruct (in_dec (list_eq_dec Byte.byte_eq_dec) [x2e] names) as [D|D]; [exact D|]. exfalso. apply N. split; [exact Fn|].
    apply Forall_forall. intros m I. rewrite Forall_forall in F. destruct (F m I) as [F1 F2]. split; [exact F1|]. split; [|exact F2].
    intros ->. exact (D I). }
  apply in_split in D as (l1 & l2 & ->). change (n :: l1 ++ [x2e] :: l2) with ((n :: l1) ++ [x2e] :: l2).
  rewrite join_app by discriminate. exists (join (n :: l1)). destruct l2 as [|m l2].
  - exists []. split; [reflexivity|auto].
  - eexists (x2f :: join (m :: l2)). split; [reflexivity|eauto].
Qed.

(** the calls behind a run that ended well, and the node it ended with *)
Lemma ingest_calls X es arch fuel buffer root size len :
  ext_ok X -> Forall2 entry_of es arch -> Forall sensible arch ->
  ingest_tar X fuel (map Some es) buffer = Ok (root, size, len) ->
  exists ks, Forall2 (call_for X) arch ks /\ Forall api_call ks /\ consistent arch
  /\ exists node, finally X (after (builder_new ingest_options) ks) node /\ n_cid node = root
  /\ exists t es', holds t (accepted (builder_new ingest_options) ks) /\ t = Dir es' /\ node = node_of X [] es' /\ blen (n_block node) < two32
  /\ exists N, forall fuel last, (N <= fuel)%nat -> last_node X fuel (build (after (builder_new ingest_options) ks)) last = Ok (Some (seen_node node)).
Proof.
  intros HX F S R.
  assert (NW : forall path content, In (Regular path content) arch -> blen content <> 262144).
  { intros path content I L. rewrite (C62_whole_chunk_refuted X es arch path content HX F S I L) in R. discriminate. }
  destruct (entries_calls X HX es arch F S NW) as (ks & Fk & Ak & Pk & I).
  pose proof (consistent_calls X ingest_options arch ks eq_refl Fk) as CC.
  destruct (I ingest_options [] [] buffer) as [IO IP]. cbn [after app] in IO, IP. rewrite app_nil_r in IO, IP.
  assert (C : consistent arch).
  { apply CC. assert (D : Forall (eq (Ok tt)) (returns (builder_new ingest_options) ks) \/ ~ Forall (eq (Ok tt)) (returns (builder_new ingest_options) ks)).
    { clear. induction (returns (builder_new ingest_options) ks) as [|o l IH]; [left; constructor|].
      destruct o as [[]|e| |]; try (right; intros Q; apply Forall_cons_iff in Q as [Q _]; discriminate).
      destruct IH as [Q|Q]; [left; constructor; auto|right; intros Q'; apply Q; apply Forall_cons_iff in Q' as [_ Q']; exact Q']. }
    destruct D as [D|D]; [exact D|]. unfold ingest_tar in R. rewrite (IP D) in R. discriminate. }
  destruct (IO (proj2 CC C)) as (buffer' & E). unfold ingest_tar in R. rewrite E in R. cbn [ingest_entries bind fst] in R.
  assert (Mono : forall fuel fuel' it last r, last_node X fuel it last = Ok r -> (fuel <= fuel')%nat -> last_node X fuel' it last = Ok r).
  { clear. induction fuel as [|fuel IH]; intros fuel' it last r Q L; [discriminate|]. destruct fuel' as [|fuel']; [lia|]. cbn [last_node] in *.
    destruct (next X it) as [o it']. destruct o as [[n|]| | |]; try discriminate; [|exact Q]. apply (IH _ _ _ _ Q). lia. }
  destruct (last_node X fuel (build (after (builder_new ingest_options) ks)) None) as [r| | |] eqn:Q; try discriminate. cbn [bind] in R.
  destruct (C30_tree ingest_options ks) as (t & Ht & _).
  destruct (last_of_wrapped X ingest_options ks t Ht eq_refl) as [(node & N & es' & Fi & Et & En & P)|[_ (N & P)]].
  2:{ pose proof (Mono fuel (fuel + N)%nat _ _ _ Q ltac:(lia)) as Q'. rewrite P in Q' by lia. discriminate. }
  pose proof (Mono fuel (fuel + N)%nat _ _ _ Q ltac:(lia)) as Q'. rewrite P in Q' by lia. injection Q' as <-. cbn [unwrap] in R. injection R as <- _ _.
  exists ks. split; [exact Fk|]. split; [exact Ak|]. split; [exact C|]. exists node. split; [exact Fi|]. split; [reflexivity|]. exists t, es'. split; [exact Ht|]. split; [exact Et|]. split; [exact En|].
  split; [|exists N; exact P].
  assert (Em : emitted X (after (builder_new ingest_options) ks) node).
  { destruct Fi as (_ & k & before & Z). exists k. rewrite Z. apply in_app_iff. right. left. reflexivity. }
  destruct (emitted_at X ingest_options ks t Ht node Em) as (nms & es2 & _ & _ & -> & _ & TL & _).
  cbn [too_large ingest_options block_size_limit default_options] in TL. cbn [node_of n_block]. apply N.ltb_ge in TL. unfold two32. lia.
Qed.

(** What ingest_tar returns is the root of a tree with exactly the files, links
    and folders of the archive (and the folders on the way to them), each under
    its path, over any store with the blocks of the files, links and nodes.  So
    it can be looked up in, and walked (C39) up to the first "." that is not the
    first name of its path.  (Archives with a member at the empty path are in
    C63_empty.) *)
Theorem C63_tree : forall X es arch get fuel buffer root size len,
  ext_ok X -> Forall2 entry_of es arch -> Forall sensible arch ->
  ingest_tar X fuel (map Some es) buffer = Ok (root, size, len) ->
  (forall a kbs c b, In a arch -> blocks_for X a kbs -> In (c, b) kbs -> get c = Some b) ->
  (forall ks node, Forall2 (call_for X) arch ks -> emitted X (after ingest_start ks) node -> get (n_cid node) = Some (n_block node)) ->
  (forall m, ~ has arch [[]] m) ->
  exists n, stored X get root n /\ unambiguous root n
  /\ (forall c p, ~ In (SeenBucket c p) (sights true [] root n)) /\ text_targets (sights true [] root n)
  /\ (forall names c' n', leads_to root n names c' n' -> exists m, has arch names m /\ is_member X c' n' m)
  /\ (forall names m, has arch names m <-> exists c' n', leads_to root n names c' n' /\ is_member X c' n' m)
  /\ (walkable (sights true [] root n) <-> forall names m, has arch names m -> path_names names).
Proof.
  intros X es arch get fuel buffer root size len HX F S R Hg He Hn.
  destruct (ingest_calls X es arch fuel buffer root size len HX F S R) as (ks & Fk & Ak & C & node0 & Fi & Er & _ & _ & _ & _ & _ & _ & N0 & P0).
  destruct (ingested_tree X HX get arch ks Fk Ak S C Hg (fun node => He ks node Fk) Hn (proj1 Fi)) as (node & N & Fi' & P & n & T).
  assert (n_cid node = root) as <- by (rewrite <- Er; specialize (P (N + N0)%nat None ltac:(lia)); rewrite (P0 (N + N0)%nat None ltac:(lia)) in P; injection P as ->; congruence).
  exists n. destruct T as (T1 & T2 & T3 & T4 & T5 & T6). do 5 (split; [assumption|]). split; [exact T6|]. split.
  - intros [_ ND] names m Hm. apply T6 in Hm as (c' & n' & L & _).
    destruct (leads_loose X get _ _ _ _ _ L T1) as [Fl _].
    assert (D : path_names names \/ ~ path_names names).
    { destruct names as [|x names]; [left; exact Logic.I|]. apply Forall_cons_iff in Fl as [F1 F2].
      destruct (in_dec (list_eq_dec Byte.byte_eq_dec) [x2e] names) as [D|D].
      - right. intros [_ Q]. rewrite Forall_forall in Q. destruct (Q _ D) as (_ & Q' & _). congruence.
      - left. split; [exact F1|]. apply Forall_forall. intros y I. rewrite Forall_forall in F2. destruct (F2 y I). split; [assumption|]. split; [|assumption]. intros ->. exact (D I). }
    destruct D as [D|D]; [exact D|]. exfalso. apply (dotted_not_path names Fl) in D.
    assert (Il : In (line_of (join names) n') (listing [] n)) by (apply (listing_members X get _ n _ T1); eauto).
    rewrite <- (sights_lines n true [] (n_cid node)) in Il. apply in_flat_map in Il as (e & Ie & Il).
    destruct (seen_line e) as (l & El & Pl). { intros c p ->. exact (T3 c p Ie). }
    rewrite El in Il. destruct Il as [Q|[]]. apply (ND e Ie). rewrite <- Pl, Q, line_of_path. exact D.
  - intros PN. split; [intros l c p md c' p' r E'; apply (T3 c' p'); rewrite E'; apply in_or_app; right; right; left; reflexivity|].
    intros e Ie. destruct (seen_line e) as (l & El & Pl). { intros c p ->. exact (T3 c p Ie). }
    assert (Il : In l (listing [] n)) by (rewrite <- (sights_lines n true [] (n_cid node)); apply in_flat_map; exists e; split; [exact Ie|rewrite El; left; reflexivity]).
    apply (listing_members X get _ n _ T1) in Il as (names & c' & n' & L & ->). rewrite <- Pl, line_of_path.
    apply (undotted names). destruct (T5 _ _ _ L) as (m & Hm & _). exact (PN names m Hm).
Qed.
Print Assumptions C63_tree.

(** With a member at the empty path, the first call of every walk from what
    ingest_tar returns panics. *)
Theorem C63_empty : forall X es arch fuel buffer root size len m,
  ext_ok X -> Forall2 entry_of es arch -> Forall sensible arch ->
  ingest_tar X fuel (map Some es) buffer = Ok (root, size, len) -> has arch [[]] m ->
  exists ks node, Forall2 (call_for X) arch ks /\ emitted X (after ingest_start ks) node /\ n_cid node = root
  /\ forall name k, fst (fst (walk_next X (walker_new root name) (n_block node) k)) = Panic.
Proof.
  intros X es arch fuel buffer root size len m HX F S R Hm.
  destruct (ingest_calls X es arch fuel buffer root size len HX F S R) as (ks & Fk & Ak & C & node & Fi & Er & t & es' & Ht & Et & En & Sm & _).
  exists ks, node. split; [exact Fk|].
  assert (All : accepted (builder_new ingest_options) ks = ks).
  { apply accepted_all. apply (consistent_calls X ingest_options arch ks eq_refl Fk), C. }
  assert (Em : emitted X (after ingest_start ks) node).
  { destruct Fi as (_ & k & before & Q). exists k. change ingest_start with (builder_new ingest_options). rewrite Q. apply in_app_iff. right. left. reflexivity. }
  split; [exact Em|]. split; [exact Er|]. subst root. rewrite En.
  apply (empty_root X ingest_options ks t HX Ak Ht es'); [rewrite Et; reflexivity| |rewrite <- En; exact Sm].
  rewrite All. exact (has_entry X arch ks Fk S [[]] m Hm ltac:(discriminate)).
Qed.
Print Assumptions C63_empty.

(** the line of a member of an archive *)
Definition member_line (names : list bytes) (m : member) : line :=
  match m with
  | MFile content => LineFile 420 0 (blen content) (join names)
  | MLink target => LineLink 493 0 (join names) target
  | MFolder => LineDir 493 0 (join names)
  end.

(** With the blocks in the store on disk, the example programs give back the
    archive: resolve finds every member, cat writes the contents of the files,
    and get lists exactly the members, none twice, up to the first "." that is not
    the first name of its path: there it panics with debug assertions. *)
Theorem C63_read_back : forall X es arch get fuel buffer root size len ipfs dir fs,
  ext_ok X -> Forall2 entry_of es arch -> Forall sensible arch ->
  ingest_tar X fuel (map Some es) buffer = Ok (root, size, len) ->
  (forall a kbs c b, In a arch -> blocks_for X a kbs -> In (c, b) kbs -> get c = Some b) ->
  (forall ks node, Forall2 (call_for X) arch ks -> emitted X (after ingest_start ks) node -> get (n_cid node) = Some (n_block node)) ->
  (forall m, ~ has arch [[]] m) ->
  blocks_place ipfs dir -> stocked fs dir get ->
  (exists before others N, NoDup (map line_path (before ++ others))
     /\ (forall l, In l (before ++ others) <-> exists names m, has arch names m /\ l = member_line names m)
     /\ (forall l, In l before -> ~ dotted (line_path l))
     /\ ((forall names m, has arch names m -> path_names names) -> others = [])
     /\ forall fuel, (N <= fuel)%nat ->
        match others with
        | [] => get_walk X fuel fs dir root = (Ok tt, before)
        | l :: _ => dotted (line_path l)
                    /\ (ext_dbg X = true -> get_walk X fuel fs dir root = (Panic, before))
                    /\ exists r more, get_walk X fuel fs dir root = (r, before ++ more)
        end)
  /\ (forall names m, has arch names m -> exists c N, forall fuel, (N <= fuel)%nat ->
        resolve_walk X fuel fs dir root names None = Ok (Some c)
        /\ forall content, m = MFile content -> exists read, cat_walk X fuel fs dir c = (Ok (read, blen content), content)).
Proof.
  intros X es arch get fuel buffer root size len ipfs dir fs HX F S R Hg He Hn PL St.
  destruct (C63_tree X es arch get fuel buffer root size len HX F S R Hg He Hn) as (n & Sn & Un & Bn & Tn & RM & M & Wn).
  assert (ML : forall names c' n' m, is_member X c' n' m -> line_of (join names) n' = member_line names m).
  { intros names c' n' m Q. destruct m; cbn in Q; [destruct Q as [-> _]; reflexivity|destruct Q as [-> _]; reflexivity|]. destruct Q as (es' & ->). reflexivity. }
  split.
  - assert (LB : forall evs, (forall c p, ~ In (SeenBucket c p) evs) -> no_dots evs -> forall l, In l (flat_map seen_lines evs) -> ~ dotted (line_path l)).
    { intros evs NB ND l I. apply in_flat_map in I as (e & Ie & I). destruct (seen_line e) as (l0 & El & Pl). { intros c p ->. exact (NB c p Ie). }
      rewrite El in I. destruct I as [<-|[]]. rewrite Pl. exact (ND e Ie). }
    assert (G : exists before others N, listing [] n = before ++ others /\ (forall l, In l before -> ~ dotted (line_path l))
      /\ forall fuel, (N <= fuel)%nat -> match others with
        | [] => get_walk X fuel fs dir root = (Ok tt, before)
        | l :: _ => dotted (line_path l) /\ (ext_dbg X = true -> get_walk X fuel fs dir root = (Panic, before))
                    /\ exists r more, get_walk X fuel fs dir root = (r, before ++ more) end).
    { destruct (C59_exact X ipfs dir get root n PL Sn) as (N & reads & H1 & _ & H2 & _).
      assert (FI : Forall (fun r => intact fs dir get (fst r)) reads).
      { eapply Forall_impl; [|exact H1]. intros [d ls] Gd. cbn [fst] in *. destruct (get d) as [b|] eqn:Gb; [|congruence]. eapply stocked_intact; eassumption. }
      destruct H2 as [(Sm & _ & H2)|(bef & e & aft & E & Sm & _ & H2)].
      - exists (listing [] n), [], N. split; [rewrite app_nil_r; reflexivity|]. split; [|intros fuel' L'; exact (H2 fs fuel' FI L')].
        rewrite <- (sights_lines n true [] root). exact (LB _ Bn (proj1 Sm)).
      - assert (NBe : forall c p, e <> SeenBucket c p) by (intros c p ->; apply (Bn c p); rewrite E; apply in_or_app; right; left; reflexivity).
        destruct (seen_line e NBe) as (l & El & Pl). exists (flat_map seen_lines bef), (l :: flat_map seen_lines aft), N.
        split; [rewrite <- (sights_lines n true [] root), E, flat_map_app; cbn [flat_map]; rewrite El; reflexivity|].
        split; [apply LB; [intros c p I; apply (Bn c p); rewrite E; apply in_or_app; left; exact I|exact (proj1 Sm)]|].
        intros fuel' L'. rewrite Pl. destruct H2 as [(T & H2)|(DB & D & H2)].
        + rewrite (H2 fs fuel' FI L'). split; [|split; [reflexivity|exists Panic, []; rewrite app_nil_r; reflexivity]].
          destruct T as [b0 c p md tg NT|b0 c p md c' p'|b0 e0 _ D]; [|destruct (NBe _ _ eq_refl)|exact D].
          destruct NT. apply (Tn c p md tg). rewrite E. apply in_or_app. right. left. reflexivity.
        + split; [exact D|]. split; [congruence|]. exact (H2 fs fuel' FI L'). }
    destruct G as (before & others & N & EL & ND & G). exists before, others, N. rewrite <- EL. split; [|split; [|split; [exact ND|split; [|exact G]]]].
    + apply (listing_once X get root n Sn Un).
    + intros l. rewrite (listing_members X get root n l Sn). split.
      * intros (names & c' & n' & L & ->). destruct (RM names c' n' L) as (m & H & Im). exists names, m. split; [exact H|eapply ML, Im].
      * intros (names & m & H & ->). apply M in H as (c' & n' & L & Im). exists names, c', n'. split; [exact L|]. symmetry. eapply ML, Im.
    + intros PN. destruct others as [|l others]; [reflexivity|]. exfalso. destruct (G N (le_n _)) as (D & _).
      assert (Il : In l (listing [] n)) by (rewrite EL; apply in_or_app; right; left; reflexivity).
      apply (listing_members X get root n l Sn) in Il as (names & c' & n' & L & ->). rewrite line_of_path in D.
      destruct (RM _ _ _ L) as (m & Hm & _). exact (undotted names (PN _ _ Hm) D).
  - intros names m H. pose proof H as H0. apply M in H as (c' & n' & L & Im). exists c'.
    destruct (C58_found X ipfs dir fs get root n names c' n' PL Sn Un St L) as (N1 & G1).
    assert (Cat : forall content, m = MFile content -> exists N read, forall fuel, (N <= fuel)%nat -> cat_walk X fuel fs dir c' = (Ok (read, blen content), content)).
    { intros content ->. cbn in Im. destruct Im as (_ & r & Cr & Ec).
      assert (exists p, In (Regular p content) arch) as (p & Ip) by (inversion H0; eauto).
      set (slices := match content with [] => [] | _ => [content] end).
      assert (Es : concat slices = content) by (unfold slices; destruct content; [reflexivity|cbn; rewrite app_nil_r; reflexivity]).
      assert (Bc : blen content <= max_content) by (rewrite Forall_forall in S; destruct (S _ Ip) as [_ Q]; exact Q).
      assert (NE : Forall (fun s => s <> []) slices) by (unfold slices; destruct content; repeat constructor; discriminate).
      destruct (C56_read_back X slices ipfs dir fs get HX NE ltac:(rewrite Es; exact Bc) PL St) as (rep & Er & Gr).
      { rewrite Es. intros tree c b Ct Ib. apply (Hg (Regular p content) (tree_blocks X tree) c b Ip); [exists tree; auto|exact Ib]. }
      destruct (C56_add X slices [] HX NE ltac:(auto) ltac:(rewrite Es; exact Bc)) as (tree & Ct & rep' & Er' & _ & _ & Ecid & Ein).
      rewrite app_nil_r in Er'. rewrite Er in Er'. injection Er' as <-. rewrite Es in *.
      assert (tree = r) as -> by (eapply canonical_unique; eassumption).
      exists (N.to_nat (ar_blocks rep)), (ar_bytes rep). intros fuel' L'. rewrite Ec. change (block_cid X (block X r)) with (Cid true 0x70 0x12 (ext_sha256 X (block X r))).
      rewrite <- Ecid, Gr by exact L'. rewrite Ein. reflexivity. }
    destruct m as [content| |].
    + destruct (Cat content eq_refl) as (N2 & read & G2). exists (N1 + N2)%nat. intros fuel' L'. split; [apply G1; lia|]. intros x [= <-]. exists read. apply G2. lia.
    + exists N1. intros fuel' L'. split; [apply G1, L'|discriminate].
    + exists N1. intros fuel' L'. split; [apply G1, L'|discriminate].
Qed.
Print Assumptions C63_read_back.

Example C62_nonvacuous : forall dbg, let X := toy dbg in
  ext_ok X /\ Forall2 entry_of tar1 arch1 /\ Forall sensible arch1 /\ consistent arch1
  /\ (forall ks, Forall2 (call_for X) arch1 ks -> succeeds X (after ingest_start ks))
  /\ (forall path content, In (Regular path content) arch1 -> blen content <> 262144)
  /\ exists node N, forall fuel buffer, (N <= fuel)%nat ->
     ingest_tar X fuel (map Some tar1) buffer = Ok (n_cid node, n_total_size node, blen (n_block node)).
Proof.
  intros dbg X. pose proof tar1_arch as (F & S & Sm & NW).
  assert (Su : forall ks, Forall2 (call_for X) arch1 ks -> succeeds X (after ingest_start ks)).
  { intros ks Fk. apply calls_small in Fk; [|exact Sm]. subst ks. apply succeeds1. }
  split; [apply toy_ok|]. split; [exact F|]. split; [exact S|]. split; [exact consistent1|]. split; [exact Su|]. split; [exact NW|].
  destruct (C62_ingest X tar1 arch1 (toy_ok dbg) F S NW) as (ks & Fk & Q & _). destruct (Q consistent1 (Su ks Fk)) as (node & N & _ & G). exists node, N. exact G.
Qed.
(** a file of 256 KiB *)
Example C62_whole_chunk_nonvacuous : exists e content, entry_of e (Regular [x66] content) /\ sensible (Regular [x66] content) /\ blen content = 262144.
Proof.
  assert (B : exists big : bytes, blen big = 262144) by (exists (repeat x00 (N.to_nat 262144)); unfold blen; rewrite repeat_length, N2Nat.id; reflexivity).
  destruct B as (big & L).
  exists (TarEntry [x66] None (map Some [big] ++ [])), (concat [big]).
  assert (E : concat [big] = big) by (unfold concat; apply app_nil_r).
  split; [|split].
  - apply of_file; [|constructor; [rewrite L; lia|constructor]|left; reflexivity].
    intros (q & Q). change [x66] with ([] ++ [x66]) in Q. apply app_inj_tail in Q as [_ Q]. discriminate.
  - split; [reflexivity|]. rewrite E, L. vm_compute. congruence.
  - rewrite E. exact L.
Qed.

Lemma call_unique X a k k' : call_for X a k -> call_for X a k' -> k = k'.
Proof.
  intros (kbs & B & H) (kbs' & B' & H').
  assert (E : kbs = kbs').
  { destruct a as [p c|p t|p]; [|cbn [blocks_for] in *; congruence|cbn [blocks_for] in *; congruence].
    destruct B as (r & C & ->), B' as (r' & C' & ->). rewrite (canonical_unique 262144 174 c r r' C C'). reflexivity. }
  subst kbs'. destruct a as [p c|p t|p]; [| |congruence].
  - destruct H as (b1 & r1 & E1 & ->), H' as (b2 & r2 & E2 & ->). rewrite E1 in E2. apply app_inj_tail in E2 as [_ <-]. reflexivity.
  - destruct H as (b1 & r1 & E1 & ->), H' as (b2 & r2 & E2 & ->). rewrite E1 in E2. apply app_inj_tail in E2 as [_ <-]. reflexivity.
Qed.
(** The calls of C62 are determined by the archive. *)
Theorem C62_calls_unique : forall X arch ks ks', Forall2 (call_for X) arch ks -> Forall2 (call_for X) arch ks' -> ks = ks'.
Proof.
  intros X arch ks ks' F. revert ks'. induction F as [|a k arch ks C F IH]; intros ks' F'; inversion F' as [|? k' ? ks2 C' F2]; subst; [reflexivity|].
  rewrite (call_unique X a k k' C C'), (IH ks2 F2). reflexivity.
Qed.
Print Assumptions C62_calls_unique.
Lemma ingest_by X es arch ks node N : ext_ok X -> Forall2 entry_of es arch -> Forall sensible arch ->
  (forall path content, In (Regular path content) arch -> blen content <> 262144) ->
  Forall2 (call_for X) arch ks -> consistent arch ->
  (forall fuel last, (N <= fuel)%nat -> last_node X fuel (build (after (builder_new ingest_options) ks)) last = Ok (Some (seen_node node))) ->
  forall fuel buffer, (N <= fuel)%nat -> ingest_tar X fuel (map Some es) buffer = Ok (n_cid node, n_total_size node, blen (n_block node)).
Proof.
  intros HX F S NW Fk C Q fuel buffer L. destruct (entries_calls X HX es arch F S NW) as (ks' & Fk' & _ & _ & I).
  rewrite (C62_calls_unique X arch ks' ks Fk' Fk) in *.
  destruct (I ingest_options [] [] buffer) as [IO _]. cbn [after app] in IO. rewrite app_nil_r in IO.
  destruct IO as (buffer' & E2); [apply (consistent_calls X ingest_options arch ks eq_refl Fk), C|].
  unfold ingest_tar. rewrite E2. cbn [ingest_entries bind fst]. rewrite Q by exact L. reflexivity.
Qed.

Example C63_nonvacuous : forall dbg, let X := toy dbg in exists fuel root size len,
  ingest_tar X fuel (map Some tar1) [] = Ok (root, size, len)
  /\ (forall a kbs c b, In a arch1 -> blocks_for X a kbs -> In (c, b) kbs -> get1 dbg c = Some b)
  /\ (forall ks node, Forall2 (call_for X) arch1 ks -> emitted X (after ingest_start ks) node -> get1 dbg (n_cid node) = Some (n_block node))
  /\ (forall m, ~ has arch1 [[]] m) /\ (forall names m, has arch1 names m -> path_names names)
  /\ has arch1 [[x2e]; [x66]] (MFile [x61; x62]) /\ has arch1 [[x6c]] (MLink [x2e; x2f; x66]) /\ has arch1 [[x2e]] MFolder
  /\ exists fs, blocks_place [x2f] ex_dir /\ stocked fs ex_dir (get1 dbg).
Proof.
  intros dbg X. destruct (C62_nonvacuous dbg) as (_ & _ & _ & _ & _ & _ & node & N & G). exists N, (n_cid node), (n_total_size node), (blen (n_block node)).
  split; [apply G, le_n|]. split; [apply get1_blocks|]. split; [apply get1_nodes|]. split; [intros m H; destruct (path1 _ _ H) as [[Q _] _]; congruence|]. split; [exact path1|].
  assert (Sg : forall p, segments p (split_slash p)) by (intros; apply split_segments).
  split; [|split; [|split]].
  - apply (has_file arch1 [x2e; x2f; x66]); [right; left; reflexivity|apply (Sg [x2e; x2f; x66])].
  - apply (has_link arch1 [x6c]); [right; right; left; reflexivity|apply (Sg [x6c])].
  - apply (has_folder arch1 [x2e]); [left; reflexivity|apply (Sg [x2e])].
  - destruct (C54_store [x2f] ex_dir (map (fun n => (n_cid n, n_block n)) (nodes1 dbg) ++ flat_map (blocks_of (toy dbg)) arch1) ex_place) as (fs & St & _).
    exists fs. split; [exact ex_place|exact St].
Qed.

(** The claim is false for archives with paths in which "." follows another
    name, which tar does write: "a/./c" and "b" become a tree, but walks over it
    panic. *)
Theorem C63_refuted : forall dbg, let X := toy dbg in exists root size len N,
  (forall fuel buffer, (N <= fuel)%nat -> ingest_tar X fuel (map Some tar2) buffer = Ok (root, size, len))
  /\ (forall a kbs c b, In a arch2 -> blocks_for X a kbs -> In (c, b) kbs -> get2 dbg c = Some b)
  /\ (forall ks node, Forall2 (call_for X) arch2 ks -> emitted X (after ingest_start ks) node -> get2 dbg (n_cid node) = Some (n_block node))
  /\ has arch2 [[x61]; [x2e]; [x63]] (MFile [x61]) /\ has arch2 [[x62]] (MFile [x61])
  /\ exists items w c others block, walk_from X (get2 dbg) root [] items w /\ should_continue w = true
     /\ w_pending_links w = Ok (c, others) /\ get2 dbg c = Some block
     /\ forall k, clean_cache k -> fst (fst (walk_next X w block k)) = Panic.
Proof.
  intros dbg X. pose proof tar2_arch as (F & S & Sm & NW).
  assert (Fk : Forall2 (call_for X) arch2 (calls2 dbg)) by (apply calls_of_for, Sm).
  destruct (last_of_wrapped X ingest_options (calls2 dbg) _ (holds2 dbg) eq_refl) as [(node & N & es & _ & Ee & En & L)|[NS _]]; [|destruct (NS (succeeds2 dbg))].
  injection Ee as <-.
  exists (n_cid node), (n_total_size node), (blen (n_block node)), N.
  split; [exact (ingest_by X tar2 arch2 (calls2 dbg) node N (toy_ok dbg) F S NW Fk consistent2 L)|].
  assert (E : n_cid node = root2 dbg) by (rewrite En; reflexivity). clear En L.
  split; [apply get2_blocks|]. split; [apply get2_nodes|].
  assert (Sg : forall p, segments p (split_slash p)) by (intros; apply split_segments).
  split; [|split].
  - apply (has_file arch2 [x61; x2f; x2e; x2f; x63]); [left; reflexivity|apply (Sg [x61; x2f; x2e; x2f; x63])].
  - apply (has_file arch2 [x62]); [right; left; reflexivity|apply (Sg [x62])].
  - rewrite E. apply (strolls_to_panic_ok X (get2 dbg) (if dbg then 2 else 4)%nat). apply panics2.
Qed.
Print Assumptions C63_refuted.
