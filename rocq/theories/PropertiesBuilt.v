(** * Property C43: walking the trees the tree builder builds
    (/repo/src/dir/builder/, /repo/src/walk.rs, /repo/src/file/adder.rs).
    The proofs are in Built_proofs.v, the vocabulary in SpecBuilt.v. *)
From Coq Require Import Sorting.Sorted Sorting.Permutation.
From Verif Require Import Base Tac Wire Utf8 Cid Pb Reader Visit Dir Adder Builder Walk SpecAdder SpecFile SpecDir SpecBuilder SpecWalk SpecBuilt
  Adder_proofs Adder_thms Visit_thms Paths_proofs Dir_proofs Builder_proofs Builder_thms Builder_use Walk_proofs Walk_paths Walk_sim Walk_steps Built_proofs
  Examples_file Examples_dir Examples_walk Examples_builder PropertiesBuilder PropertiesWalk.

(** ** C43 *)

(** The walk from any returned node, given as the node at the path [pre], under
    the name [base] (for the root of a wrapping builder both are empty, for the
    single entry [n] of another one both are [n]), over a store with the returned
    blocks and with a tree [what c] at every linked Cid [c].  What there is to
    see, [evs], is the pre-order of the directories the calls imply and of the
    trees at the links, each under its path, and the walk is what C39 says about
    that: it returns exactly this, to the end if it can be walked, and up to the
    first thing that cannot be otherwise.  The only directory left out is the
    one with an entry at the empty path, see C43_empty. *)
Theorem C43_walk : forall X opts ks get what node pre base,
  ext_ok X -> Forall api_call ks ->
  let b := after (builder_new opts) ks in
  let H := accepted (builder_new opts) ks in
  (forall node, emitted X b node -> blen (n_block node) < two32 /\ get (n_cid node) = Some (n_block node)) ->
  (forall p c s, In (Put p c s) H -> stored X get c (what c)) ->
  emitted X b node -> n_path node = join pre -> Forall loose_name pre -> pre <> [] \/ ~ entry_in H [[]] ->
  (base = [] \/ exists n, base = [n] /\ loose_name n) ->
  exists evs, shown_all X b H what pre base evs
  /\ walked X get (n_cid node) (join base) evs
  /\ (walkable evs -> walked_through X get (n_cid node) (join base) evs).
Proof.
  intros X opts ks get what node pre base HX A b H Store Links E Ep Pp NE Bb.
  destruct (C30_tree opts ks) as (t & Ht & _).
  destruct (at_pre X opts ks t Ht pre Pp NE node E Ep) as (es & S & ->).
  assert (Fb : Forall loose_name base) by (destruct Bb as [->|(n & -> & P)]; [constructor|constructor; [exact P|constructor]]).
  pose proof (root_stored X opts ks get what t HX A Ht Store Links pre Pp NE es S E) as St.
  pose proof (built_shown X opts ks what t Ht pre base Pp NE Fb es E S) as Sh.
  assert (Hn : ~ In x2f (join base)) by (destruct Bb as [->|(n & -> & P)]; [intros []|exact (proj2 P)]).
  eexists. split; [exact Sh|]. split.
  - exact (C39_exact X get _ (join base) (grow X what (Dir es)) Hn St).
  - intros W. exact (C39_preorder X get _ (join base) (grow X what (Dir es)) Hn St W).
Qed.
Print Assumptions C43_walk.

(** An entry at the empty path: every returned node whose path is empty is
    either the root, and then the first call of a walk from it panics under any
    build, or the directory made at that path, which has no entries. *)
Theorem C43_empty : forall X opts ks node,
  ext_ok X -> Forall api_call ks ->
  let b := after (builder_new opts) ks in
  let H := accepted (builder_new opts) ks in
  entry_in H [[]] -> emitted X b node -> n_path node = [] -> blen (n_block node) < two32 ->
  (wrap_with_directory opts = true
   /\ forall name k, fst (fst (walk_next X (walker_new (n_cid node) name) (n_block node) k)) = Panic)
  \/ (dir_in H [[]] /\ forall get name, get (n_cid node) = Some (n_block node) -> ~ In x2f name ->
      walked_through X get (n_cid node) name [SeenRootDirectory (n_cid node) name (MData None None)]).
Proof.
  intros X opts ks node HX A b H Em E Ep Sm.
  destruct (C30_tree opts ks) as (t & Ht & _).
  destruct (emitted_at X opts ks t Ht node E) as (names & es & S & Wr & -> & _). cbn in Ep.
  assert (P : try_parse (ext_dbg X) (dir_block X es) = Ok (directory_message (dir_links X es)))
    by (exact (block_parses X opts ks t Ht HX A names es S Sm)).
  destruct (tree_names opts ks t Ht names) as [->|F]; [congruence| |].
  - right. split.
    { destruct (in_tree opts ks t Ht [[]]) as [Q _]. destruct (Q ltac:(congruence)) as [Z|[Z|(c & s & Z)]]; [discriminate|exact Z|]. clear Q. rename Z into Q.
      apply (proj1 (proj2 Ht)) in Q. congruence. }
    assert (es = []) as ->.
    { destruct es as [|[n u] es]; [reflexivity|]. exfalso.
      destruct (entry_ok opts ks t Ht A [[]] _ n u S (or_introl eq_refl)) as (S' & _).
      destruct (tree_names opts ks t Ht ([[]] ++ [n])) as [Q|Q];
        [intros Z; assert (Some u = None) by (rewrite <- S'; exact Z); discriminate|discriminate|].
      apply Forall_cons_iff in Q as [[Q _] _]. congruence. }
    intros get name G Hn.
    apply (C39_preorder X get (n_cid (node_of X [[]] [])) name (FsDir (MData None None) [])); [exact Hn| |].
    + change (MData None None) with (says (f_data (directory_message (dir_links X [])))).
      eapply stored_dir; [exact G|exact P|repeat split; left; reflexivity|constructor].
    + split; [|intros e [<-|[]] (x & y & Q & _)].
      * intros l c p md c' p' post Q. destruct l as [|e1 [|e2 l]]; discriminate.
      * cbn [path_seen] in Q. apply Hn. rewrite Q. apply in_or_app. right. left. reflexivity.
  - left. assert (names = []) as -> by (destruct names as [|n names]; [reflexivity|]; apply (join_loose (n :: names) []) in Ep; [exact Ep|exact F|constructor]).
    split; [destruct Wr as [Wr|Wr]; [exact Wr|congruence]|].
    exact (empty_root X opts ks t HX A Ht es S Em Sm).
Qed.
Print Assumptions C43_empty.
(** ... and if the builder wraps and the build succeeds, the root is returned *)
Theorem C43_empty_root : forall X opts ks,
  ext_ok X -> Forall api_call ks ->
  let b := after (builder_new opts) ks in
  let H := accepted (builder_new opts) ks in
  (forall node, emitted X b node -> blen (n_block node) < two32) ->
  entry_in H [[]] -> wrap_with_directory opts = true -> succeeds X b ->
  exists node, emitted X b node /\ n_path node = []
  /\ forall name k, fst (fst (walk_next X (walker_new (n_cid node) name) (n_block node) k)) = Panic.
Proof.
  intros X opts ks HX A b H Sm Em Wr Su.
  destruct (C30_tree opts ks) as (t & Ht & _).
  destruct (proj2 (proj2 (proj2 Ht) []) (or_introl eq_refl)) as (es & S).
  assert (E : emitted X b (node_of X [] es)) by (apply (succeeds_emits X opts ks t Ht []); auto).
  exists (node_of X [] es). split; [exact E|]. split; [reflexivity|].
  exact (empty_root X opts ks t HX A Ht es S Em (Sm _ E)).
Qed.
Print Assumptions C43_empty_root.

(** a file or a symlink *)
Definition no_dir (n : fsnode) : Prop :=
  (exists md content, n = FsFile md content) \/ exists md target, n = FsSymlink md target.

Lemma shown_members X b H what pre base evs :
  (forall p c s, In (Put p c s) H -> no_dir (what c)) ->
  shown_all X b H what pre base evs ->
  forall e, In e evs ->
   (exists node, emitted X b node /\ n_path node = join pre /\ e = SeenRootDirectory (n_cid node) (join base) (MData None None))
   \/ (exists names node, names <> [] /\ dir_in H (pre ++ names) /\ emitted X b node /\ n_path node = join (pre ++ names)
        /\ e = SeenDirectory (n_cid node) (join (base ++ names)) (MData None None))
   \/ (exists names c s md content, leaf_in H (pre ++ names) c s /\ what c = FsFile md content /\ e = SeenFile c (join (base ++ names)) md content)
   \/ (exists names c s md target, leaf_in H (pre ++ names) c s /\ what c = FsSymlink md target /\ e = SeenSymlink c (join (base ++ names)) md target).
Proof.
  intros ND (order & parts & _ & _ & F & ->) e I. apply in_concat in I as (part & Ip & I).
  induction F as [|names part' order parts Sh F IH]; [destruct Ip|]. destruct Ip as [->|Ip]; [|exact (IH Ip)].
  destruct Sh as [node En Pn|names node N D En Pn|names c s L].
  - destruct I as [<-|[]]. left. eauto.
  - destruct I as [<-|[]]. right. left. exists names, node. auto.
  - right. right. pose proof L as L0. destruct L as (p & Ip2 & _). destruct (ND _ _ _ Ip2) as [(md & x & E)|(md & x & E)]; rewrite E in I; destruct I as [<-|[]].
    + left. exists names, c, s, md, x. auto.
    + right. exists names, c, s, md, x. auto.
Qed.

(** When all links lead to files and symlinks: what there is to see, [evs], is
    exactly the implied directories and the linked files with their contents,
    each under its path: the files and directories below [pre], in pre-order, none
    twice.  The walk is what C39 says about it; it gives everything if a "." can
    only be the first name of a path: "./a/b", as tar writes them. *)
Theorem C43_files : forall X opts ks get what node pre base,
  ext_ok X -> Forall api_call ks ->
  let b := after (builder_new opts) ks in
  let H := accepted (builder_new opts) ks in
  (forall node, emitted X b node -> blen (n_block node) < two32 /\ get (n_cid node) = Some (n_block node)) ->
  (forall p c s, In (Put p c s) H -> stored X get c (what c) /\ no_dir (what c)) ->
  emitted X b node -> n_path node = join pre -> Forall loose_name pre -> pre <> [] \/ ~ entry_in H [[]] ->
  (base = [] \/ exists n, base = [n] /\ loose_name n) ->
  exists evs,
    walked X get (n_cid node) (join base) evs
    (** everything is reported, and every walk is a part of this one *)
    /\ ((forall names, entry_in H (pre ++ names) -> path_names (base ++ names)) ->
        exists items0, all reported evs items0
        /\ (exists w, walk_from X get (n_cid node) (join base) items0 w /\ should_continue w = false)
        /\ (forall items w, walk_from X get (n_cid node) (join base) items w ->
            exists rest, items0 = items ++ rest /\ (should_continue w = true <-> rest <> [])))
    (** in pre-order, without repetitions *)
    /\ shown_all X b H what pre base evs
    (** what is in there *)
    /\ (forall c p md content, In (SeenFile c p md content) evs <->
         exists names s, leaf_in H (pre ++ names) c s /\ p = join (base ++ names) /\ what c = FsFile md content)
    /\ (forall c p md target, In (SeenSymlink c p md target) evs <->
         exists names s, leaf_in H (pre ++ names) c s /\ p = join (base ++ names) /\ what c = FsSymlink md target)
    /\ (forall c p md, In (SeenDirectory c p md) evs -> 
         exists names node, names <> [] /\ dir_in H (pre ++ names) /\ p = join (base ++ names) /\ md = MData None None
           /\ emitted X b node /\ n_path node = join (pre ++ names) /\ c = n_cid node)
    /\ (forall names, names <> [] -> dir_in H (pre ++ names) ->
         exists node, emitted X b node /\ n_path node = join (pre ++ names)
           /\ In (SeenDirectory (n_cid node) (join (base ++ names)) (MData None None)) evs)
    /\ (forall c p md, In (SeenRootDirectory c p md) evs -> p = join base /\ md = MData None None)
    /\ (forall c p, ~ In (SeenBucket c p) evs).
Proof.
  intros X opts ks get what node pre base HX A b H Store Links E Ep Pp NE Bb.
  assert (ND : forall p c s, In (Put p c s) H -> no_dir (what c)) by (intros p c s I; apply (Links p c s I)).
  destruct (C43_walk X opts ks get what node pre base HX A Store (fun p c s I => proj1 (Links p c s I)) E Ep Pp NE Bb)
    as (evs & Sh & Walk0 & Walk). fold b H in Sh.
  pose proof (shown_members X b H what pre base evs ND Sh) as M.
  assert (NB : forall c p, ~ In (SeenBucket c p) evs).
  { intros c p I. apply M in I as [(? & _ & _ & Q)|[(? & ? & _ & _ & _ & _ & Q)|[(? & ? & ? & ? & ? & _ & _ & Q)|(? & ? & ? & ? & ? & _ & _ & Q)]]]; discriminate. }
  destruct (C30_tree opts ks) as (t & Ht & _).
  assert (Cov : forall names, names = [] \/ entry_in H (pre ++ names) -> exists part, shown X b H what pre base names part /\ incl part evs).
  { destruct Sh as (order & parts & _ & Io & F & ->). intros names I. apply Io in I. clear Io M NB Walk Walk0. revert parts F.
    induction order as [|n0 order IH]; intros parts F; [destruct I|]. inversion F as [|? p0 ? parts' S0 F']; subst.
    destruct I as [->|I].
    - exists p0. split; [exact S0|]. cbn [concat]. apply incl_appl, incl_refl.
    - destruct (IH I _ F') as (part & S1 & I1). exists part. split; [exact S1|]. cbn [concat]. apply incl_appr, I1. }
  assert (LD : forall names c s, leaf_in H names c s -> ~ dir_in H names).
  { intros names c s L D. apply (proj1 (proj2 Ht)) in L. assert (is_dir t names) as (es & Q) by (apply (proj2 (proj2 Ht)); auto). congruence. }
  assert (Lu : forall names c s c' s', leaf_in H names c s -> leaf_in H names c' s' -> c = c').
  { intros names c s c' s' L L'. apply (proj1 (proj2 Ht)) in L, L'. congruence. }
  assert (PD : is_dir t pre).
  { destruct (at_pre X opts ks t Ht pre Pp NE node E Ep) as (es & S & _). exists es. exact S. }
  assert (LN : forall names c s, leaf_in H (pre ++ names) c s -> names <> []).
  { intros names c s L ->. rewrite app_nil_r in L. apply (proj1 (proj2 Ht)) in L. destruct PD as (es & Q). congruence. }
  assert (LS : forall names c s, leaf_in H (pre ++ names) c s -> incl (sights false (join (base ++ names)) c (what c)) evs).
  { intros names c s L. destruct (Cov names) as (part & S & I); [right; right; eauto|].
    destruct S as [node0 En Pn|names node0 N D En Pn|names c0 s0 L0].
    - destruct (LN _ _ _ L eq_refl).
    - destruct (LD _ _ _ L D).
    - rewrite (Lu _ _ _ _ _ L L0). exact I. }
  exists evs. split; [exact Walk0|]. split; [|split; [exact Sh|split; [|split; [|split; [|split; [|split; [|exact NB]]]]]]].
  - intros Rel. destruct Walk as (items0 & All & W1 & W2).
    { split; [intros l c p md c' p' r ->; apply (NB c' p'); apply in_app_iff; right; right; left; reflexivity|].
      assert (PN : forall names, names = [] \/ entry_in H (pre ++ names) -> ~ dotted (join (base ++ names))).
      { intros names [->|I]; [|apply (undotted (base ++ names)), Rel, I]. apply (undotted (base ++ [])). rewrite app_nil_r.
        destruct Bb as [->|(n & -> & L)]; [exact Logic.I|split; [exact L|constructor]]. }
      intros e I. apply M in I as [(? & _ & _ & Q)|[(names & ? & _ & D & _ & _ & Q)|[(names & c & s & ? & ? & D & _ & Q)|(names & c & s & ? & ? & D & _ & Q)]]];
        subst e; cbn [path_seen]; [rewrite <- (app_nil_r base)|..]; apply PN; [left; reflexivity|right; left; exact D|right; right; eauto|right; right; eauto]. }
    exists items0. split; [|split; [exact W1|]].
    + clear - All NB. induction All as [|e its evs items' R All IH]; [constructor|].
      constructor; [|apply IH; intros c p I; apply (NB c p); right; exact I].
      inversion R; subst; [assumption|]. exfalso. apply (NB c p). left. reflexivity.
    + intros items w HW. destruct (W2 items w HW) as (rest & E1 & E2 & _). eauto.
  - intros c p md content. split.
    + intros I. apply M in I as [(? & _ & _ & Q)|[(? & ? & _ & _ & _ & _ & Q)|[(names & c0 & s & md0 & x & L & Wc & Q)|(? & ? & ? & ? & ? & _ & _ & Q)]]]; try discriminate.
      injection Q as -> -> -> ->. exists names, s. auto.
    + intros (names & s & L & -> & Wc). apply (LS names c s L). rewrite Wc. left. reflexivity.
  - intros c p md target. split.
    + intros I. apply M in I as [(? & _ & _ & Q)|[(? & ? & _ & _ & _ & _ & Q)|[(? & ? & ? & ? & ? & _ & _ & Q)|(names & c0 & s & md0 & x & L & Wc & Q)]]]; try discriminate.
      injection Q as -> -> -> ->. exists names, s. auto.
    + intros (names & s & L & -> & Wc). apply (LS names c s L). rewrite Wc. left. reflexivity.
  - intros c p md I. apply M in I as [(? & _ & _ & Q)|[(names & node0 & N & D & En & Pn & Q)|[(? & ? & ? & ? & ? & _ & _ & Q)|(? & ? & ? & ? & ? & _ & _ & Q)]]]; try discriminate.
    injection Q as -> -> ->. exists names, node0. auto 8.
  - intros names N D. destruct (Cov names) as (part & S & I); [right; left; exact D|].
    destruct S as [node0 En Pn|names node0 _ _ En Pn|names c0 s0 L0].
    + congruence.
    + exists node0. split; [exact En|]. split; [exact Pn|]. apply I. left. reflexivity.
    + destruct (LD _ _ _ L0 D).
  - intros c p md I. apply M in I as [(? & _ & _ & Q)|[(? & ? & _ & _ & _ & _ & Q)|[(? & ? & ? & ? & ? & _ & _ & Q)|(? & ? & ? & ? & ? & _ & _ & Q)]]]; try discriminate.
    injection Q as -> -> ->. auto.
Qed.
Print Assumptions C43_files.

(** The order of [shown_all] has no path twice. *)
Theorem C43_no_repetition : forall order, StronglySorted path_before order -> NoDup order.
Proof.
  intros order S. induction S as [|p order S IH F]; [constructor|]. constructor; [|exact IH]. intros I.
  rewrite Forall_forall in F. specialize (F p I) as [(n & r & E)|(pre & n & m & p' & q' & E1 & E2 & L)].
  - apply app_self in E. exact E.
  - rewrite E1 in E2. apply app_inv_head in E2. injection E2 as -> _. exact (name_lt_irrefl _ L).
Qed.
Print Assumptions C43_no_repetition.

(** Files added with the adder are such files: after any session on the bytes
    [c], the Cid of the last block leads to a file with exactly these bytes. *)
Theorem C43_added_files : forall X chunk bf a0 c out a last get,
  ext_ok X -> cfg_ok chunk bf -> moderate chunk bf -> 2 <= bf \/ blen c <= chunk ->
  adder_new chunk bf = Ok a0 -> session X a0 c out a -> blen c <= max_content ->
  finish X a = Ok last ->
  (forall cd b, In (cd, b) (out ++ last) -> get cd = Some b) ->
  exists before root block, out ++ last = before ++ [(root, block)]
    /\ stored X get root (FsFile (MData None None) c).
Proof.
  intros X chunk bf a0 c out a last get HX Hcfg Hm Hb Hn Hs Hc Hf Hg.
  destruct (session_finish X HX chunk bf a0 c out a Hcfg Hn Hs Hb Hc) as (last' & r & all' & F1 & F2 & F3 & _ & F5).
  rewrite Hf in F1. injection F1 as <-.
  destruct (adder_dag X HX get chunk bf c r Hcfg Hm Hb Hc F2) as (f & P & NM & D).
  { intros cd b Hin. apply Hg. rewrite F3. unfold tree_blocks in Hin. eapply Permutation_in; [|exact Hin].
    apply Permutation_map, Permutation_sym, F5. }
  exists (map (cblock_of X) all'), (block_cid X (block X r)), (block X r). rewrite F3, map_app. split; [reflexivity|].
  assert (G : get (block_cid X (block X r)) = Some (block X r)).
  { apply Hg. rewrite F3, map_app. apply in_app_iff. right. left. reflexivity. }
  assert (Sy : says (f_data f) = MData None None) by (destruct NM as [Nm Nt]; unfold says; rewrite Nm, Nt; reflexivity).
  rewrite <- Sy. eapply stored_file; [exact G|exact P|exact D|]. unfold max_content, two64 in *. lia.
Qed.
Print Assumptions C43_added_files.

(** the files behind the links of ex_calls *)
Definition ex_what (c : cid) : fsnode :=
  FsFile (MData None None) (if cid_eqb c (idc 1) then [x61; x62] else [x64]).
Definition ex_full (dbg : bool) (c : cid) : option bytes :=
  match ex_store dbg c with
  | Some b => Some b
  | None => if cid_eqb c (idc 1) then Some (flat_write (leafm Raw [x61; x62]))
            else if cid_eqb c (idc 2) then Some (flat_write (leafm File [x64])) else None
  end.
(** all hypotheses are met by the history ex_calls: "a/b", "a/c/d" and "e" *)
Example C43_nonvacuous : forall dbg, let X := toy dbg in
  let b := after (builder_new wrapped) ex_calls in let H := accepted (builder_new wrapped) ex_calls in
  (forall node, emitted X b node -> blen (n_block node) < two32 /\ ex_full dbg (n_cid node) = Some (n_block node))
  /\ (forall p c s, In (Put p c s) H -> stored X (ex_full dbg) c (ex_what c) /\ no_dir (ex_what c))
  /\ (forall names, entry_in H names -> Forall plain_name names)
  /\ exists node, emitted X b node /\ n_path node = join []
     /\ sights true [] (n_cid node) (grow X ex_what ex_tree)
        = [SeenRootDirectory (n_cid node) [] (MData None None);
           SeenDirectory (fst (link_of X (Dir [([x62], Leaf (idc 1) 10); ([x63], Dir [([x64], Leaf (idc 2) 20)])]))) pa (MData None None);
           SeenFile (idc 1) pab (MData None None) [x61; x62];
           SeenDirectory (fst (link_of X (Dir [([x64], Leaf (idc 2) 20)]))) [x61; x2f; x63] (MData None None);
           SeenFile (idc 2) pacd (MData None None) [x64];
           SeenDirectory (fst (link_of X (Dir []))) pe (MData None None)].
Proof.
  intros dbg X b H.
  assert (L : forall c t d, ex_full dbg c = Some (flat_write (leafm t d)) -> try_parse dbg (flat_write (leafm t d)) = Ok (leafm t d) ->
     (t = File \/ t = Raw) -> blen d < two64 -> stored X (ex_full dbg) c (FsFile (MData None None) d)).
  { intros c t d G P T B. change (MData None None) with (says (f_data (leafm t d))). eapply stored_file; [exact G|exact P| |exact B].
    apply (dag_leaf X (ex_full dbg) (leafm t d)); try reflexivity. repeat split. exact T. }
  split; [|split; [|split]].
  - intros node E. apply ex_emitted in E. destruct E as [<-|[<-|[<-|[<-|[]]]]]; destruct dbg; split; vm_compute; reflexivity.
  - intros p c s I. unfold H in I. rewrite ex_accepted in I. destruct I as [I|[I|[I|[]]]]; [| |discriminate]; injection I as <- <- <-.
    + split; [|left; eexists _, _; reflexivity]. apply (L _ Raw); [destruct dbg; vm_compute; reflexivity|destruct dbg; vm_compute; reflexivity|auto|reflexivity].
    + split; [|left; eexists _, _; reflexivity]. apply (L _ File); [destruct dbg; vm_compute; reflexivity|destruct dbg; vm_compute; reflexivity|auto|reflexivity].
  - intros names N. assert (S : subtree ex_tree names <> None) by (apply (in_tree wrapped ex_calls ex_tree ex_holds); auto). clear N.
    assert (P : forall x, x <> x2e -> x <> x2f -> plain_name [x]) by exact plain1.
    destruct names as [|n names]; [constructor|]. cbn in S. destruct (bytes_eqb n pa) eqn:B.
    + apply bytes_eqb_eq in B as ->. constructor; [apply P; discriminate|]. destruct names as [|m names]; [constructor|]. cbn in S.
      destruct (bytes_eqb m [x62]) eqn:B.
      * apply bytes_eqb_eq in B as ->. constructor; [apply P; discriminate|]. destruct names; [constructor|cbn in S; congruence].
      * destruct (bytes_eqb m [x63]) eqn:B2; [|congruence]. apply bytes_eqb_eq in B2 as ->. constructor; [apply P; discriminate|].
        destruct names as [|k names]; [constructor|]. cbn in S. destruct (bytes_eqb k [x64]) eqn:B3; [|congruence].
        apply bytes_eqb_eq in B3 as ->. constructor; [apply P; discriminate|]. destruct names; [constructor|cbn in S; congruence].
    + destruct (bytes_eqb n pe) eqn:B2; [|congruence]. apply bytes_eqb_eq in B2 as ->. constructor; [apply P; discriminate|].
      destruct names; [constructor|cbn in S; congruence].
  - exists (node_of X [] (match ex_tree with Dir es => es | _ => [] end)). split; [|split].
    + apply (succeeds_emits X wrapped ex_calls ex_tree ex_holds []); [apply ex_succeeds|reflexivity|left; reflexivity].
    + reflexivity.
    + destruct dbg; reflexivity.
Qed.

(** The claim is false for the link put at the empty path: the call is accepted
    and a block returned, but the first call of the walk panics. *)
Theorem C43_refuted : forall X, ext_ok X ->
  let b := after (builder_new wrapped) [Put [] (idc 1) 10] in
  accepted (builder_new wrapped) [Put [] (idc 1) 10] = [Put [] (idc 1) 10]
  /\ exists node, emitted X b node /\ n_path node = []
     /\ forall k, fst (fst (walk_next X (walker_new (n_cid node) []) (n_block node) k)) = Panic.
Proof.
  intros X HX b. split; [reflexivity|].
  assert (Ht : holds (Dir [([], Leaf (idc 1) 10)]) (accepted (builder_new wrapped) [Put [] (idc 1) 10])).
  { pose proof (inv_holds _ _ (proj1 (run_new wrapped [Put [] (idc 1) 10]))) as H.
    replace (Dir [([], Leaf (idc 1) 10)]) with (erase (b_root (after (builder_new wrapped) [Put [] (idc 1) 10]))); [exact H|vm_compute; reflexivity]. }
  exists (node_of X [] [([], Leaf (idc 1) 10)]). split; [|split; [reflexivity|]].
  - apply (succeeds_emits X wrapped [Put [] (idc 1) 10] _ Ht []); [|reflexivity|left; reflexivity].
    assert (R : results X 2 (build b) = [Ok (Some (node_of X [] [([], Leaf (idc 1) 10)])); Ok None])
      by (destruct X as [sha dec []]; vm_compute; reflexivity).
    unfold b in R. apply (succeeds_by X wrapped [Put [] (idc 1) 10] _ Ht 2).
    + rewrite R. right. left. reflexivity.
    + rewrite R. intros r [<-|[<-|[]]]; eauto.
  - intros k.
    change (n_block (node_of X [] [([], Leaf (idc 1) 10)])) with (flat_write (dirm [nlnk 1 []])).
    assert (NF0 : forall ie, w_current (walker_new (n_cid (node_of X [] [([], Leaf (idc 1) 10)])) []) = Some ie -> in_file (ie_kind ie) = false) by discriminate.
    rewrite (next_not_file X _ _ _ NF0 (dirm [nlnk 1 []])) by (destruct (ext_dbg X); vm_compute; reflexivity).
    cbn -[link_target idc nlnk node_of]. unfold finish_dir, enumerate_rev. cbn -[link_target idc nlnk node_of].
    unfold convert_link. rewrite (link_target_ok X 0 (nlnk 1 []) (idc 1)) by (apply nlnk_cid, HX). reflexivity.
Qed.
Print Assumptions C43_refuted.

(** walking by computation *)
Fixpoint stroll (X : ext) (get : cid -> option bytes) (n : nat) (w : walker) : option (list bytes * list cid * list continued * walker) :=
  match n with
  | O => Some ([], [], [], w)
  | S n =>
    if should_continue w then
      match w_pending_links w with
      | Ok (c, _) =>
        match get c with
        | Some b =>
          match walk_next X w b None with
          | (Ok it, w1, _) =>
            match stroll X get n w1 with
            | Some (bs, asked, items, w2) => Some (b :: bs, c :: asked, it :: items, w2)
            | None => None
            end
          | _ => None
          end
        | None => None
        end
      | _ => None
      end
    else None
  end.
Lemma stroll_ok X get n : forall w bs asked items w2, stroll X get n w = Some (bs, asked, items, w2) ->
  walks X (store get) w bs asked items w2.
Proof.
  induction n as [|n IH]; intros w bs asked items w2 E; cbn [stroll] in E.
  - injection E as <- <- <- <-. apply walks_here.
  - destruct (should_continue w) eqn:SC; [|discriminate]. destruct (w_pending_links w) as [[c o]| | |] eqn:PL; try discriminate.
    destruct (get c) as [b|] eqn:G; [|discriminate]. destruct (walk_next X w b None) as [[[it| | |] w1] k'] eqn:NX; try discriminate.
    destruct (stroll X get n w1) as [[[[bs1 as1] it1] w3]|] eqn:R; [|discriminate]. injection E as <- <- <- <-.
    eapply walks_next; [exact SC|exact PL|exact G|left; reflexivity|exact NX|apply IH, R].
Qed.
Definition is_panic {E A} (r : outcome E A) : bool := match r with Panic => true | _ => false end.
Definition strolls_to_panic (X : ext) (get : cid -> option bytes) (n : nat) (w : walker) : bool :=
  match stroll X get n w with
  | Some (_, _, _, w) =>
    should_continue w &&
    match w_pending_links w with
    | Ok (c, _) =>
      match get c with
      | Some b => is_panic (fst (fst (walk_next X w b None))) && is_panic (fst (fst (walk_next X w b (Some []))))
      | None => false
      end
    | _ => false
    end
  | None => false
  end.
Lemma strolls_to_panic_ok X get n root name : strolls_to_panic X get n (walker_new root name) = true ->
  exists items w c others block, walk_from X get root name items w /\ should_continue w = true
     /\ w_pending_links w = Ok (c, others) /\ get c = Some block
     /\ forall k, clean_cache k -> fst (fst (walk_next X w block k)) = Panic.
Proof.
  unfold strolls_to_panic. destruct (stroll X get n (walker_new root name)) as [[[[bs asked] items] w]|] eqn:R; [|discriminate].
  intros E. apply andb_prop in E as [SC E]. destruct (w_pending_links w) as [[c o]| | |] eqn:PL; try discriminate.
  destruct (get c) as [b|] eqn:G; [|discriminate]. apply andb_prop in E as [E1 E2].
  exists items, w, c, o, b. split; [exists bs, asked; eapply stroll_ok, R|]. split; [exact SC|]. split; [exact PL|]. split; [exact G|].
  intros k [->| ->]; [destruct (fst (fst (walk_next X w b None)))|destruct (fst (fst (walk_next X w b (Some []))))]; solve [discriminate|reflexivity].
Qed.

(** ... and when a directory has an entry called ".": the walk over the
    returned blocks and the files panics later on *)
Definition dot_calls : list call := [Put [x61; x2f; x2e] (idc 2) 10; Put [x62] (idc 1) 10].
Definition dot_tree : tree := Dir [(pa, Dir [([x2e], Leaf (idc 2) 10)]); ([x62], Leaf (idc 1) 10)].
Definition dot_nodes (dbg : bool) : list tree_node :=
  [node_of (toy dbg) [pa] [([x2e], Leaf (idc 2) 10)];
   node_of (toy dbg) [] [(pa, Dir [([x2e], Leaf (idc 2) 10)]); ([x62], Leaf (idc 1) 10)]].
Definition dot_get (dbg : bool) (c : cid) : option bytes :=
  match List.find (fun d => cid_eqb (n_cid d) c) (dot_nodes dbg) with
  | Some d => Some (n_block d)
  | None => ex_full dbg c
  end.
Lemma dot_holds : holds dot_tree (accepted (builder_new wrapped) dot_calls).
Proof.
  pose proof (inv_holds _ _ (proj1 (run_new wrapped dot_calls))) as H.
  replace dot_tree with (erase (b_root (after (builder_new wrapped) dot_calls))); [exact H|vm_compute; reflexivity].
Qed.
Theorem C43_dot_refuted : forall dbg, let X := toy dbg in
  let b := after (builder_new wrapped) dot_calls in
  accepted (builder_new wrapped) dot_calls = dot_calls
  /\ (forall node, emitted X b node -> blen (n_block node) < two32 /\ dot_get dbg (n_cid node) = Some (n_block node))
  /\ (forall p c s, In (Put p c s) dot_calls -> stored X (dot_get dbg) c (ex_what c) /\ no_dir (ex_what c))
  /\ exists node items w c others block, emitted X b node /\ n_path node = []
     /\ walk_from X (dot_get dbg) (n_cid node) [] items w /\ should_continue w = true
     /\ w_pending_links w = Ok (c, others) /\ dot_get dbg c = Some block
     /\ forall k, clean_cache k -> fst (fst (walk_next X w block k)) = Panic.
Proof.
  intros dbg X b. split; [vm_compute; reflexivity|]. split; [|split].
  - intros node E. assert (I : In node (dot_nodes dbg)).
    { destruct (emitted_at X wrapped dot_calls dot_tree dot_holds node E) as (names & es & S & _ & -> & _).
      clear E. unfold dot_nodes. destruct names as [|n names]; [injection S as <-; right; left; reflexivity|].
      cbn in S. destruct (bytes_eqb n pa) eqn:B.
      - apply bytes_eqb_eq in B as ->. destruct names as [|m names]; [injection S as <-; left; reflexivity|]. cbn in S.
        destruct (bytes_eqb m [x2e]); [destruct names; discriminate|discriminate].
      - destruct (bytes_eqb n [x62]); [destruct names; discriminate|discriminate]. }
    destruct I as [<-|[<-|[]]]; destruct dbg; split; vm_compute; reflexivity.
  - assert (L : forall c t d, dot_get dbg c = Some (flat_write (leafm t d)) -> try_parse dbg (flat_write (leafm t d)) = Ok (leafm t d) ->
       (t = File \/ t = Raw) -> blen d < two64 -> stored X (dot_get dbg) c (FsFile (MData None None) d)).
    { intros c t d G P T B. change (MData None None) with (says (f_data (leafm t d))). eapply stored_file; [exact G|exact P| |exact B].
      apply (dag_leaf X (dot_get dbg) (leafm t d)); try reflexivity. repeat split. exact T. }
    intros p c s I. destruct I as [I|[I|[]]]; injection I as <- <- <-.
    + split; [|left; eexists _, _; reflexivity]. apply (L _ File); [destruct dbg; vm_compute; reflexivity|destruct dbg; vm_compute; reflexivity|auto|reflexivity].
    + split; [|left; eexists _, _; reflexivity]. apply (L _ Raw); [destruct dbg; vm_compute; reflexivity|destruct dbg; vm_compute; reflexivity|auto|reflexivity].
  - assert (Em : emitted X b (node_of X [] [(pa, Dir [([x2e], Leaf (idc 2) 10)]); ([x62], Leaf (idc 1) 10)])).
    { exists 2%nat. destruct dbg; vm_compute; right; left; reflexivity. }
    assert (P : strolls_to_panic X (dot_get dbg) (if dbg then 2 else 3) (walker_new (n_cid (node_of X [] [(pa, Dir [([x2e], Leaf (idc 2) 10)]); ([x62], Leaf (idc 1) 10)])) []) = true)
      by (destruct dbg; vm_compute; reflexivity).
    apply strolls_to_panic_ok in P as (items & w & c & others & block & HW & SC & PL & G & NX).
    eexists _, items, w, c, others, block. split; [exact Em|]. auto 8.
Qed.
Print Assumptions C43_dot_refuted.
