(** * Examples_file: small concrete DAGs used as non-vacuity witnesses and as
    counterexamples by PropertiesFile.v *)
From Verif Require Import Base Tac Wire Cid Pb Reader Visit SpecFile.

(** identity-hash Cids, so that no SHA-256 is needed *)
Definition idc (n : N) : cid := Cid true 0x55 0 [n2b n].
Definition lnk (n : N) : pblink := PBLink (Some (cid_bytes (idc n))) (Some []) (Some 10).
Definition leafm (t : ftype) (d : bytes) : flat := Flat [] (UnixFs t (Some d) (Some (blen d)) [] None None None None).
Definition nodem (ls : list pblink) (fs : N) (zs : list N) : flat := Flat ls (UnixFs File None (Some fs) zs None None None None).

Lemma idc_decode X n : ext_ok X -> link_cid X (lnk n) = Some (idc n).
Proof. intros HX. unfold link_cid, lnk. cbn [l_hash]. apply (decode_bytes X HX). reflexivity. Qed.

(** an unbalanced tree with Raw and File leaves and an empty leaf:
    [ab] [ [c] [] ] [d] *)
Definition ex_root := nodem [lnk 1; lnk 2; lnk 3] 4 [2; 1; 1].
Definition ex_msg (n : N) : flat :=
  match n with
  | 1 => leafm Raw [x61; x62]
  | 2 => nodem [lnk 4; lnk 5] 1 [1; 0]
  | 3 => leafm File [x64]
  | 4 => leafm File [x63]
  | _ => leafm Raw []
  end.
Definition ex_get (c : cid) : option bytes :=
  match cid_digest c with [x] => Some (flat_write (ex_msg (b2n x))) | _ => None end.

Lemma ex_parse dbg n : n <= 5 -> try_parse dbg (flat_write (ex_msg n)) = Ok (ex_msg n).
Proof.
  intros H. assert (C : n = 0 \/ n = 1 \/ n = 2 \/ n = 3 \/ n = 4 \/ n = 5) by lia.
  destruct C as [->|[->|[->|[->|[->| ->]]]]]; destruct dbg; vm_compute; reflexivity.
Qed.
Lemma ex_root_parse dbg : try_parse dbg (flat_write ex_root) = Ok ex_root.
Proof. destruct dbg; vm_compute; reflexivity. Qed.

Lemma ex_leaf X t d : (t = File \/ t = Raw) -> file_dag X ex_get (leafm t d) d.
Proof. intros H. apply (dag_leaf X ex_get (leafm t d)); try reflexivity. repeat split. exact H. Qed.

Lemma ex_dag X : ext_ok X -> file_dag X ex_get ex_root [x61; x62; x63; x64].
Proof.
  intros HX.
  assert (C : forall n f d ls ds, n <= 5 -> ex_msg n = f -> ex_get (idc n) = Some (flat_write f) ->
     no_metadata (f_data f) -> file_dag X ex_get f d -> file_dags X ex_get ls ds ->
     file_dags X ex_get (lnk n :: ls) (d :: ds)).
  { intros n f d ls ds Hn E G M D R. eapply dags_cons; [apply idc_decode, HX|exact G| |exact M|exact D|exact R].
    subst f. apply ex_parse, Hn. }
  assert (S2 : file_dag X ex_get (ex_msg 2) [x63]).
  { apply (dag_node X ex_get (ex_msg 2) [[x63]; []]); try reflexivity; [repeat split; left; reflexivity|discriminate|].
    eapply (C 4); [lia|reflexivity|reflexivity|split; reflexivity|apply ex_leaf; auto|].
    eapply (C 5); [lia|reflexivity|reflexivity|split; reflexivity|apply ex_leaf; auto|constructor]. }
  apply (dag_node X ex_get ex_root [[x61; x62]; [x63]; [x64]]); try reflexivity; [repeat split; left; reflexivity|discriminate|].
  eapply (C 1); [lia|reflexivity|reflexivity|split; reflexivity|apply ex_leaf; auto|].
  eapply (C 2); [lia|reflexivity|reflexivity|split; reflexivity|exact S2|].
  eapply (C 3); [lia|reflexivity|reflexivity|split; reflexivity|apply ex_leaf; auto|constructor].
Qed.

(** ** Evil blocks *)

(** a two byte leaf under a root that claims 10 bytes *)
Definition short_root := nodem [lnk 1] 10 [2].
(** a leaf without filesize *)
Definition nosize_block : bytes := [x0a; x05; x08; x02; x12; x01; x61].
(** a root whose link claims 5 bytes for a two byte leaf *)
Definition long_root := nodem [lnk 1] 5 [5].
(** a root whose link claims 8 bytes for a subtree that holds 2 *)
Definition gap_root := nodem [lnk 2] 8 [8].
Definition gap_node := nodem [lnk 1] 2 [2].
(** sizes that overflow a u64 *)
Definition huge_root := nodem [lnk 1; lnk 1] 1 [two63; two63].

Lemma evil_parse dbg :
  try_parse dbg (flat_write short_root) = Ok short_root
  /\ try_parse dbg (flat_write long_root) = Ok long_root
  /\ try_parse dbg (flat_write gap_root) = Ok gap_root
  /\ try_parse dbg (flat_write gap_node) = Ok gap_node
  /\ try_parse dbg (flat_write huge_root) = Ok huge_root
  /\ try_parse dbg nosize_block = Ok (Flat [] (UnixFs File (Some [x61]) None [] None None None None)).
Proof. destruct dbg; vm_compute; repeat split; reflexivity. Qed.

(** computing with the first link of a node *)
Lemma idc_pending X n i r : ext_ok X -> to_pending X i (lnk n) r = Ok (idc n, r).
Proof.
  intros HX. unfold to_pending. pose proof (idc_decode X n HX) as H. unfold link_cid in H. cbn [lnk l_hash opt] in *.
  rewrite H. reflexivity.
Qed.

From Verif Require Import Visit_proofs.
Definition nomd : metadata := MData None None.

Lemma start_nodem X t b ls fs zs p ps :
  try_parse (ext_dbg X) b = Ok (nodem ls fs zs) -> ls <> [] -> length ls = length zs -> fs < two64 ->
  select_links X 0 0 (combine ls zs) t = Ok (p :: ps) ->
  visit_start X t b = Ok ([], fs, nomd, Some (FileVisit (p :: ps) t (Traversal (TreeCoverage fs) 0 fs nomd))).
Proof.
  intros Hp Hl L Hf Hs. unfold visit_start, from_block. rewrite Hp. cbn [map_err bind].
  rewrite (from_parts_intro X (nodem ls fs zs) 0 (metadata_of (f_data (nodem ls fs zs))) fs);
    [|repeat split; left; reflexivity|exact L|reflexivity|cbn; congruence|lia].
  cbn [bind nodem f_links f_data u_blocksizes]. unfold start_from_reader, fr_content.
  cbn [fr_links fr_blocksizes fr_offset]. rewrite (proj2 (is_nil_false ls) Hl), Hs.
  cbn [opt app]. reflexivity.
Qed.

Lemma continue_leafm X c s e rest t tr b ty d k :
  try_parse (ext_dbg X) b = Ok (leafm ty d) -> ty = File \/ ty = Raw -> s + blen d < two64 ->
  check_is_suitable_next (tr_last_ending tr) (tr_last_offset tr) (s, e) = None ->
  fst (continue_walk X (FileVisit ((c, (s, e)) :: rest) t tr) b k)
  = do x <- maybe_target_slice X d (s, e) t;
    Ok (x, match rest with [] => None | _ => Some (FileVisit rest t (Traversal (Chunk (s + blen d)) s (blen d) (tr_metadata tr))) end).
Proof.
  intros Hp Ht Hs Hc. unfold continue_walk. cbn [fv_pending fv_state fv_range].
  rewrite (tr_continue_intro X tr b (s, e) _ Hc Hp) by (split; reflexivity).
  rewrite (from_parts_intro X (leafm ty d) (fst (s, e)) (tr_metadata tr) (blen d));
    [|repeat split; exact Ht|reflexivity|reflexivity|unfold own_data; cbn; intros _ ->; reflexivity|exact Hs].
  unfold fr_content. cbn [fr_links leafm f_links is_nil fr_data fr_end fr_offset fr_file_size fr_metadata fst].
  unfold own_data. cbn [leafm f_data u_data].
  destruct (maybe_target_slice X d (s, e) t); cbn [bind]; try reflexivity. destruct rest; reflexivity.
Qed.

Lemma continue_nodem X c s e rest t tr b ls fs zs sel k :
  try_parse (ext_dbg X) b = Ok (nodem ls fs zs) -> ls <> [] -> length ls = length zs -> s + fs < two64 ->
  check_is_suitable_next (tr_last_ending tr) (tr_last_offset tr) (s, e) = None ->
  select_links X 0 s (combine ls zs) t = Ok sel ->
  fst (continue_walk X (FileVisit ((c, (s, e)) :: rest) t tr) b k)
  = Ok ([], Some (FileVisit (sel ++ rest) t (Traversal (TreeCoverage (s + fs)) s fs (tr_metadata tr)))).
Proof.
  intros Hp Hl L Hs Hc Hsel. unfold continue_walk. cbn [fv_pending fv_state fv_range].
  rewrite (tr_continue_intro X tr b (s, e) _ Hc Hp) by (split; reflexivity).
  rewrite (from_parts_intro X (nodem ls fs zs) (fst (s, e)) (tr_metadata tr) fs);
    [|repeat split; left; reflexivity|exact L|reflexivity|cbn; congruence|exact Hs].
  unfold fr_content. cbn [fr_links nodem f_links fr_blocksizes f_data u_blocksizes fr_data fr_end fr_offset fr_file_size fr_metadata fst].
  rewrite (proj2 (is_nil_false ls) Hl), Hsel. reflexivity.
Qed.
