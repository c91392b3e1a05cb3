(** * Property C69: what an error about an unexpected node type tells
    (/repo/src/lib.rs 94-131). *)
From Coq Require Import Strings.String.
From Verif Require Import Base Tac Wire Cid Sha256 Pb Dagpb SpecWire Codec_proofs Reader Visit SpecFile Dir Walk AdderDebug Errors Adder_proofs Adder_thms Examples_file Examples_dir.

(** *** Which blocks are refused for their type *)
Lemma parts_type X f off md t : from_parts X f off md = Err (UnexpectedType t) <-> u_type (f_data f) = t /\ t <> File /\ t <> Raw.
Proof.
  unfold from_parts. split.
  - intros H. destruct (u_type (f_data f)) eqn:T; try (injection H as <-; repeat split; congruence).
    all: repeat (match type of H with
         | (if ?b then _ else _) = _ => destruct b
         | match ?b with _ => _ end = _ => destruct b eqn:?
         | bind ?b _ = _ => destruct b eqn:?; cbn [bind] in H
         | (let x := _ in _) = _ => cbv zeta in H
         end; try discriminate).
    all: injection H as ->; repeat match goal with
         | E : bind ?b _ = Err _ |- _ => unfold add64 in E; destruct b eqn:?; cbn [bind] in E; try discriminate
         | E : (if ?b then _ else _) = Err _ |- _ => destruct b; try discriminate
         | E : match ?b with _ => _ end = Err _ |- _ => destruct b; try discriminate
         | E : unwrap ?o = Err _ |- _ => destruct o; discriminate
         end; unfold add64 in *; repeat match goal with
         | E : (if ?b then _ else _) = _ |- _ => destruct b; try discriminate end.
  - intros (-> & NF & NR). destruct t; try congruence; reflexivity.
Qed.

Lemma select_no_type X : forall zipped nth base target t, select_links X nth base zipped target <> Err (UnexpectedType t).
Proof.
  induction zipped as [|[l bs] rest IH]; intros nth base target t; cbn [select_links]; [discriminate|].
  unfold add64. destruct (base + bs <? two64); [|destruct (ext_dbg X); [discriminate|]]; cbn [bind].
  all: destruct (block_is_in_target_range _ target); [|apply IH].
  all: unfold to_pending; destruct (ext_cid_decode X _); cbn [bind]; [|discriminate].
  all: match goal with |- bind ?r _ <> _ => destruct r as [ps|e| |] eqn:E; cbn [bind]; try discriminate end.
  all: intros [= ->]; exact (IH _ _ _ _ E).
Qed.

Lemma slice_no_type X content r target t : maybe_target_slice X content r target <> Err (UnexpectedType t).
Proof.
  unfold maybe_target_slice, target_slice, slice_index, sub64, add64. destruct target; [|discriminate].
  repeat (match goal with
         | |- (if ?b then _ else _) <> _ => destruct b
         | |- bind (if ?b then _ else _) _ <> _ => destruct b
         | |- bind (Ok _) _ <> _ => cbn [bind]
         | |- bind Panic _ <> _ => cbn [bind]
         | |- unwrap ?o <> _ => destruct o
         end; try discriminate).
Qed.

Lemma start_type X v b t : visit_start X v b = Err (UnexpectedType t)
  <-> exists f, try_parse (ext_dbg X) b = Ok f /\ u_type (f_data f) = t /\ t <> File /\ t <> Raw.
Proof.
  unfold visit_start, from_block. destruct (try_parse (ext_dbg X) b) as [f|e| |] eqn:P; cbn [map_err bind].
  2: { split; [|intros (f & E & _); discriminate]. destruct e; unfold read_failed_of; discriminate. }
  2, 3: split; [discriminate|]; intros (f & E & _); discriminate.
  split.
  - intros H. exists f. split; [reflexivity|].
    destruct (from_parts X f 0 (metadata_of (f_data f))) as [fr|e| |] eqn:E; cbn [bind] in H; try discriminate.
    + exfalso. unfold start_from_reader, fr_content in H. destruct (is_nil (fr_links fr)); cbn [fst] in H.
      * destruct (maybe_target_slice X _ _ v) as [s|e| |] eqn:S; cbn [bind] in H; try discriminate.
        injection H as ->. exact (slice_no_type _ _ _ _ _ S).
      * destruct (select_links X _ _ _ v) as [s|e| |] eqn:S; cbn [fst] in H; try discriminate.
        -- destruct s as [|? ?]; discriminate H.
        -- injection H as ->. exact (select_no_type _ _ _ _ _ _ S).
    + injection H as ->. apply (parts_type X f 0 (metadata_of (f_data f))). exact E.
  - intros (f' & [= <-] & H). rewrite (proj2 (parts_type X f 0 (metadata_of (f_data f)) t) H). reflexivity.
Qed.

Lemma resolve_type X b needle k t : fst (resolve X b needle k) = Err (RUnexpectedType t)
  <-> exists f, try_parse (ext_dbg X) b = Ok f /\ u_type (f_data f) = t /\ t <> Directory /\ t <> HAMTShard.
Proof.
  assert (NP : forall links, resolve_plain X links needle <> Err (RUnexpectedType t)).
  { intros links. unfold resolve_plain. destruct (matching 0 links needle) as [|[i l] more]; [discriminate|].
    destruct (try_convert_cid X i l); cbn [map_err bind]; try discriminate.
    destruct more as [|[j l2] ?]; discriminate. }
  unfold resolve. destruct (try_parse (ext_dbg X) b) as [f|e| |] eqn:P; cbn [fst].
  2: { split; [|intros (f & E & _); discriminate]. intros H. exfalso. destruct e; cbn [fst] in H; try discriminate; exact (NP _ H). }
  2, 3: split; [discriminate|]; intros (f & E & _); discriminate.
  split.
  - intros H. exists f. split; [reflexivity|]. destruct (u_type (f_data f)) eqn:T.
    all: try (cbn [fst] in H; injection H as <-; repeat split; congruence).
    + exfalso. destruct (check_directory_supported f); cbn [fst] in H; try discriminate. exact (NP _ H).
    + exfalso. destruct (lookup_or_start X f needle k) as [[]]; cbn [fst map_err] in H; discriminate.
  - intros (f' & [= <-] & <- & N1 & N2). destruct (u_type (f_data f)); try congruence; reflexivity.
Qed.

(** C69: a visit refuses a block for its type: that is no file, and the error
    says that it is a directory exactly if [resolve] does not refuse the block
    for its type *)
Theorem C69_visit : forall X v b t, visit_start X v b = Err (UnexpectedType t) ->
  nt_is_file (node_type_of t) = false
  /\ (nt_is_directory (node_type_of t) = true <->
      forall needle k t', fst (resolve X b needle k) <> Err (RUnexpectedType t')).
Proof.
  intros X v b t H. apply start_type in H as (f & P & T & NF & NR).
  split; [destruct t; try congruence; reflexivity|]. split.
  - intros D needle k t' E. apply resolve_type in E as (f' & P' & T' & N1 & N2).
    rewrite P in P'. injection P' as <-. subst t'. rewrite T in *. destruct t; try congruence; discriminate D.
  - intros H. destruct t; try congruence; try reflexivity; exfalso; apply (H [] None (u_type (f_data f))); apply resolve_type;
      exists f; (split; [exact P|]); rewrite T; repeat split; congruence.
Qed.
Print Assumptions C69_visit.

(** C69: resolving refuses a block for its type: that is no directory, and when
    the error says that it is a file then visits do not refuse the block for its
    type *)
Theorem C69_resolve : forall X b needle k t, fst (resolve X b needle k) = Err (RUnexpectedType t) ->
  nt_is_directory (node_type_of t) = false
  /\ (nt_is_file (node_type_of t) = true -> forall v t', visit_start X v b <> Err (UnexpectedType t')).
Proof.
  intros X b needle k t H. apply resolve_type in H as (f & P & T & N1 & N2).
  split; [destruct t; try congruence; reflexivity|].
  intros D v t' E. apply start_type in E as (f' & P' & T' & NF & NR).
  rewrite P in P'. injection P' as <-. subst t'. rewrite T in *. destruct t; try congruence; discriminate D.
Qed.
Print Assumptions C69_resolve.

Lemma continue_type X v b k t : fst (continue_walk X v b k) = Err (UnexpectedType t) ->
  exists f, try_parse (ext_dbg X) b = Ok f /\ u_type (f_data f) = t /\ t <> File /\ t <> Raw.
Proof.
  unfold continue_walk. destruct (fv_pending v) as [|[c r] pending]; cbn [fst]; [discriminate|].
  unfold tr_continue_walk. destruct (check_is_suitable_next _ _ _); cbn [fst]; [discriminate|].
  unfold from_continued. destruct (try_parse (ext_dbg X) b) as [f|e| |] eqn:P; cbn [map_err bind fst]; try discriminate.
  2: destruct e; unfold read_failed_of; discriminate.
  destruct (u_mode (f_data f)), (u_mtime (f_data f)); cbn [fst]; try discriminate.
  destruct (from_parts X f (fst r) _) as [fr|e| |] eqn:E; try discriminate.
  - unfold fr_content. destruct (is_nil (fr_links fr)); cbn [fst].
    + destruct (maybe_target_slice X _ _ _) as [s|e| |] eqn:S; cbn [fst]; try discriminate; [destruct pending; discriminate|].
      intros [= ->]. exfalso. exact (slice_no_type _ _ _ _ _ S).
    + destruct (select_links X _ _ _ _) as [s|e| |] eqn:S; cbn [bind]; try discriminate.
      intros [= ->]. exfalso. exact (select_no_type _ _ _ _ _ _ S).
  - cbn [fst]. intros [= ->]. exists f. split; [reflexivity|]. apply (parts_type X f (fst r) _) in E. exact E.
Qed.

(** C69: a later block of a file is refused for its type only if it is no file *)
Theorem C69_continue : forall X v b k t, fst (continue_walk X v b k) = Err (UnexpectedType t) ->
  nt_is_file (node_type_of t) = false
  /\ (nt_is_directory (node_type_of t) = true <->
      forall needle k t', fst (resolve X b needle k) <> Err (RUnexpectedType t')).
Proof.
  intros X v b k t H. apply continue_type in H as (f & P & T & NF & NR).
  apply (C69_visit X None). apply start_type. exists f. auto.
Qed.
Print Assumptions C69_continue.

(** C69, the other direction fails: the error about a Raw block does not say that
    it is a file, although visits read it *)
Theorem C69_raw_refuted : forall X, exists b t, fst (resolve X b [x61] None) = Err (RUnexpectedType t)
  /\ nt_is_file (node_type_of t) = false
  /\ exists size md, visit_start X None b = Ok ([x61; x62], size, md, None).
Proof.
  intros X. exists (flat_write (leafm Raw [x61; x62])), Raw.
  assert (P : try_parse (ext_dbg X) (flat_write (leafm Raw [x61; x62])) = Ok (leafm Raw [x61; x62])).
  { destruct (ext_dbg X); vm_compute; reflexivity. }
  split; [|split; [reflexivity|]].
  - apply resolve_type. exists (leafm Raw [x61; x62]). split; [exact P|]. repeat split; discriminate.
  - unfold visit_start, from_block. rewrite P. cbn [map_err bind]. unfold from_parts.
    do 2 eexists. reflexivity.
Qed.
Print Assumptions C69_raw_refuted.

(** C69: the text of the error names the type by number and by name; the text for
    unknown types never appears (they have become Raw when the block was read, C45) *)
Theorem C69_text : forall t,
  fmt_node_type (node_type_of t) = decimal (node_type_of t) ++ lit " or " ++ fmt_type t
  /\ ftype_of (node_type_of t) = t /\ ftype_of_name (fmt_type t) = t
  /\ (forall t', fmt_node_type (node_type_of t') = fmt_node_type (node_type_of t) -> t' = t).
Proof.
  intros t. split; [destruct t; reflexivity|]. split; [destruct t; reflexivity|]. split; [destruct t; vm_compute; reflexivity|].
  intros t'. destruct t, t'; vm_compute; congruence.
Qed.
Print Assumptions C69_text.

(** the hypotheses are met: a directory given to a visit, a file given to resolve *)
Example C69_nonvacuous : forall X,
  visit_start X None (flat_write d_plain) = Err (UnexpectedType Directory)
  /\ nt_is_directory (node_type_of Directory) = true
  /\ fst (resolve X (flat_write (leafm File [x61])) [x61] None) = Err (RUnexpectedType File)
  /\ nt_is_file (node_type_of File) = true
  /\ fmt_node_type (node_type_of HAMTShard) = lit "5 or HAMTShard".
Proof.
  intros X. split; [apply start_type; exists d_plain; split; [destruct (ext_dbg X); vm_compute; reflexivity|repeat split; discriminate]|].
  split; [reflexivity|]. split; [|split; reflexivity].
  apply resolve_type. exists (leafm File [x61]). split; [destruct (ext_dbg X); vm_compute; reflexivity|repeat split; discriminate].
Qed.
