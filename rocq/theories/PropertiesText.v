(** * Property C64: the names of links are text (UTF-8).
    The specification is SpecText.v, the proofs are in Text_proofs.v. *)
From Verif Require Import Base Tac Wire Utf8 Cid Pb SpecWire Codec_proofs Parsed Dir SpecDir SpecText Text_proofs.

(** the check made by the parser (and by the programs, for paths and targets)
    accepts exactly text *)
Theorem C64_valid : forall l, utf8_valid l = true <-> text l.
Proof. exact valid_text. Qed.
Print Assumptions C64_valid.

(** which stands for one sequence of characters only *)
Theorem C64_unique : forall cs cs', Forall scalar cs -> Forall scalar cs' -> encode_text cs = encode_text cs' -> cs = cs'.
Proof. exact text_unique. Qed.
Print Assumptions C64_unique.

(** slicing a string at a position panics exactly when this is not between two of
    its characters *)
Theorem C64_slicing : forall E s i, text s ->
  (between_chars s i -> @str_from E s i = Ok (skipn i s) /\ @str_to E s i = Ok (firstn i s))
  /\ (~ between_chars s i -> @str_from E s i = Panic /\ @str_to E s i = Panic).
Proof.
  intros E s i T. pose proof (boundary_text s i T) as B. unfold str_from, str_to.
  destruct (is_char_boundary s i); split; intros H; auto; exfalso.
  - apply H, B. reflexivity.
  - apply B in H. discriminate.
Qed.
Print Assumptions C64_slicing.

(** in particular the names of shard links, which are sliced after two bytes *)
Theorem C64_splits : forall l, text (name_of l) -> (2 <= blen (name_of l)) ->
  (splits_char l <-> ~ between_chars (name_of l) 2).
Proof.
  intros l T L. rewrite <- (boundary_text (name_of l) 2 T). unfold splits_char.
  destruct (name_of l) as [|a [|b [|x rest]]]; [cbn in L; lia|cbn in L; lia| |].
  - cbn. split; [intros (? & ? & ? & ? & [=] & _)|]. intros H. destruct (H eq_refl).
  - cbn. split.
    + intros (? & ? & ? & ? & [= <- <- <- <-] & R). unfold cont. rewrite (proj2 (inr_true _ _ _) R). discriminate.
    + intros H. exists a, b, x, rest. split; [reflexivity|]. unfold cont in H. destruct (Utf8.inr 128 191 (b2n x)) eqn:Q; [apply inr_true, Q|destruct (H eq_refl)].
Qed.
Print Assumptions C64_splits.

(** The names of the links of any parsed block are text; and a written block is
    parsed back exactly if they are. *)
Theorem C64_names : forall dbg block m, try_parse dbg block = Ok m ->
  forall l name, In l (f_links m) -> l_name l = Some name -> text name.
Proof.
  intros dbg block m H l name I E. apply try_parse_parsed in H as [H _]. rewrite Forall_forall in H.
  destruct (H l I) as [H1 _]. rewrite E in H1. apply valid_text, H1.
Qed.
Print Assumptions C64_names.
Theorem C64_written : forall dbg m,
  (forall l n, In l (f_links m) -> l_tsize l = Some n -> n < two64) -> unixfs_fits (f_data m) -> blen (flat_write m) < two32 ->
  (try_parse dbg (flat_write m) = Ok m <-> forall l name, In l (f_links m) -> l_name l = Some name -> text name).
Proof.
  intros dbg m HT HU L. split; [intros H; apply (C64_names dbg _ m H)|]. intros H. apply round_trip; [|exact HU|exact L].
  apply Forall_forall. intros l I. split.
  - destruct (l_name l) as [n|] eqn:E; [apply valid_text, (H l n I E)|exact Logic.I].
  - destruct (l_tsize l) as [n|] eqn:E; [apply (HT l n I E)|exact Logic.I].
Qed.
Print Assumptions C64_written.

(** "aé€😀" is text of one to four bytes per character; the boundaries are after
    0, 1, 3, 6 and 10 bytes *)
Definition ex_chars : list N := [0x61; 0xe9; 0x20ac; 0x1f600].
Definition ex_text : bytes := [x61; xc3; xa9; xe2; x82; xac; xf0; x9f; x98; x80].
Example C64_nonvacuous : Forall scalar ex_chars /\ encode_text ex_chars = ex_text
  /\ between_chars ex_text 3 /\ ~ between_chars ex_text 2
  /\ ~ text [xc0; x80] /\ ~ text [xed; xa0; x80] /\ ~ text [xf4; x90; x80; x80].
Proof.
  assert (S : Forall scalar ex_chars) by (repeat constructor; unfold scalar; lia).
  assert (E : encode_text ex_chars = ex_text) by reflexivity. assert (T : text ex_text) by (exists ex_chars; auto).
  split; [exact S|]. split; [exact E|]. split; [apply boundary_text; [exact T|reflexivity]|].
  split; [intros B; apply (boundary_text _ _ T) in B; discriminate|].
  repeat split; intros Q; apply valid_text in Q; discriminate.
Qed.
(** a block with such a name *)
Example C64_written_nonvacuous : exists m, (forall l n, In l (f_links m) -> l_tsize l = Some n -> n < two64) /\ unixfs_fits (f_data m) /\ blen (flat_write m) < two32
  /\ exists l, In l (f_links m) /\ l_name l = Some ex_text.
Proof.
  exists (Flat [PBLink None (Some ex_text) (Some 3)] (UnixFs Directory None None [] None None None None)).
  split; [intros l n [<-|[]] [= <-]; reflexivity|]. split; [repeat split; try exact Logic.I; constructor|]. split; [vm_compute; reflexivity|].
  eexists. split; [left; reflexivity|reflexivity].
Qed.
