(** * PropertiesOutput: C73 and C74, the text get and resolve write to standard
    output (/repo/examples/get.rs, /repo/examples/resolve.rs) *)
From Coq Require Import Strings.String.
From Coq Require Import Init.Byte.
From Verif Require Import Base Tac Wire Utf8 Cid Pb Reader Visit Dir Builder Walk SpecText Text_proofs SpecFile SpecDir SpecWalk Walk_thms
  Programs AdderDebug SpecPrograms Programs_proofs PropertiesPrograms Examples_file Examples_dir Examples_walk Names_text_proofs Output SpecOutput Output_proofs.

(** ** C73: the lines of get *)

(** Paths are text, whatever the blocks are. *)
Theorem C73_paths : forall X root name bs asked items w, text name ->
  walks X anything (walker_new root name) bs asked items w -> forall it, In it items -> text (path_told it).
Proof.
  intros X root name bs asked items w T H. apply (new_text root) in T.
  enough (G : Forall itext items) by (intros it I; rewrite Forall_forall in G; specialize (G it I); destruct it; exact G).
  revert T. induction H as [|w c others b k k' it w1 bs asked items w2 _ _ _ _ N _ IH]; intros T; [constructor|].
  destruct (next_text X _ _ _ _ _ _ T N) as [T1 T2]. constructor; auto.
Qed.
Print Assumptions C73_paths.

Lemma loop_text X fs root : forall fuel w k printed r ls, wtext w -> Forall line_is_text printed ->
  get_loop X fuel fs root w k printed = (r, ls) -> Forall line_is_text ls.
Proof.
  induction fuel as [|fuel IH]; intros w k printed r ls T F E; cbn [get_loop] in E; (destruct (should_continue w); [|injection E as <- <-; exact F]);
    [injection E as <- <-; exact F|].
  match type of E with match ?m with Ok _ => _ | _ => _ end = _ => destruct m as [buf| | |]; try (injection E as <- <-; exact F) end.
  destruct (walk_next X w buf k) as [[r1 w1] k1] eqn:N. destruct r1 as [it| | |]; cbn [map_err bind] in E; try (injection E as <- <-; exact F).
  destruct (next_text X _ _ _ _ _ _ T N) as [T1 T2].
  assert (G : forall l, get_lines it = Ok l -> Forall line_is_text l).
  { intros l Q. destruct it as [c p|c p md|s c p md size|c p md|target c p md]; cbn [get_lines] in Q.
    - injection Q as <-. constructor.
    - injection Q as <-. repeat constructor. exact T2.
    - destruct (is_last s); injection Q as <-; repeat constructor. exact T2.
    - injection Q as <-. repeat constructor. exact T2.
    - destruct (utf8_valid target) eqn:V; [|discriminate Q]. injection Q as <-. repeat constructor; [exact T2|]. apply valid_text, V. }
  destruct (get_lines it) as [l| | |]; try (injection E as <- <-; exact F). apply (IH _ _ _ _ _ T1) in E; [exact E|]. apply Forall_app. split; [exact F|]. apply G. reflexivity.
Qed.
Lemma main_text X cid_of_str fuel fs arg var r ls : get_main X cid_of_str fuel fs arg var = (r, ls) -> Forall line_is_text ls.
Proof.
  unfold get_main, main. destruct arg as [a|]; [|intros [= <- <-]; constructor]. destruct (cid_of_str a) as [c|]; cbn [ok_or]; [|intros [= <- <-]; constructor].
  destruct var as [v|]; [|intros [= <- <-]; constructor]. destruct (get_walk X fuel fs (blocks_dir v) c) as [r0 ls0] eqn:E. intros [= <- <-].
  exact (loop_text X _ _ _ _ _ _ _ _ (new_text c [] text_nil) (Forall_nil _) E).
Qed.

(** Standard output is the text of the lines, whatever the disk contains.
    [plain] is about the characters that are not escaped: they are not control
    characters. *)
Theorem C73_text : forall X plain cid_of_str fuel fs arg var r ls,
  (forall c, plain c = true -> 32 <= c /\ c <> 127) ->
  get_main X cid_of_str fuel fs arg var = (r, ls) ->
  exists out, get_out X plain cid_of_str fuel fs arg var = (r, out) /\ output_text ls out.
Proof.
  intros X plain cid_of_str fuel fs arg var r ls P E. exists (println (map (line_out plain) ls)). split; [unfold get_out; rewrite E; reflexivity|].
  apply lines_ok; [exact P|]. exact (main_text _ _ _ _ _ _ _ _ E).
Qed.
Print Assumptions C73_text.
(** Nothing is lost: the lines can be told from the text. *)
Theorem C73_unambiguous : forall ls ls' out, output_text ls out -> output_text ls' out -> ls = ls'.
Proof. exact output_unique. Qed.
Print Assumptions C73_unambiguous.
(** Names cannot contain anything that looks like the end of a line or that
    controls a terminal. *)
Theorem C73_visible : forall ls out, output_text ls out ->
  exists ts, out = lines_text ts /\ length ts = length ls /\ Forall (Forall visible) ts.
Proof.
  intros ls out (ts & F & ->). exists ts. split; [reflexivity|]. split; [clear -F; induction F; cbn; congruence|].
  induction F as [|l t ls ts Q F IH]; constructor; [exact (line_visible l t Q)|exact IH].
Qed.
Print Assumptions C73_visible.
(** With C60: for a stored tree the text is the listing. *)
Theorem C73_listing : forall X plain cid_of_str ipfs dir get fs arg c n,
  (forall c, plain c = true -> 32 <= c /\ c <> 127) -> blocks_place ipfs dir -> cid_of_str arg = Some c ->
  stored X get c n -> walkable (sights true [] c n) -> text_targets (sights true [] c n) -> stocked fs dir get ->
  exists N out, output_text (listing [] n) out /\ forall fuel, (N <= fuel)%nat ->
    get_out X plain cid_of_str fuel fs (Some arg) (Some ipfs) = (Ok 0, out).
Proof.
  intros X plain cid_of_str ipfs dir get fs arg c n P B A S W T D.
  destruct (C60_get X cid_of_str ipfs dir get arg c n B A S W T) as [G _]. destruct (G fs D) as (N & H).
  exists N, (println (map (line_out plain) (listing [] n))). split.
  - apply lines_ok; [exact P|]. exact (main_text _ _ _ _ _ _ _ _ (H N (le_n _))).
  - intros fuel L. unfold get_out. rewrite (H fuel L). reflexivity.
Qed.
Print Assumptions C73_listing.

(** a directory whose name has a newline, a quote, a backslash and an umlaut,
    and a symlink *)
Definition ex_lines : list line :=
  [LineDir 493 (-5) (lit "a" ++ [x0a; x22; x5c; xc3; xa4]); LineFile 420 1700000000 17 (lit "b");
   LineLink 511 0 (lit "c") (lit "d e")].
Definition ex_plain (c : N) : bool := (32 <=? c) && negb (c =? 127) && negb (c =? 39).
Example C73_nonvacuous : (forall c, ex_plain c = true -> 32 <= c /\ c <> 127)
  /\ println (map (line_out ex_plain) ex_lines) =
    lit "d 755           -5                - " ++ [x22] ++ lit "a\n\" ++ [x22] ++ lit "\\" ++ [xc3; xa4; x22; x0a]
    ++ lit "f 644   1700000000               17 " ++ [x22] ++ lit "b" ++ [x22; x0a]
    ++ lit "s 777            0                - " ++ [x22] ++ lit "c" ++ [x22] ++ lit " -> " ++ [x22] ++ lit "d e" ++ [x22; x0a]
  /\ output_text ex_lines (println (map (line_out ex_plain) ex_lines)).
Proof.
  assert (P : forall c, ex_plain c = true -> 32 <= c /\ c <> 127).
  { intros c. unfold ex_plain. rewrite !andb_true_iff, !negb_true_iff, N.leb_le, !N.eqb_neq. tauto. }
  split; [exact P|]. split; [reflexivity|]. apply lines_ok; [exact P|].
  assert (V : forall l, utf8_valid l = true -> text l) by (intros l; apply valid_text). repeat constructor; apply V; reflexivity.
Qed.

(** ** C74: standard output of resolve *)

Lemma resolve_out_ok X fs root : forall segments fuel c k,
  fst (resolve_out X fuel fs root c segments k) = resolve_walk X fuel fs root c segments k
  /\ (exists rest, snd (resolve_out X fuel fs root c segments k) = out_cache k :: rest)
  /\ forall l, In l (snd (resolve_out X fuel fs root c segments k)) ->
       (exists b, l = OutCache b) \/ exists d s, In s segments /\ l = OutLucky d s.
Proof.
  induction segments as [|s segments IH]; intros fuel c k; cbn [resolve_out resolve_walk].
  - split; [reflexivity|]. split; [exists []; reflexivity|]. intros l [<-|[]]. left. eexists. reflexivity.
  - assert (One : forall l, In l [out_cache k] -> (exists b, l = OutCache b) \/ exists d s0, In s0 (s :: segments) /\ l = OutLucky d s0)
      by (intros l [<-|[]]; left; eexists; reflexivity).
    destruct (read_block fs root c) as [buf| | |]; cbn [bind fst snd]; try (split; [reflexivity|]; split; [exists []; reflexivity|exact One]).
    destruct (resolve X buf s k) as [r k1]. destruct r as [[d|v|]| | |]; cbn [fst snd]; try (split; [reflexivity|]; split; [exists []; reflexivity|exact One]).
    all: try (
      destruct (resolve_buckets X fuel fs root v k1) as [r2 k2]; destruct r2 as [[d|]| | |]; cbn [bind fst snd];
        try (split; [reflexivity|]; split; [exists []; reflexivity|exact One]);
        try (split; [reflexivity|]; split; [eexists; reflexivity|]; intros l [<-|[<-|[]]]; left; eexists; reflexivity);
        specialize (IH fuel d k2); destruct (resolve_out X fuel fs root d segments k2) as [r3 out]; cbn [fst snd] in *; destruct IH as (I1 & _ & I3);
        split; [exact I1|]; split; [eexists; reflexivity|]; intros l [<-|I]; [left; eexists; reflexivity|];
        destruct (I3 l I) as [?|(d' & s' & Hs & ->)]; [auto|right; exists d', s'; split; [right; exact Hs|reflexivity]]; fail).
    specialize (IH fuel d k1). destruct (resolve_out X fuel fs root d segments k1) as [r3 out]. cbn [fst snd] in *. destruct IH as (I1 & _ & I3).
    split; [exact I1|]. split; [eexists; reflexivity|]. intros l [<-|[<-|[<-|I]]]; [left; eexists; reflexivity| |left; eexists; reflexivity|].
    + right. exists d, s. split; [left; reflexivity|reflexivity].
    + destruct (I3 l I) as [?|(d' & s' & Hs & ->)]; [auto|right; exists d', s'; split; [right; exact Hs|reflexivity]].
Qed.

Lemma out_text_split plain cid_text : forall ls ls' caps, out_texts plain cid_text caps (ls ++ ls') =
  out_texts plain cid_text caps ls ++ out_texts plain cid_text (fun i => caps (length ls + i)%nat) ls'.
Proof. induction ls as [|l ls IH]; intros ls' caps; [reflexivity|]. cbn [app out_texts length]. rewrite IH. reflexivity. Qed.
Lemma out_text_cids plain cid_text : forall cs caps, out_texts plain cid_text caps (map OutCid cs) = map cid_text cs.
Proof. induction cs as [|c cs IH]; intros caps; [reflexivity|]. cbn [map out_texts out_text]. rewrite IH. reflexivity. Qed.
Lemma out_text_in plain cid_text : forall ls caps t, In t (out_texts plain cid_text caps ls) -> exists l cap, In l ls /\ t = out_text plain cid_text cap l.
Proof.
  induction ls as [|l ls IH]; intros caps t; [intros []|]. cbn [out_texts]. intros [<-|I]; [exists l, (caps O); split; [left|]; reflexivity|].
  apply IH in I as (l' & cap & I & ->). exists l', cap. split; [right; exact I|reflexivity].
Qed.

Lemma visible_lit s : forallb (fun x => (32 <=? b2n x) && negb (b2n x =? 127)) s = true -> Forall visible s.
Proof.
  intros H. apply Forall_forall. intros x I. rewrite forallb_forall in H. specialize (H x I).
  apply andb_true_iff in H as [H1 H2]. apply N.leb_le in H1. apply negb_true_iff, N.eqb_neq in H2. split; assumption.
Qed.
Lemma note_ok plain cid_text cap l : (forall c, plain c = true -> 32 <= c /\ c <> 127) -> (forall c, word (cid_text c)) ->
  (exists b, l = OutCache b) \/ (exists d s, text s /\ l = OutLucky d s) -> note (out_text plain cid_text cap l).
Proof.
  intros P W [([|] & ->)|(d & s & T & ->)]; cbn [out_text].
  - split; [|eexists; left; reflexivity]. apply Forall_app. split; [apply visible_lit; reflexivity|]. apply Forall_app. split; [|apply visible_lit; reflexivity].
    apply (numeral_visible 10 cap); [lia|]. apply numeral_ok. lia.
  - split; [apply visible_lit; reflexivity|exists (ascii "None"); left; reflexivity].
  - split; [|eexists; right; reflexivity]. apply Forall_app. split; [apply visible_lit; reflexivity|]. apply Forall_app. split; [apply W|].
    apply Forall_app. split; [apply visible_lit; reflexivity|]. apply (quoted_visible s). apply debug_ok; assumption.
Qed.

(** The exit code is that of C60; standard output consists of notes, followed by
    the Cid if one is printed. *)
Theorem C74_text : forall X plain cid_text caps cid_of_str fuel fs arg var r cs,
  (forall c, plain c = true -> 32 <= c /\ c <> 127) -> (forall c, word (cid_text c)) -> (forall a, arg = Some a -> text a) ->
  resolve_main X cid_of_str fuel fs arg var = (r, cs) ->
  exists notes, Forall note notes
    /\ resolve_stdout X plain cid_text caps cid_of_str fuel fs arg var = (r, lines_text (notes ++ map cid_text cs)).
Proof.
  intros X plain cid_text caps cid_of_str fuel fs arg var r cs P W A E. unfold resolve_stdout, resolve_out_main, resolve_main, main in *.
  destruct arg as [a|]; [|injection E as <- <-; exists []; split; [constructor|reflexivity]].
  destruct (path_try_from cid_of_str a) as [[c segments]| | |] eqn:Q; try (injection E as <- <-; exists []; split; [constructor|reflexivity]).
  destruct var as [v|]; [|injection E as <- <-; exists []; split; [constructor|reflexivity]].
  apply (path_text cid_of_str a c segments (A a eq_refl)) in Q.
  destruct (resolve_out_ok X fs (blocks_dir v) segments fuel c None) as (R1 & _ & R3). cbn [fst snd].
  destruct (resolve_out X fuel fs (blocks_dir v) c segments None) as [r0 out]. cbn [fst snd] in *. rewrite <- R1 in E.
  exists (out_texts plain cid_text caps out). split.
  - apply Forall_forall. intros t I. apply out_text_in in I as (l & cap & I & ->). apply note_ok; [exact P|exact W|].
    destruct (R3 l I) as [?|(d & s & Is & ->)]; [auto|]. right. exists d, s. split; [|reflexivity]. rewrite Forall_forall in Q. exact (Q s Is).
  - injection E as <- <-. f_equal. unfold println, lines_text. do 2 f_equal.
    rewrite out_text_split. f_equal. replace (match r0 with Ok (Some c0) => [OutCid c0] | _ => [] end) with (map OutCid (match r0 with Ok (Some c0) => [c0] | _ => [] end)).
    + apply out_text_cids.
    + destruct r0 as [[|]| | |]; reflexivity.
Qed.
Print Assumptions C74_text.

Lemma note_space t : note t -> In x20 t.
Proof. intros (_ & u & [->| ->]); apply in_or_app; left; cbn; intuition. Qed.
Lemma lines_unique ts : Forall (Forall visible) ts -> forall ts', Forall (Forall visible) ts' -> lines_text ts = lines_text ts' -> ts = ts'.
Proof.
  induction 1 as [|t ts V F IH]; intros ts' F' E; unfold lines_text in E; cbn [map concat] in E.
  - destruct F' as [|t' ts' V' F']; [reflexivity|]. cbn [map concat] in E. rewrite <- app_assoc in E. destruct t'; discriminate E.
  - rewrite <- app_assoc in E. destruct F' as [|t' ts' V' F']; [destruct t; discriminate E|]. cbn [map concat] in E. rewrite <- app_assoc in E. cbn [app] in E.
    apply newline_split in E as [<- E]; [|exact V|exact V']. f_equal. exact (IH ts' F' E).
Qed.
(** So the Cid can be told from standard output: it is the line without a
    space. *)
Theorem C74_tells : forall notes notes' cs cs', Forall note notes -> Forall note notes' -> Forall word cs -> Forall word cs' ->
  lines_text (notes ++ cs) = lines_text (notes' ++ cs') -> notes = notes' /\ cs = cs'.
Proof.
  intros notes notes' cs cs' F F' G G' E.
  assert (V : forall ts us, Forall note ts -> Forall word us -> Forall (Forall visible) (ts ++ us)).
  { intros ts us H1 H2. apply Forall_app. split; eapply Forall_impl; try eassumption; intros t [H _]; exact H. }
  apply lines_unique in E; [|apply V; assumption..]. clear V. revert notes' F' E.
  induction F as [|t ts N F IH]; intros notes' F' E.
  - destruct F' as [|t' ts' N' F']; [auto|]. cbn [app] in E. subst cs. inversion G as [|? ? [_ W] _]; subst. destruct (W (note_space _ N')).
  - destruct F' as [|t' ts' N' F']; cbn [app] in E.
    + subst cs'. inversion G' as [|? ? [_ W] _]; subst. destruct (W (note_space _ N)).
    + injection E as <- E. destruct (IH ts' F' E) as [<- <-]. auto.
Qed.
Print Assumptions C74_tells.

(** The usage text says that the final Cid is written to standard output. It is
    not all that is written there: there is always a note first. *)
Theorem C74_refuted : forall X plain cid_text caps cid_of_str fuel fs arg p var,
  path_try_from cid_of_str arg = Ok p ->
  exists r rest, resolve_stdout X plain cid_text caps cid_of_str fuel fs (Some arg) (Some var) = (r, ascii "cache None" ++ x0a :: rest).
Proof.
  intros X plain cid_text caps cid_of_str fuel fs arg [c segments] var Q. unfold resolve_stdout, resolve_out_main, main. rewrite Q. cbn [fst snd].
  destruct (resolve_out_ok X fs (blocks_dir var) segments fuel c None) as (_ & (rest & R2) & _).
  destruct (resolve_out X fuel fs (blocks_dir var) c segments None) as [r0 out]. cbn [fst snd] in *. subst out.
  eexists. eexists. cbn [app out_texts println out_text out_cache map concat]. rewrite <- app_assoc. reflexivity.
Qed.
Print Assumptions C74_refuted.
(** the Cid is printed after notes: the path "Q/s/d/x" in the tree of C58 *)
Example C74_nonvacuous : forall X cid_text caps cid_of_str, ext_ok X -> cid_of_str [x51] = Some (idc 10) -> (forall c, word (cid_text c)) ->
  exists fs fuel notes, Forall note notes /\ notes <> []
    /\ resolve_stdout X ex_plain cid_text caps cid_of_str fuel fs (Some [x51; x2f; x73; x2f; x64; x2f; x78]) (Some [x2f])
       = (Ok 0, lines_text (notes ++ [cid_text (idc 3)])).
Proof.
  intros X cid_text caps cid_of_str HX Q W. destruct (C58_nonvacuous X HX) as (fs & get & PL & St & S & U & L & _).
  destruct (C60_nonvacuous cid_of_str Q) as (P & _).
  destruct (C60_resolve X cid_of_str fs _ _ get _ _ _ _ _ _ PL P S U St L) as (N & H). specialize (H N (le_n _)). exists fs, N.
  assert (T : forall a, Some [x51; x2f; x73; x2f; x64; x2f; x78] = Some a -> text a) by (intros a [= <-]; apply valid_text; reflexivity).
  destruct (C74_text X ex_plain cid_text caps cid_of_str N fs _ _ _ _ (proj1 C73_nonvacuous) W T H) as (notes & F & E).
  exists notes. split; [exact F|]. split; [|exact E]. intros ->.
  destruct (C74_refuted X ex_plain cid_text caps cid_of_str N fs _ _ [x2f] P) as (r & rest & R). pose proof (eq_trans (eq_sym E) R) as R'. clear R. injection R' as _ R.
  unfold lines_text in R. cbn [app map concat] in R. rewrite app_nil_r in R. destruct (W (idc 3)) as [V Sp].
  assert (I : In x20 (cid_text (idc 3) ++ [x0a])) by (rewrite R; cbn; tauto). apply in_app_or in I as [I|[I|[]]]; [exact (Sp I)|discriminate I].
Qed.
