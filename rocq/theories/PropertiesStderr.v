(** * PropertiesStderr: C77, what cat, get and resolve write to standard error *)
From Coq Require Import Strings.String.
From Coq Require Import Init.Byte.
From Verif Require Import Base Tac Wire Utf8 Cid Pb Parsed Reader Visit Dir Dir_proofs Builder Walk SpecAdder SpecFile SpecDir SpecWalk Examples_file Examples_dir Examples_walk.
From Verif Require SpecFileSteps SpecWalkSteps SpecLookupSteps Lookup_exact Steps_proofs.
From Verif Require Import Programs SpecPrograms Store_proofs PropertiesPrograms SpecRuns Runs_proofs PropertiesRuns.
From Verif Require Import Errors AdderDebug Output SpecText Text_proofs SpecOutput Output_proofs Names_text_proofs SpecMessages Messages Messages_proofs PropertiesMessages.
From Verif Require Import Stderr SpecStderr Stderr_proofs.

(** ** The lines at the end *)

(** With the result of a run (C70) the lines on standard error are known. *)
Theorem C77_cat : forall X H ipfs dir fs cid_of_str arg c res out, blocks_place ipfs dir ->
  cid_of_str arg = Some c -> cat_run X fs dir c res out ->
  exists N, forall fuel, (N <= fuel)%nat ->
  cat_says (h_io H) (read_failed_text (h_foreign H)) res (cat_err X H cid_of_str fuel fs (Some arg) (Some ipfs)).
Proof.
  intros X H ipfs dir fs f arg c res out PL A R. pose proof (proj1 (C54_dir _ _) PL) as PD.
  destruct (C70_cat X ipfs dir fs c PL) as (C & _). destruct (C _ _ R) as (ND & N & E). exists N. intros fuel L.
  unfold cat_err, main_err, ok_or. rewrite A, <- PD, (E fuel L). cbn [fst app].
  destruct res as [[read content]|[e|e|e]| |]; cbn [cat_says failure]; try reflexivity; [|congruence].
  exists (numeral 10 read), (numeral 10 content). split; [apply numeral_ok; lia|]. split; [apply numeral_ok; lia|]. reflexivity.
Qed.
Print Assumptions C77_cat.
Theorem C77_get : forall X H ipfs dir fs cid_of_str arg c res lines, ext_dbg X = true -> blocks_place ipfs dir ->
  cid_of_str arg = Some c -> get_on X fs dir (SpecWalkSteps.beginning c []) res lines ->
  exists N, forall fuel, (N <= fuel)%nat ->
  get_says (h_io H) (walk_error_text (h_foreign H)) res (get_err X H cid_of_str fuel fs (Some arg) (Some ipfs)).
Proof.
  intros X H ipfs dir fs f arg c res out D PL A R. pose proof (proj1 (C54_dir _ _) PL) as PD.
  destruct (C70_get X ipfs dir fs c D PL) as (C & _). destruct (C _ _ R) as (ND & N & E). exists N. intros fuel L.
  unfold get_err, main_err, ok_or. rewrite A, <- PD, (E fuel L). cbn [fst app].
  destruct res as [u|[e|e|e]| |]; cbn [get_says failure]; try reflexivity. congruence.
Qed.
Print Assumptions C77_get.
(** resolve first tells what it reads *)
Theorem C77_resolve : forall X H ipfs dir fs cid_of_str arg c path res ns, blocks_place ipfs dir ->
  path_try_from cid_of_str arg = Ok (c, path) -> path_on X fs dir c path res -> told X fs dir c path ns ->
  exists N, forall fuel, (N <= fuel)%nat ->
  exists lines, resolve_says (h_io H) (resolve_error_debug H) res lines
  /\ resolve_err X H cid_of_str fuel fs (Some arg) (Some ipfs) = map (notice_text H) ns ++ lines.
Proof.
  intros X H ipfs dir fs f arg c path res ns PL A R T. pose proof (proj1 (C54_dir _ _) PL) as PD. pose proof (place_good _ _ PL) as Gd.
  destruct (C70_resolve X ipfs dir fs c path PL) as (C & _). destruct (C _ R) as (ND & N & E).
  destruct (told_complete X fs dir Gd c path ns T) as (M & Q). exists (Nat.max N M). intros fuel L.
  unfold resolve_err, main_err. rewrite A. cbn [fst snd]. rewrite <- PD, (E fuel ltac:(lia)). destruct (Q fuel ltac:(lia) None (or_introl eq_refl)) as [-> _].
  eexists. split; [|reflexivity]. destruct res as [[d|]|[e|e|e]| |]; cbn [resolve_says failure]; try reflexivity. congruence.
Qed.
Print Assumptions C77_resolve.
(** what it tells is determined by the path and the disk; a run that ends tells it *)
Theorem C77_told : forall X ipfs dir fs c path, blocks_place ipfs dir ->
  (forall ns, told X fs dir c path ns -> exists N, forall fuel, (N <= fuel)%nat ->
     resolve_notes X fuel fs dir c path None = ns /\ resolve_walk X fuel fs dir c path None <> Diverge)
  /\ (forall ns ns', told X fs dir c path ns -> told X fs dir c path ns' -> ns' = ns)
  /\ (forall fuel, resolve_walk X fuel fs dir c path None <> Diverge -> told X fs dir c path (resolve_notes X fuel fs dir c path None))
  /\ (forall res, path_on X fs dir c path res -> exists ns, told X fs dir c path ns)
  /\ (forall ns, told X fs dir c path ns -> exists res, path_on X fs dir c path res).
Proof.
  intros X ipfs dir fs c path PL. pose proof (place_good _ _ PL) as Gd.
  assert (C : forall ns, told X fs dir c path ns -> exists N, forall fuel, (N <= fuel)%nat ->
     resolve_notes X fuel fs dir c path None = ns /\ resolve_walk X fuel fs dir c path None <> Diverge).
  { intros ns T. destruct (told_complete X fs dir Gd c path ns T) as (N & Q). exists N. intros fuel L. exact (Q fuel L None (or_introl eq_refl)). }
  split; [exact C|]. split; [|split; [|split]].
  - intros ns ns' T T'. destruct (C _ T) as (N & E). destruct (C _ T') as (N' & E').
    destruct (E (Nat.max N N') ltac:(lia)) as [<- _]. destruct (E' (Nat.max N N') ltac:(lia)) as [<- _]. reflexivity.
  - intros fuel. exact (told_sound X fs dir Gd fuel path c None (or_introl eq_refl)).
  - intros res R. destruct (C70_resolve X ipfs dir fs c path PL) as (Q & _). destruct (Q _ R) as (ND & N & E). eexists.
    apply (told_sound X fs dir Gd N path c None (or_introl eq_refl)). rewrite (E N (le_n N)). exact ND.
  - intros ns T. destruct (C _ T) as (N & E). destruct (E N (le_n N)) as [_ ND]. eexists.
    apply (path_sound X fs dir Gd N path c None (or_introl eq_refl)). exact ND.
Qed.
Print Assumptions C77_told.
(** the text of a line about reading *)
Theorem C77_notices : forall H, foreign_visible (h_foreign H) -> forall n,
  (match n with Reading _ s | Walking _ s | Searching _ s => text s | Resolved _ _ _ _ => True end) -> notice_line (h_cid H) n (notice_text H n).
Proof.
  intros H V [c s|c s|c s|s from n to] T; cbn [notice_line notice_text].
  1-3: exists (debug_str (t_plain (h_foreign H)) s); (split; [apply debug_ok; [exact (fv_plain _ V)|exact T]|reflexivity]).
  exists (numeral 10 (N.of_nat n)). split; [apply numeral_ok; lia|reflexivity].
Qed.
Print Assumptions C77_notices.

(** Each block that resolve reads is announced before: with another disk that has
    the same files for the blocks announced, the result and all lines are the
    same. *)
Theorem C77_reads : forall X H ipfs dir fs fs' cid_of_str arg c path fuel, blocks_place ipfs dir ->
  path_try_from cid_of_str arg = Ok (c, path) ->
  (forall d what, In d (flat_map announces (resolve_notes X fuel fs dir c path None)) -> on_disk fs dir d what -> on_disk fs' dir d what) ->
  resolve_main X cid_of_str fuel fs' (Some arg) (Some ipfs) = resolve_main X cid_of_str fuel fs (Some arg) (Some ipfs)
  /\ resolve_err X H cid_of_str fuel fs' (Some arg) (Some ipfs) = resolve_err X H cid_of_str fuel fs (Some arg) (Some ipfs).
Proof.
  intros X H ipfs dir fs fs' f arg c path fuel PL A S. pose proof (proj1 (C54_dir _ _) PL) as PD. pose proof (place_good _ _ PL) as Gd.
  destruct (resolve_same X fs fs' dir Gd fuel path c None) as [E1 E2]; [apply Forall_forall; intros d I w; apply S, I|].
  unfold resolve_main, resolve_err, main, main_err. rewrite A. cbn [fst snd]. rewrite <- PD, E1, E2. split; reflexivity.
Qed.
Print Assumptions C77_reads.

(** ** Before reading anything *)
Theorem C77_start : forall X H cid_of_str fuel fs,
  (forall var, cat_err X H cid_of_str fuel fs None var
     = [ascii "USAGE: " ++ h_arg0 H ++ ascii " CID"; [];
        ascii "Will walk the unixfs file pointed out by the CID from default go-ipfs 0.5 configuration flatfs blockstore and write all content to stdout."]
   /\ get_err X H cid_of_str fuel fs None var
     = [ascii "USAGE: " ++ h_arg0 H ++ ascii " CID"; [];
        ascii "Will walk the unixfs file pointed out by the CID from default go-ipfs 0.5 configuration flatfs blockstore and write listing to stdout."]
   /\ resolve_err X H cid_of_str fuel fs None var
     = [ascii "USAGE: " ++ h_arg0 H ++ ascii " IPFSPATH"; [];
        ascii "Will resolve the given IPFSPATH to a CID through any UnixFS directories or HAMT shards from default go-ipfs 0.5 configuration flatfs blockstore and write the final CID into stdout"])
  /\ (forall arg var, cid_of_str arg = None ->
      cat_err X H cid_of_str fuel fs (Some arg) var = [ascii "Invalid cid given as argument: " ++ h_bad_cid H arg]
      /\ get_err X H cid_of_str fuel fs (Some arg) var = [ascii "Invalid cid given as argument: " ++ h_bad_cid H arg])
  /\ (forall arg var, path_try_from cid_of_str arg = Err InvalidPath ->
      resolve_err X H cid_of_str fuel fs (Some arg) var = [ascii "Invalid path given as argument: invalid path"])
  /\ (forall arg c, cid_of_str arg = Some c ->
      cat_err X H cid_of_str fuel fs (Some arg) None = [ascii "IPFS_PATH is not set or could not be read: " ++ h_var H]
      /\ get_err X H cid_of_str fuel fs (Some arg) None = [ascii "IPFS_PATH is not set or could not be read: " ++ h_var H])
  /\ (forall arg p, path_try_from cid_of_str arg = Ok p ->
      resolve_err X H cid_of_str fuel fs (Some arg) None = [ascii "IPFS_PATH is not set or could not be read: " ++ h_var H]).
Proof.
  intros X H f fuel fs. unfold cat_err, get_err, resolve_err, main_err, ok_or. split; [|split; [|split; [|split]]].
  - intros var. split; [|split]; reflexivity.
  - intros arg var A. rewrite A. split; reflexivity.
  - intros arg var A. rewrite A. reflexivity.
  - intros arg c A. rewrite A. split; reflexivity.
  - intros arg p A. rewrite A. reflexivity.
Qed.
Print Assumptions C77_start.

(** A program that fails says why; without an error, get says nothing, and resolve
    says at the end that there is no such entry just if it prints no Cid. *)
Theorem C77_exit : forall X H cid_of_str fuel fs,
  (forall arg var out, cat_main X cid_of_str fuel fs arg var = (Ok 1, out) -> cat_err X H cid_of_str fuel fs arg var <> [])
  /\ (forall arg var lines, get_main X cid_of_str fuel fs arg var = (Ok 1, lines) -> get_err X H cid_of_str fuel fs arg var <> [])
  /\ (forall arg var lines, get_main X cid_of_str fuel fs (Some arg) var = (Ok 0, lines) -> get_err X H cid_of_str fuel fs (Some arg) var = [])
  /\ (forall arg var cids, resolve_main X cid_of_str fuel fs arg var = (Ok 1, cids) -> cids = [] /\ resolve_err X H cid_of_str fuel fs arg var <> [])
  /\ (forall arg var cids, resolve_main X cid_of_str fuel fs (Some arg) var = (Ok 0, cids) ->
      exists ns, resolve_err X H cid_of_str fuel fs (Some arg) var = map (notice_text H) ns ++ (match cids with [] => [ascii "not found"] | _ => [] end)).
Proof.
  intros X H f fuel fs. unfold cat_main, get_main, resolve_main, cat_err, get_err, resolve_err, main, main_err, ok_or.
  assert (Fa : forall T (w : wording T) e, failure H w e <> []) by (intros T w [e|e|e]; discriminate).
  split; [|split; [|split; [|split]]].
  - intros [arg|] var out; [|discriminate]. destruct (f arg); [|discriminate]. destruct var as [p|]; [|discriminate].
    destruct (cat_walk X fuel fs (blocks_dir p) c) as [[[r n]|e| |] o]; cbn [fst app]; try discriminate. intros _. apply Fa.
  - intros [arg|] var out; [|discriminate]. destruct (f arg); [|discriminate]. destruct var as [p|]; [|discriminate].
    destruct (get_walk X fuel fs (blocks_dir p) c) as [[r|e| |] o]; cbn [fst app]; try discriminate. intros _. apply Fa.
  - intros arg var out. destruct (f arg); [|discriminate]. destruct var as [p|]; [|discriminate].
    destruct (get_walk X fuel fs (blocks_dir p) c) as [[r|e| |] o]; cbn [fst app]; try discriminate. intros _. reflexivity.
  - intros [arg|] var out; [|discriminate]. destruct (path_try_from f arg) as [[c path]|e| |]; try discriminate; [|intros E; injection E as <-; split; [reflexivity|discriminate]].
    destruct var as [p|]; [|intros E; injection E as <-; split; [reflexivity|discriminate]]. cbn [fst snd].
    destruct (resolve_walk X fuel fs (blocks_dir p) c path None) as [[d|]|e| |]; try discriminate. intros E. injection E as <-. split; [reflexivity|].
    intros E. apply app_eq_nil in E as [_ E]. exact (Fa _ _ _ E).
  - intros arg var out. destruct (path_try_from f arg) as [[c path]|e| |]; try discriminate. destruct var as [p|]; [|discriminate]. cbn [fst snd].
    destruct (resolve_walk X fuel fs (blocks_dir p) c path None) as [[d|]|e| |]; try discriminate; intros E; injection E as <-; eexists; reflexivity.
Qed.
Print Assumptions C77_exit.

(** ** The counts of cat *)

(** The content bytes it reports are as many as it wrote, up to overflow of the
    counter, which panics if overflow is checked. *)
Lemma plus_mod X a b s : SpecFileSteps.plus X a b = Some s -> (ext_dbg X = true -> s = a + b) /\ s mod two64 = (a + b) mod two64 /\ s < two64.
Proof.
  intros P. pose proof (@plus_add64 X Empty_set a b) as Q. rewrite P in Q. unfold add64 in Q. destruct (a + b <? two64) eqn:L.
  - injection Q as <-. apply N.ltb_lt in L. auto.
  - destruct (ext_dbg X); [discriminate Q|]. injection Q as <-. split; [discriminate|]. split; [apply N.mod_mod; discriminate|apply N.mod_lt; discriminate].
Qed.
Lemma cat_on_count X fs dir links prev read content res more : cat_on X fs dir links prev read content res more ->
  forall r n, res = Ok (r, n) -> content < two64 -> (ext_dbg X = true -> n = content + blen more) /\ n = (content + blen more) mod two64.
Proof.
  induction 1 as [| | | | | |c r rest prev read content b read' out links prev' content' res more O P1 NS P2 H IH]; intros r0 n0 E L; try discriminate E.
  - injection E as <- <-. cbn. rewrite N.add_0_r. split; [reflexivity|]. symmetry. apply N.mod_small, L.
  - destruct (plus_mod _ _ _ _ P2) as (D & M & L'). destruct (IH _ _ E L') as [I1 I2]. rewrite blen_app. split.
    + intros D'. rewrite (I1 D'), (D D'). lia.
    + rewrite I2. rewrite N.add_assoc. rewrite <- (N.add_mod_idemp_l content'), M, N.add_mod_idemp_l by discriminate. reflexivity.
Qed.
Theorem C77_cat_content : forall X fs dir c read content out, cat_run X fs dir c (Ok (read, content)) out ->
  (ext_dbg X = true -> content = blen out) /\ content = blen out mod two64.
Proof.
  intros X fs dir c read content out R. inversion R as [| | | | |b r0 out0 links prev c0 res more O P1 FS P2 H E1 E2]; subst.
  destruct (plus_mod _ _ _ _ P2) as (D & M & L). destruct (cat_on_count _ _ _ _ _ _ _ _ _ H _ _ eq_refl L) as [I1 I2]. rewrite blen_app. split.
  - intros D'. rewrite (I1 D'), (D D'). lia.
  - rewrite I2. rewrite <- (N.add_mod_idemp_l c0), M, N.add_mod_idemp_l by discriminate. reflexivity.
Qed.
Print Assumptions C77_cat_content.
(** of a stored file *)
Theorem C77_cat_stored : forall X H ipfs dir fs get cid_of_str arg c md content, blocks_place ipfs dir -> cid_of_str arg = Some c ->
  stored X get c (FsFile md content) -> stocked fs dir get ->
  exists blocks, blocks_below X get [c] blocks
  /\ (all_bytes (map snd blocks) < two64 -> forall fuel, (length blocks <= fuel)%nat ->
      exists r t, numeral_of 10 (all_bytes (map snd blocks)) r /\ numeral_of 10 (blen content) t
      /\ cat_err X H cid_of_str fuel fs (Some arg) (Some ipfs) = [ascii "Content bytes: " ++ t; ascii "Total bytes:   " ++ r]).
Proof.
  intros X H ipfs dir fs get f arg c md content PL A St Sk. pose proof (proj1 (C54_dir _ _) PL) as PD.
  destruct (C55_cat X ipfs dir fs get c md content PL St Sk) as (blocks & B & E). exists blocks. split; [exact B|]. intros L fuel Lf.
  eexists _, _. split; [apply numeral_ok; lia|]. split; [apply numeral_ok; lia|].
  unfold cat_err, main_err, ok_or. rewrite A, <- PD, (E L fuel Lf). reflexivity.
Qed.
Print Assumptions C77_cat_stored.

(** ** Control characters *)

(** what the system and other crates print has none *)
Record host_visible (H : host) : Prop := {
  hv_foreign : foreign_visible (h_foreign H);
  hv_arg0 : Forall visible (h_arg0 H);
  hv_io : forall e, Forall visible (h_io H e);
  hv_var : Forall visible (h_var H);
  hv_bad_cid : forall a, Forall visible (h_bad_cid H a);
  hv_cid : forall c, Forall visible (h_cid H c);
  hv_protobuf_debug : forall e, Forall visible (h_protobuf_debug H e)
}.

#[local] Opaque debug_str list_debug opt_debug some_debug multiple_debug invalid_cid_debug read_failed_text walk_error_text numeral type_text.
Section visible.
Context (H : host) (V : host_visible H).
Let F := h_foreign H.
Let VF : foreign_visible F := hv_foreign H V.
Let str_ok s : text s -> Forall visible (debug_str (t_plain F) s).
Proof. intros T. apply (quoted_visible s). apply debug_ok; [exact (fv_plain F VF)|exact T]. Qed.
Let nums l : Forall visible (list_debug (map (numeral 10) l)).
Proof. apply visible_list, Forall_map, Forall_forall. intros x _. apply visible_num. Qed.
Ltac vis := repeat (apply Forall_app; split); try (apply visible_str; reflexivity); try exact (visible_opt _); try exact (visible_num _);
  try apply visible_type; try apply nums; try apply (hv_arg0 H V); try apply (hv_io H V); try apply (hv_var H V); try apply (hv_bad_cid H V); try apply (hv_cid H V);
  try apply (hv_protobuf_debug H V); try (apply str_ok; assumption).
Lemma visible_dir_props p : Forall visible (dir_props_debug p).
Proof.
  unfold dir_props_debug. vis. apply visible_some. destruct (dp_data p) as [d|]; cbn [option_map]; [|exact Logic.I].
  apply visible_list, Forall_map, Forall_forall. intros x _. apply visible_num.
Qed.
Lemma visible_shard_debug e : Forall visible (shard_error_debug e).
Proof. destruct e; cbn [shard_error_debug]; vis. Qed.
Lemma visible_multiple m : lk_text (LMultiple m) -> Forall visible (multiple_debug F m).
Proof.
  intros T. pose proof (visible_lk F VF (LMultiple m) T) as Q. cbn [lookup_error_text] in Q. apply Forall_app in Q. apply Q.
Qed.
#[local] Opaque dir_props_debug shard_error_debug.
Lemma visible_lookup_debug e : lk_text e -> Forall visible (lookup_error_debug H e).
Proof.
  destruct e as [m|e|t|e|e]; cbn [lookup_error_debug]; intros T; vis.
  - apply visible_multiple, T.
  - exact (visible_icd F VF e T).
  - apply visible_shard_debug.
  - apply visible_some. destruct e; cbn [option_map]; [apply (hv_protobuf_debug H V)|exact Logic.I].
Qed.
#[local] Opaque lookup_error_debug.
Lemma visible_resolve_debug e : rs_text e -> Forall visible (resolve_error_debug H e).
Proof.
  destruct e as [t|p|e|e]; cbn [resolve_error_debug]; intros T; vis; [apply visible_dir_props|apply visible_lookup_debug, T].
Qed.
#[local] Opaque resolve_error_debug.
Lemma visible_failure {T} (w : wording T) e : Forall visible (wo_opening _ w) -> Forall visible (wo_other _ w) ->
  (forall e', e = Traversal_ e' -> Forall visible (wo_traversal _ w e')) -> Forall (Forall visible) (failure H w e).
Proof.
  intros W1 W2 W3. destruct e as [e|e|e]; cbn [failure error_text].
  - repeat (apply Forall_cons; [first [apply (hv_io H V)|apply visible_str; reflexivity]|]). apply Forall_nil.
  - apply Forall_cons; [|apply Forall_nil]. vis. exact W2.
  - apply Forall_cons; [|apply Forall_nil]. vis. exact (W3 e eq_refl).
Qed.
Lemma visible_main {E A B T} what purpose invalid path_error (parse : bytes -> outcome E A) (walk : bytes -> A -> outcome (program_error T) B * list bytes) ok w arg var :
  Forall visible what -> Forall visible purpose -> Forall visible invalid -> (forall a e, arg = Some a -> parse a = Err e -> Forall visible (path_error a e)) ->
  (forall a v p, arg = Some a -> parse a = Ok v -> Forall (Forall visible) (snd (walk (blocks_dir p) v))) ->
  (forall b, Forall (Forall visible) (ok b)) -> Forall visible (wo_opening _ w) -> Forall visible (wo_other _ w) ->
  (forall a v p e, arg = Some a -> parse a = Ok v -> fst (walk (blocks_dir p) v) = Err (Traversal_ e) -> Forall visible (wo_traversal _ w e)) ->
  Forall (Forall visible) (main_err H what purpose invalid path_error parse walk ok w arg var).
Proof.
  intros V1 V2 V3 V4 V5 V6 V7 V8 V9. unfold main_err. destruct arg as [a|].
  2:{ unfold usage. apply Forall_cons; [vis; exact V1|]. apply Forall_cons; [apply Forall_nil|]. apply Forall_cons; [exact V2|apply Forall_nil]. }
  destruct (parse a) as [v|e| |] eqn:P; try apply Forall_nil.
  - destruct var as [p|]; [|apply Forall_cons; [vis|apply Forall_nil]]. specialize (V5 a v p eq_refl P). specialize (fun e => V9 a v p e eq_refl P).
    destruct (walk (blocks_dir p) v) as [r lines]. cbn [fst snd] in *. apply Forall_app. split; [exact V5|].
    destruct r as [b|e| |]; try apply Forall_nil; [apply V6|]. apply visible_failure; [exact V7|exact V8|]. intros e' ->. exact (V9 e' eq_refl).
  - apply Forall_cons; [|apply Forall_nil]. vis; [exact V3|exact (V4 a e eq_refl P)].
Qed.
End visible.

(** errors of the walks, as far as their messages are concerned *)
Lemma read_block_no {T} fs dir c (e : T) : read_block fs dir c = Err (Traversal_ e) -> False.
Proof.
  intros B. unfold read_block in B. destruct (as_path dir (cid_bytes c)) as [q|x| |] eqn:Q; cbn [bind] in B; try discriminate B.
  - destruct (fs q); discriminate B.
  - unfold as_path in Q. destruct (_ <=? _)%nat; cbn [assert bind] in Q; [|discriminate Q]. destruct (_ =? _)%nat; discriminate Q.
Qed.
Lemma add_no {E} d a b (e : E) : add64 d a b = Err e -> False.
Proof. unfold add64. destruct (_ <? _); [discriminate|]. destruct d; discriminate. Qed.
Lemma cat_loop_text X fs dir : forall fuel step w r n e, fst (cat_loop X fuel fs dir step w r n) = Err (Traversal_ e) -> rf_text e.
Proof.
  induction fuel as [|fuel IH]; intros [v|] w r n e; cbn [cat_loop]; try discriminate.
  destruct (pending_links v) as [[p o]|x| |] eqn:P; cbn [map_err bind]; try discriminate.
  2:{ unfold pending_links in P. destruct (fv_pending v) as [|[? ?] ?]; discriminate P. }
  cbn [fst]. destruct (@read_block read_failed fs dir p) as [buf|x| |] eqn:B; cbn [bind]; try discriminate.
  2:{ cbn [fst]. intros E. injection E as ->.  destruct (read_block_no _ _ _ _ B). }
  destruct (add64 (ext_dbg X) r (blen buf)) as [r'|x| |] eqn:A; cbn [bind]; try discriminate.
  2: destruct (add_no _ _ _ _ A).
  destruct (continue_walk X v buf None) as [res k] eqn:C. cbn [fst]. destruct res as [[out next]|x| |]; cbn [map_err bind]; try discriminate.
  - destruct (add64 (ext_dbg X) n (blen out)) as [n'|x| |] eqn:A'; try discriminate; [apply IH|].
    destruct (add_no _ _ _ _ A').
  - cbn [fst]. intros E. injection E as <-. exact (continue_text X _ _ _ _ _ C).
Qed.
Lemma cat_walk_text X fuel fs dir c e : fst (cat_walk X fuel fs dir c) = Err (Traversal_ e) -> rf_text e.
Proof.
  unfold cat_walk. destruct (@read_block read_failed fs dir c) as [buf|x| |] eqn:B; cbn [bind]; try discriminate.
  2:{ cbn [fst]. intros E. injection E as ->. destruct (read_block_no _ _ _ _ B). }
  destruct (add64 (ext_dbg X) 0 (blen buf)) as [r|x| |] eqn:A; cbn [bind]; try discriminate; [|destruct (add_no _ _ _ _ A)].
  destruct (visit_start X idle_default buf) as [[[[out s] m] step]|x| |] eqn:S; cbn [map_err bind]; try discriminate.
  - destruct (add64 (ext_dbg X) 0 (blen out)) as [n|x| |] eqn:A'; try discriminate; [apply cat_loop_text|destruct (add_no _ _ _ _ A')].
  - cbn [fst]. intros E. injection E as <-. exact (visit_start_text X _ _ _ S).
Qed.
Lemma get_loop_text X fs dir : forall fuel w k printed e, fst (get_loop X fuel fs dir w k printed) = Err (Traversal_ e) -> wk_text e.
Proof.
  induction fuel as [|fuel IH]; intros w k printed e; cbn [get_loop]; destruct (should_continue w); try discriminate.
  destruct (w_pending_links w) as [[p o]|x| |] eqn:P; cbn [map_err bind]; try discriminate.
  2:{ exfalso. assert (U : (do n <- unwrap (w_next w); Ok (link_cid_of n, map link_cid_of (w_pending w))) <> @Err walk_error _ x) by (destruct (w_next w); discriminate).
      unfold w_pending_links in P. destruct (option_map ie_kind (w_current w)) as [[| | | | |[v|] size|]|]; try exact (U P). destruct (pending_links v) as [[? ?]| | |]; discriminate P. }
  cbn [fst]. destruct (@read_block walk_error fs dir p) as [buf|x| |] eqn:B; try discriminate.
  2:{ cbn [fst]. intros E. injection E as ->. destruct (read_block_no _ _ _ _ B). }
  destruct (walk_next X w buf k) as [[r w'] k'] eqn:W. destruct r as [it|x| |]; cbn [map_err bind]; try discriminate.
  - destruct (get_lines it) as [ls|x| |] eqn:L; try discriminate; [apply IH|].
    destruct (get_lines_cases it) as [(ls & _ & Q)|(t & c & path & md & _ & _ & Q)]; rewrite Q in L; discriminate L.
  - cbn [fst]. intros E. injection E as <-. exact (next_err X _ _ _ _ _ _ W).
Qed.
Lemma buckets_text X fs dir : forall fuel v k e, fst (resolve_buckets X fuel fs dir v k) = Err (Traversal_ e) -> rs_text e.
Proof.
  induction fuel as [|fuel IH]; intros v k e; cbn [resolve_buckets]; [discriminate|].
  destruct (lk_pending_links v) as [[p o]|x| |] eqn:P; cbn [map_err bind]; try discriminate.
  2:{ unfold lk_pending_links in P. destruct (lk_links v); discriminate P. }
  cbn [fst]. destruct (@read_block resolve_error fs dir p) as [buf|x| |] eqn:B; try discriminate.
  2:{ cbn [fst]. intros E. injection E as ->. destruct (read_block_no _ _ _ _ B). }
  destruct (lk_continue_walk X v buf k) as [[[d|v'|]|x| |] k'] eqn:L; try discriminate; [apply IH|].
  cbn [fst]. intros E. injection E as <-. exact (lk_continue_text X _ _ _ _ _ L).
Qed.
Lemma resolve_walk_text X fuel fs dir : forall path c k e, resolve_walk X fuel fs dir c path k = Err (Traversal_ e) -> rs_text e.
Proof.
  induction path as [|s rest IH]; intros c k e; cbn [resolve_walk]; [discriminate|].
  destruct (@read_block resolve_error fs dir c) as [buf|x| |] eqn:B; cbn [bind]; try discriminate.
  2:{ intros E. injection E as ->. destruct (read_block_no _ _ _ _ B). }
  destruct (resolve X buf s k) as [[[d|v|]|x| |] k'] eqn:R; try discriminate; [apply IH| |].
  - pose proof (buckets_text X fs dir fuel v k') as Q. destruct (resolve_buckets X fuel fs dir v k') as [[[d|]|x| |] k2]; cbn [bind fst] in *; try discriminate; [apply IH|].
    intros E. injection E as ->. apply Q. reflexivity.
  - intros E. injection E as <-. exact (resolve_text X _ _ _ _ _ R).
Qed.

#[local] Transparent debug_str list_debug opt_debug some_debug multiple_debug invalid_cid_debug read_failed_text walk_error_text numeral type_text dir_props_debug shard_error_debug lookup_error_debug resolve_error_debug.
(** The error that resolve tells in its last line is the one it met. *)
Theorem C77_why : forall X H fuel fs dir c path e, foreign_visible (h_foreign H) ->
  resolve_walk X fuel fs dir c path None = Err (Traversal_ e) ->
  resolve_is (t_cid (h_foreign H)) (t_cid_error_debug (h_foreign H)) (h_protobuf_debug H) e (resolve_error_debug H e).
Proof.
  intros X H fuel fs dir c path e V E. apply resolve_walk_text in E.
  destruct e as [ty|p|pe|e]; cbn [rs_text resolve_is resolve_error_debug] in *.
  - exists (type_text ty). split; [apply type_shown|reflexivity].
  - exists (opt_debug (dp_filesize p)), (list_debug (map (numeral 10) (dp_blocksizes p))), (opt_debug (dp_hash_type p)), (opt_debug (dp_fanout p)),
      (some_debug (option_map (fun d => list_debug (map (fun x => numeral 10 (b2n x)) d)) (dp_data p))).
    split; [apply num_option|]. split; [apply num_list|]. split; [apply num_option|]. split; [apply num_option|]. split.
    + destruct (dp_data p) as [d|]; [|reflexivity]. eexists. split; [apply byte_list|reflexivity].
    + unfold dir_props_debug. rewrite <- !app_assoc. reflexivity.
  - reflexivity.
  - exists (lookup_error_debug H e). split; [|reflexivity]. destruct e as [m|e|ty|e|o]; cbn [lookup_error_debug lk_text] in *.
    + exists (multiple_debug (h_foreign H) m). split; [apply multiple_shown; [exact (fv_plain _ V)|exact E]|reflexivity].
    + exists (invalid_cid_debug (h_foreign H) e). split; [apply invalid_shown; [exact (fv_plain _ V)|exact E]|reflexivity].
    + exists (type_text ty). split; [apply type_shown|reflexivity].
    + exists (shard_error_debug e). split; [|reflexivity]. destruct e as [h f|z bs]; cbn [shard_is shard_error_debug].
      * exists (opt_debug h), (opt_debug f). split; [apply num_option|]. split; [apply num_option|reflexivity].
      * exists (opt_debug z), (list_debug (map (numeral 10) bs)). split; [apply num_option|]. split; [apply num_list|reflexivity].
    + eexists. split; [|reflexivity]. destruct o as [pe|]; [|reflexivity]. eexists. split; reflexivity.
Qed.
Print Assumptions C77_why.

#[local] Opaque debug_str list_debug opt_debug some_debug multiple_debug invalid_cid_debug read_failed_text walk_error_text numeral type_text resolve_error_debug.

(** Whatever there is in the blocks, cat and get write no control characters to
    standard error, *)
Theorem C77_visible : forall X H cid_of_str fuel fs arg var, host_visible H ->
  Forall (Forall visible) (cat_err X H cid_of_str fuel fs arg var) /\ Forall (Forall visible) (get_err X H cid_of_str fuel fs arg var).
Proof.
  intros X H f fuel fs arg var V. split.
  - apply visible_main; try exact V; try (apply visible_str; reflexivity); cbn [wo_traversal wo_opening wo_other cat_wording].
    + intros. apply (hv_bad_cid H V).
    + intros. constructor.
    + intros [r n]. apply Forall_cons; [|apply Forall_cons; [|apply Forall_nil]]; (apply Forall_app; split; [apply visible_str; reflexivity|apply visible_num]).
    + intros a v p e _ _ E. apply Forall_app. split; [apply visible_str; reflexivity|]. apply visible_rf; [exact (hv_foreign H V)|exact (cat_walk_text X _ _ _ _ _ E)].
  - apply visible_main; try exact V; try (apply visible_str; reflexivity); cbn [wo_traversal wo_opening wo_other get_wording].
    + intros. apply (hv_bad_cid H V).
    + intros. constructor.
    + intros b. constructor.
    + intros a v p e _ _ E. apply Forall_app. split; [apply visible_str; reflexivity|]. apply visible_wk; [exact (hv_foreign H V)|exact (get_loop_text X _ _ _ _ _ _ _ E)].
Qed.
Print Assumptions C77_visible.

(** The segments that are told are those of the path. *)
Definition about (n : notice) : bytes := match n with Reading _ s | Walking _ s | Searching _ s | Resolved s _ _ _ => s end.
Lemma buckets_about X fs dir from s fuel : forall count v k n, In n (buckets_notes X fuel fs dir from s count v k) -> about n = s.
Proof.
  induction fuel as [|fuel IH]; intros count v k n I; cbn [buckets_notes] in I; [destruct I|].
  destruct (lk_pending_links v) as [[p o]| | |]; try contradiction I. destruct I as [<- |I]; [reflexivity|].
  destruct (@read_block resolve_error fs dir p) as [buf| | |]; try contradiction I.
  destruct (lk_continue_walk X v buf k) as [[[d|v'|]| | |] k']; try contradiction I; [|eapply IH; exact I].
  destruct I as [<- |[]]. reflexivity.
Qed.
Lemma notes_about X fuel fs dir : forall path c k n, In n (resolve_notes X fuel fs dir c path k) -> In (about n) path.
Proof.
  induction path as [|s rest IH]; intros c k n I; cbn [resolve_notes] in I; [destruct I|].
  destruct I as [<- |I]; [left; reflexivity|].
  destruct (@read_block resolve_error fs dir c) as [buf| | |]; try contradiction I.
  destruct (resolve X buf s k) as [[[d|v|]| | |] k']; try contradiction I; [right; eapply IH; exact I|].
  destruct I as [<- |I]; [left; reflexivity|].
  apply in_app_or in I as [I|I]; [left; symmetry; eapply buckets_about; exact I|].
  destruct (resolve_buckets X fuel fs dir v k') as [[[d|]| | |] k2]; try contradiction I. right. eapply IH; exact I.
Qed.
Lemma split_within p : forall s x, In s (split_slash p) -> In x s -> In x p.
Proof.
  induction p as [|y p IH]; intros s x; cbn [split_slash]; [intros [<-|[]] []|].
  destruct (byte_eqb y slash); [intros [<-|I] J; [destruct J|right; eapply IH; eassumption]|].
  destruct (split_slash p) as [|s0 r]; [intros [<-|[]] [->|[]]; left; reflexivity|].
  intros [<-|I] J; [destruct J as [->|J]; [left; reflexivity|right; eapply IH; [left; reflexivity|exact J]]|right; eapply IH; [right; exact I|exact J]].
Qed.
Lemma path_visible cid_of_str a c segments : Forall visible a -> path_try_from cid_of_str a = Ok (c, segments) -> Forall (Forall visible) segments.
Proof.
  intros T E. unfold path_try_from in E. apply bind_ok in E as (p & E1 & E).
  assert (Tp : Forall visible p).
  { destruct (splitn2 slash_ipfs a) as [x b] eqn:S. apply splitn2_eq in S. destruct x as [|x0 x]; destruct b as [r|]; try discriminate E1; injection E1 as <-.
    - subst a. cbn [app] in T. apply (proj1 (Forall_app _ slash_ipfs r)) in T. apply T.
    - rewrite app_nil_r in S. subst a. exact T. }
  destruct (splitn2 [x2f] p) as [root more] eqn:S. apply splitn2_eq in S. apply bind_ok in E as (c0 & _ & E). injection E as <- <-.
  destruct more as [more|]; [|constructor]. apply Forall_forall. intros s I. apply filter_In in I as [I _]. apply Forall_forall. intros x J.
  pose proof (split_within _ _ _ I J) as K. rewrite Forall_forall in Tp. apply Tp. subst p. apply in_or_app. right. right. exact K.
Qed.
(** and neither does resolve, if there are none in the path given; otherwise they
    are in the lines of the last kind only. *)
Theorem C77_visible_resolve : forall X H cid_of_str fuel fs arg var, host_visible H ->
  match arg with Some a => text a | None => True end ->
  Forall (fun line => Forall visible line \/ exists s from n to, ~ Forall visible s /\ line = notice_text H (Resolved s from n to))
    (resolve_err X H cid_of_str fuel fs arg var)
  /\ (match arg with Some a => Forall visible a | None => True end -> Forall (Forall visible) (resolve_err X H cid_of_str fuel fs arg var)).
Proof.
  intros X H f fuel fs arg var V T.
  assert (Dec : forall s, Forall visible s \/ ~ Forall visible s).
  { intros s. destruct (Forall_dec visible) with (l := s) as [Y|Y]; [|left; exact Y|right; exact Y]. intros x. unfold visible.
    destruct (32 <=? b2n x) eqn:L; [apply N.leb_le in L|right; apply N.leb_gt in L; lia]. destruct (N.eq_dec (b2n x) 127); [right|left]; tauto. }
  assert (VN : forall n, text (about n) -> match n with Resolved s _ _ _ => Forall visible s | _ => True end -> Forall visible (notice_text H n)).
  { intros n Tn Vs. assert (Q : forall s, text s -> Forall visible (debug_str (t_plain (h_foreign H)) s)).
    { intros s Ts. apply (quoted_visible s), debug_ok; [exact (fv_plain _ (hv_foreign H V))|exact Ts]. }
    destruct n as [c s|c s|c s|s from n to]; cbn [about notice_text] in *.
    1-3: (apply Forall_app; split; [apply visible_str; reflexivity|]; apply Forall_app; split; [apply (hv_cid H V)|]; apply Forall_app; split; [apply visible_str; reflexivity|apply Q, Tn]).
    apply Forall_app. split; [apply visible_str; reflexivity|]. apply Forall_app. split; [exact Vs|]. apply Forall_app. split; [apply visible_str; reflexivity|].
    apply Forall_app. split; [apply (hv_cid H V)|]. apply Forall_app. split; [apply visible_str; reflexivity|]. apply Forall_app. split; [apply visible_num|].
    apply Forall_app. split; [apply visible_str; reflexivity|apply (hv_cid H V)]. }
  assert (Main : forall (keep : list notice -> list bytes), (forall ns, (forall n, In n ns -> text (about n) /\ (match arg with Some a => Forall visible a -> Forall visible (about n) | None => False end)) -> Forall (Forall visible) (keep ns)) ->
     Forall (Forall visible) (main_err H (lit "IPFSPATH")
    (lit "Will resolve the given IPFSPATH to a CID through any UnixFS directories or HAMT shards from default go-ipfs 0.5 configuration flatfs blockstore and write the final CID into stdout")
    (lit "Invalid path given as argument: ") (path_error_text H) (path_try_from f)
    (fun dir p => (resolve_walk X fuel fs dir (fst p) (snd p) None, keep (resolve_notes X fuel fs dir (fst p) (snd p) None)))
    (fun o => match o with Some _ => [] | None => [lit "not found"] end) (resolve_wording H) arg var)).
  { intros keep K. apply visible_main; try exact V; try (apply visible_str; reflexivity); cbn [wo_traversal wo_opening wo_other resolve_wording fst snd].
    - intros a [|] _ _; [apply (hv_bad_cid H V)|apply visible_str; reflexivity].
    - intros a [c path] p -> P. cbn [fst snd]. apply K. intros n I. apply notes_about in I. split.
      + pose proof (path_text f a c path T P) as Q. rewrite Forall_forall in Q. apply Q, I.
      + intros Va. pose proof (path_visible f a c path Va P) as Q. rewrite Forall_forall in Q. apply Q, I.
    - intros [d|]; [constructor|]. apply Forall_cons; [apply visible_str; reflexivity|constructor].
    - intros a [c path] p e _ _ E. apply Forall_app. split; [apply visible_str; reflexivity|]. apply visible_resolve_debug; [exact V|exact (resolve_walk_text X _ _ _ _ _ _ _ E)]. }
  split.
  - specialize (Main (fun _ => []) (fun _ _ => Forall_nil _)). unfold resolve_err. unfold main_err in *. destruct arg as [a|]; [|eapply Forall_impl; [|exact Main]; auto].
    destruct (path_try_from f a) as [[c path]|e| |] eqn:P; try (eapply Forall_impl; [|exact Main]; auto). destruct var as [p|]; [|eapply Forall_impl; [|exact Main]; auto].
    cbn [fst snd app] in *. apply Forall_app. split; [|eapply Forall_impl; [|exact Main]; auto].
    apply Forall_map, Forall_forall. intros n I. apply notes_about in I. pose proof (path_text f a c path T P) as Q. rewrite Forall_forall in Q. specialize (Q _ I).
    destruct n as [d s|d s|d s|s from n to]; try (left; apply VN; [exact Q|exact Logic.I]).
    destruct (Dec s) as [Y|Y]; [left; apply VN; [exact Q|exact Y]|right; exists s, from, n, to; auto].
  - intros Va. apply (Main (map (notice_text H))). intros ns K. apply Forall_map, Forall_forall. intros n I. destruct (K n I) as [K1 K2]. apply VN; [exact K1|].
    destruct arg as [a|].
    + destruct n; try exact Logic.I. exact (K2 Va).
    + contradiction K2.
Qed.
Print Assumptions C77_visible_resolve.

(** There they can be: the name of an entry in a bucket, with a newline, is printed
    as it is. *)
Definition nl_name : bytes := [x61; x0a; x62].
Definition nl_root : flat := shardm [nlnk 2 [x30; x30]].
Definition nl_bucket : flat := shardm [nlnk 3 ([x30; x31] ++ nl_name)].
Lemma nl_notes X fs dir fuel : ext_ok X -> good_dir dir -> on_disk fs dir (idc 1) (Contents (flat_write nl_root)) -> on_disk fs dir (idc 2) (Contents (flat_write nl_bucket)) ->
  resolve_notes X (S fuel) fs dir (idc 1) [nl_name] None
  = [Reading (idc 1) nl_name; Walking (idc 1) nl_name; Searching (idc 2) nl_name; Resolved nl_name (idc 1) 1 (idc 3)]
  /\ resolve_walk X (S fuel) fs dir (idc 1) [nl_name] None = Ok (Some (idc 3)).
Proof.
  intros HX Gd O1 O2.
  assert (P1 : try_parse (ext_dbg X) (flat_write nl_root) = Ok nl_root) by (destruct (ext_dbg X); vm_compute; reflexivity).
  assert (P2 : try_parse (ext_dbg X) (flat_write nl_bucket) = Ok nl_bucket) by (destruct (ext_dbg X); vm_compute; reflexivity).

  assert (D1 : ext_cid_decode X (cid_bytes (idc 2)) = Some (idc 2)) by exact (nlnk_cid X 2 [] HX).
  assert (D2 : ext_cid_decode X (cid_bytes (idc 3)) = Some (idc 3)) by exact (nlnk_cid X 3 [] HX).
  assert (R1 : exists k, resolve X (flat_write nl_root) nl_name None = (Ok (NeedToLoadMore (Lookup [idc 2] nl_name)), k)).
  { unfold resolve. rewrite P1. unfold nl_root. cbn [shardm f_data u_type f_links]. unfold lookup_or_start. cbn -[cid_bytes idc ext_cid_decode].
    unfold try_convert_cid. cbn -[cid_bytes idc ext_cid_decode]. rewrite D1. cbn -[cid_bytes idc ext_cid_decode]. eexists. reflexivity. }
  destruct R1 as [k R1].
  assert (R2 : exists k', lk_continue_walk X (Lookup [idc 2] nl_name) (flat_write nl_bucket) k = (Ok (Found (idc 3)), k')).
  { unfold lk_continue_walk. rewrite P2. unfold nl_bucket. cbn -[cid_bytes idc ext_cid_decode].
    unfold try_convert_cid. cbn -[cid_bytes idc ext_cid_decode]. rewrite D2. cbn -[cid_bytes idc ext_cid_decode]. eexists. reflexivity. }
  destruct R2 as [k' R2].
  cbn [resolve_notes resolve_walk]. rewrite (read_on_disk fs dir _ _ Gd O1). cbn [bind]. rewrite R1.
  cbn [buckets_notes resolve_buckets lk_pending_links lk_links map_err bind fst]. rewrite (read_on_disk fs dir _ _ Gd O2), R2. split; reflexivity.
Qed.
Theorem C77_newline : forall X H, ext_ok X -> exists fs cid_of_str arg, blocks_place [x2f] ex_dir /\ text arg
  /\ forall fuel, exists line, In line (resolve_err X H cid_of_str (S fuel) fs (Some arg) (Some [x2f])) /\ In x0a line.
Proof.
  intros X H HX. destruct (C54_store [x2f] ex_dir [(idc 1, flat_write nl_root); (idc 2, flat_write nl_bucket)] ex_place) as (fs & St & _).
  exists fs, (fun _ => Some (idc 1)), ([x31; x2f] ++ nl_name). split; [exact ex_place|]. split; [apply Text_proofs.valid_text; reflexivity|].
  intros fuel. destruct (nl_notes X fs ex_dir fuel HX (place_good _ _ ex_place)) as [N _].
  { intros p. apply St. vm_compute. reflexivity. }
  { intros p. apply St. vm_compute. reflexivity. }
  exists (notice_text H (Resolved nl_name (idc 1) 1 (idc 3))). split.
  - unfold resolve_err, main_err. assert (P : path_try_from (fun _ => Some (idc 1)) ([x31; x2f] ++ nl_name) = Ok (idc 1, [nl_name])) by reflexivity. rewrite P. cbn [fst snd].
    change (blocks_dir [x2f]) with ex_dir. rewrite N. apply in_or_app. left. cbn [map]. do 3 right. left. reflexivity.
  - cbn [notice_text]. apply in_or_app. right. apply in_or_app. left. right. left. reflexivity.
Qed.
Print Assumptions C77_newline.

(** there are such hosts and such runs *)
Definition ex_host : host := Host ex_foreign (lit "cat") (fun _ => lit "io") (lit "var") (fun _ => lit "bad") (fun _ => lit "Qm") (fun _ => lit "pb").
Example C77_nonvacuous : host_visible ex_host
  /\ forall X, ext_ok X -> exists fs, told X fs ex_dir (idc 1) [nl_name]
       [Reading (idc 1) nl_name; Walking (idc 1) nl_name; Searching (idc 2) nl_name; Resolved nl_name (idc 1) 1 (idc 3)]
     /\ path_on X fs ex_dir (idc 1) [nl_name] (Ok (Some (idc 3)))
     /\ told X fs ex_dir (idc 4) [[x61]; [x62]] [Reading (idc 4) [x61]]
     /\ path_on X fs ex_dir (idc 4) [[x61]; [x62]] (Err (OpeningFailed 2))
     /\ cat_run X fs ex_dir (idc 4) (Err (OpeningFailed 2)) [].
Proof.
  split; [constructor; try exact (proj1 C75_nonvacuous); intros; apply visible_str; reflexivity|].
  intros X HX. destruct (C54_store [x2f] ex_dir [(idc 1, flat_write nl_root); (idc 2, flat_write nl_bucket)] ex_place) as (fs & St & At). exists fs.
  pose proof (place_good _ _ ex_place) as Gd.
  destruct (nl_notes X fs ex_dir 0 HX Gd) as [N R].
  { intros p. apply St. vm_compute. reflexivity. }
  { intros p. apply St. vm_compute. reflexivity. }
  assert (U : forall T, @unreadable T fs ex_dir (idc 4) (OpeningFailed 2)).
  { intros T. left. exists 2. split; [|reflexivity]. apply At. vm_compute. reflexivity. }
  assert (ND : resolve_walk X 1 fs ex_dir (idc 1) [nl_name] None <> Diverge) by (rewrite R; discriminate).
  split; [rewrite <- N; apply (told_sound X fs ex_dir Gd 1 [nl_name] (idc 1) None (or_introl eq_refl) ND)|].
  split; [rewrite <- R; apply (path_sound X fs ex_dir Gd 1 [nl_name] (idc 1) None (or_introl eq_refl) ND)|].
  split; [eapply t_unreadable; apply U|]. split; [|apply cr_unreadable, U].
  apply po_stop; [apply eo_unreadable, U|discriminate].
Qed.
