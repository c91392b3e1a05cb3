(** * PropertiesMessages: C75, the messages of errors *)
From Coq Require Import Strings.String.
From Coq Require Import Init.Byte.
From Verif Require Import Base Tac Wire Utf8 Cid Pb Parsed Reader Visit Dir Builder Walk Errors AdderDebug Output Messages
  SpecText Text_proofs SpecOutput Output_proofs Names_text_proofs SpecMessages Messages_proofs.

(** what other crates print has no control characters either *)
Record foreign_visible (F : foreign) : Prop := {
  fv_plain : forall c, t_plain F c = true -> 32 <= c /\ c <> 127;
  fv_protobuf : forall e, Forall visible (t_protobuf F e);
  fv_cid_error : forall h, Forall visible (t_cid_error F h);
  fv_cid_error_debug : forall h, Forall visible (t_cid_error_debug F h);
  fv_cid : forall c, Forall visible (t_cid F c)
}.

Lemma visible_str s : forallb (fun x => (32 <=? b2n x) && negb (b2n x =? 127)) s = true -> Forall visible s.
Proof.
  intros H. apply Forall_forall. intros x I. rewrite forallb_forall in H. specialize (H x I).
  apply andb_true_iff in H as [H1 H2]. apply N.leb_le in H1. apply negb_true_iff, N.eqb_neq in H2. split; assumption.
Qed.
Lemma visible_num n : Forall visible (numeral 10 n).
Proof. apply (numeral_visible 10 n); [lia|]. apply numeral_ok. lia. Qed.
Lemma visible_some o : match o with Some t => Forall visible t | None => True end -> Forall visible (some_debug o).
Proof. destruct o as [t|]; cbn [some_debug]; intros V; [|apply visible_str; reflexivity]. repeat (apply Forall_app; split); try exact V; apply visible_str; reflexivity. Qed.
Lemma visible_opt o : Forall visible (opt_debug o).
Proof. apply visible_some. destruct o; cbn [option_map]; [apply visible_num|exact Logic.I]. Qed.
Lemma visible_metadata m : Forall visible (metadata_debug m).
Proof.
  unfold metadata_debug. apply Forall_app. split; [apply visible_str; reflexivity|]. apply Forall_app. split; [exact (visible_opt _)|].
  apply Forall_app. split; [apply visible_str; reflexivity|]. apply Forall_app. split; [|apply visible_str; reflexivity].
  apply visible_some. destruct (md_mtime m) as [[s n]|]; cbn [option_map fst snd]; [|exact Logic.I].
  repeat (apply Forall_app; split); try (apply visible_str; reflexivity); try exact (visible_num _). apply (integer_visible s), signed_ok.
Qed.
#[local] Opaque metadata_debug.
Lemma visible_type t : Forall visible (type_text t).
Proof. destruct t; apply visible_str; reflexivity. Qed.
Lemma visible_file e : Forall visible (file_error_text e).
Proof.
  destruct e; cbn [file_error_text]; try (apply visible_str; reflexivity); repeat (apply Forall_app; split);
    try (apply visible_str; reflexivity); try apply visible_metadata; exact (visible_opt _).
Qed.
Lemma visible_hex x : Forall visible (hex2 x).
Proof.
  assert (D : forall d, d < 16 -> visible (digit d)) by (intros d L; rewrite digit_char_ok by exact L; apply wordy_visible, digit_wordy, L).
  pose proof (b2n_lt x) as L. unfold hex2.
  apply Forall_cons; [apply D, N.div_lt_upper_bound; lia|]. apply Forall_cons; [apply D, N.mod_lt; lia|apply Forall_nil].
Qed.
Lemma visible_props p : Forall visible (dir_props_text p).
Proof.
  unfold dir_props_text. repeat (apply Forall_app; split); try (apply visible_str; reflexivity); try exact (visible_opt _); try exact (visible_num _).
  apply Forall_concat, Forall_map, Forall_forall. intros x _. apply visible_hex.
Qed.
#[local] Opaque dir_props_text.
Lemma visible_shard e : Forall visible (shard_error_text e).
Proof. destruct e; cbn [shard_error_text]; repeat (apply Forall_app; split); try (apply visible_str; reflexivity); try exact (visible_opt _); apply visible_num. Qed.
Lemma visible_list l : Forall (Forall visible) l -> Forall visible (list_debug l).
Proof.
  intros F. unfold list_debug. apply Forall_app. split; [apply visible_str; reflexivity|]. apply Forall_app. split; [|apply visible_str; reflexivity].
  induction F as [|t l V F IH]; [constructor|]. destruct l as [|t2 l]; [exact V|]. change (commas (t :: t2 :: l)) with (t ++ lit ", " ++ commas (t2 :: l)).
  apply Forall_app. split; [exact V|]. apply Forall_app. split; [apply visible_str; reflexivity|exact IH].
Qed.

#[local] Opaque debug_str list_debug shard_error_text file_error_text opt_debug.
Section visible.
Context (F : foreign) (V : foreign_visible F).
Let str_ok s : text s -> Forall visible (debug_str (t_plain F) s).
Proof. intros T. apply (quoted_visible s). apply debug_ok; [exact (fv_plain F V)|exact T]. Qed.
Ltac vis := repeat (apply Forall_app; split); try (apply visible_str; reflexivity); try exact (visible_opt _); try exact (visible_num _);
  try apply visible_type; try apply visible_file; try apply visible_props; try apply visible_shard;
  try apply (fv_protobuf F V); try apply (fv_cid_error F V); try apply (fv_cid_error_debug F V); try apply (fv_cid F V); try (apply str_ok; assumption).
Lemma visible_ic e : ic_text e -> Forall visible (invalid_cid_text F e).
Proof. intros T. unfold ic_text in T. unfold invalid_cid_text. vis. Qed.
#[local] Opaque invalid_cid_text.
Lemma visible_icd e : ic_text e -> Forall visible (invalid_cid_debug F e).
Proof. intros T. unfold ic_text in T. unfold invalid_cid_debug. vis. apply visible_list, Forall_map, Forall_forall. intros x _. apply visible_num. Qed.
#[local] Opaque invalid_cid_debug.
Lemma visible_rf e : rf_text e -> Forall visible (read_failed_text F e).
Proof. destruct e as [e|t|[e|]|e]; cbn [rf_text read_failed_text]; intros T; vis. exact (visible_ic e T). Qed.
Lemma visible_found p : Forall visible (found_debug F p).
Proof. unfold found_debug. vis. Qed.
#[local] Opaque found_debug.
Lemma visible_lk e : lk_text e -> Forall visible (lookup_error_text F e).
Proof.
  destruct e as [[a b|a e]|e|t|e|[e|]]; cbn [lk_text lookup_error_text multiple_debug]; intros T; vis; try apply visible_found; exact (visible_icd _ T).
Qed.
#[local] Opaque lookup_error_text.
Lemma visible_rs e : rs_text e -> Forall visible (resolve_error_text F e).
Proof. destruct e as [t|p|e|e]; cbn [rs_text resolve_error_text]; intros T; vis. exact (visible_lk e T). Qed.
Lemma visible_wk e : wk_text e -> Forall visible (walk_error_text F e).
Proof. destruct e as [t|t|e|e| |e|e|p|e]; cbn [wk_text walk_error_text]; intros T; vis. exact (visible_ic e T). Qed.
Lemma visible_build full e : text full -> build_text full e -> Forall visible (build_error_text F e).
Proof. intros T. destruct e as [s|s|s| |s|s]; cbn [build_text build_error_text]; intros B; subst; vis. Qed.
End visible.

#[local] Transparent metadata_debug dir_props_text debug_str list_debug invalid_cid_text invalid_cid_debug found_debug shard_error_text file_error_text opt_debug lookup_error_text.
(** ** C75 *)

(** Whatever the blocks, names and arguments are, the messages of the errors of
    visits, resolving, walks, parsing, and building have no control
    characters. *)
Theorem C75_file : forall F X, foreign_visible F ->
  (forall v b e, visit_start X v b = Err e -> Forall visible (read_failed_text F e))
  /\ (forall v b k e k', continue_walk X v b k = (Err e, k') -> Forall visible (read_failed_text F e)).
Proof.
  intros F X V. split; intros; apply visible_rf; try exact V; [exact (visit_start_text X _ _ _ H)|exact (continue_text X _ _ _ _ _ H)].
Qed.
Print Assumptions C75_file.
Theorem C75_dir : forall F X, foreign_visible F ->
  (forall b needle k e k', resolve X b needle k = (Err e, k') -> Forall visible (resolve_error_text F e))
  /\ (forall v b k e k', lk_continue_walk X v b k = (Err e, k') ->
        Forall visible (lookup_error_text F e) /\ Forall visible (resolve_error_text F (into_resolve_error e))).
Proof.
  intros F X V. split; intros; [apply visible_rs; [exact V|exact (resolve_text X _ _ _ _ _ H)]|].
  apply lk_continue_text in H. split; [apply visible_lk|apply visible_rs]; try exact V; exact H.
Qed.
Print Assumptions C75_dir.
Theorem C75_walk : forall F X, foreign_visible F ->
  forall w b k e w' k', walk_next X w b k = (Err e, w', k') -> Forall visible (walk_error_text F e).
Proof. intros F X V w b k e w' k' H. apply visible_wk; [exact V|]. exact (next_err X _ _ _ _ _ _ H). Qed.
Print Assumptions C75_walk.
Theorem C75_parse : forall F, foreign_visible F -> forall e, Forall visible (parse_failed_text F e).
Proof.
  intros F V [e|n|e n]; cbn [parse_failed_text]; repeat (apply Forall_app; split); try (apply visible_str; reflexivity); apply (fv_protobuf F V).
Qed.
Print Assumptions C75_parse.
Theorem C75_builder : forall F, foreign_visible F ->
  (forall b path c size e b', text path -> put_link b path c size = (Err e, b') -> Forall visible (build_error_text F e))
  /\ (forall b path md e b', text path -> set_metadata b path md = (Err e, b') -> Forall visible (build_error_text F e)).
Proof.
  intros F V. split; intros; (eapply visible_build; [exact V|exact H|]); [exact (put_link_err _ _ _ _ _ _ H0)|exact (set_metadata_err _ _ _ _ _ H0)].
Qed.
Print Assumptions C75_builder.

(** The messages on files and building tell the error with all it carries. *)
Lemma sep_split (s : byte) w : Forall (fun x => x <> s) w -> forall w' r r', Forall (fun x => x <> s) w' -> w ++ s :: r = w' ++ s :: r' -> w = w' /\ r = r'.
Proof.
  induction 1 as [|x w N F IH]; intros [|y w'] r r' F' E; cbn [app] in E.
  - injection E as E. auto.
  - injection E as E1 E2. apply Forall_cons_iff in F' as [Q _]. congruence.
  - injection E as E1 E2. congruence.
  - injection E as E1 E2. apply Forall_cons_iff in F' as [Q F']. destruct (IH w' r r' F' E2). split; congruence.
Qed.
Lemma num_no s n : b2n s < 48 -> Forall (fun x => x <> s) (numeral 10 n).
Proof.
  intros L. pose proof (numeral_ok 10 n ltac:(lia)) as Q. apply numeral_wordy in Q as [_ Q]; [|lia]. eapply Forall_impl; [|exact Q].
  intros x W ->. unfold wordy in W. lia.
Qed.
Lemma num_split s n n' r r' : b2n s < 48 -> numeral 10 n ++ s :: r = numeral 10 n' ++ s :: r' -> n = n' /\ r = r'.
Proof.
  intros L E. apply sep_split in E as [E1 E2]; [|apply num_no, L..]. split; [|exact E2].
  apply (numeral_unique 10 n n' (numeral 10 n)); [lia| |rewrite E1]; apply numeral_ok; lia.
Qed.
Lemma signed_split z z' r r' : signed z ++ x2c :: r = signed z' ++ x2c :: r' -> z = z' /\ r = r'.
Proof.
  assert (N : forall z, Forall (fun x => x <> x2c) (signed z)).
  { intros y. unfold signed. destruct (y <? 0)%Z; [constructor; [discriminate|]|]; apply num_no; reflexivity. }
  intros E. apply sep_split in E as [E1 E2]; [|apply N..]. split; [|exact E2]. apply (integer_unique z z' (signed z)); [|rewrite E1]; apply signed_ok.
Qed.
Lemma opt_split o o' r r' : opt_debug o ++ r = opt_debug o' ++ r' -> o = o' /\ r = r'.
Proof.
  destruct o as [n|], o' as [n'|]; cbn [opt_debug option_map some_debug]; intros E; try discriminate E.
  - rewrite <- !app_assoc in E. apply app_inv_head in E. cbn [lit list_byte_of_string app] in E. apply num_split in E as [-> ->]; [auto|reflexivity].
  - apply app_inv_head in E. auto.
Qed.
Lemma mtime_split (o o' : option (Z * N)) r r' :
  some_debug (option_map (fun t => lit "(" ++ signed (fst t) ++ lit ", " ++ numeral 10 (snd t) ++ lit ")") o) ++ r
  = some_debug (option_map (fun t => lit "(" ++ signed (fst t) ++ lit ", " ++ numeral 10 (snd t) ++ lit ")") o') ++ r' -> o = o' /\ r = r'.
Proof.
  destruct o as [[s n]|], o' as [[s' n']|]; cbn [option_map some_debug fst snd]; intros E; try discriminate E.
  - repeat (rewrite <- app_assoc in E). apply app_inv_head in E. apply app_inv_head in E.
    change (lit ", ") with [x2c; x20] in E. cbn [app] in E. apply signed_split in E as [-> E]. injection E as E.
    change (lit ")") with [x29] in E. repeat (rewrite <- app_assoc in E). cbn [app] in E. apply num_split in E as [-> E]; [|reflexivity]. injection E as ->. auto.
  - apply app_inv_head in E. auto.
Qed.
Theorem C75_file_tells : forall e e', file_error_text e = file_error_text e' -> e = e'.
Proof.
  assert (M : forall m m', metadata_debug m = metadata_debug m' -> m = m').
  { intros [a b] [a' b'] E. unfold metadata_debug in E. cbn [md_mode md_mtime] in E. apply app_inv_head in E.
    apply opt_split in E as [-> E]. apply app_inv_head in E. apply mtime_split in E as [-> _]. reflexivity. }
  intros e e' E. destruct e, e'; cbn [file_error_text] in E; try discriminate E; try reflexivity.
  - apply app_inv_head in E. f_equal. apply M, E.
  - apply app_inv_head in E. apply opt_split in E as [-> E]. apply app_inv_head in E.
    rewrite <- (app_nil_r (opt_debug fanout)), <- (app_nil_r (opt_debug fanout0)) in E. apply opt_split in E as [-> _]. reflexivity.
Qed.
Print Assumptions C75_file_tells.
Definition path_in (e : build_error) : bytes :=
  match e with
  | RootedPath s | RepeatSlashesInPath s | PathEndsInSlash s | DuplicatePath s | LeafAsDirectory s => s
  | TooManyRootLevelEntries => []
  end.
Theorem C75_build_tells : forall F e e', foreign_visible F -> text (path_in e) -> text (path_in e') ->
  build_error_text F e = build_error_text F e' -> e = e'.
Proof.
  intros F e e' V T T' E.
  assert (Q : forall s s', text s -> text s' -> debug_str (t_plain F) s = debug_str (t_plain F) s' -> s = s').
  { intros s s' Ts Ts' Es. apply (quoted_split s s' (debug_str (t_plain F) s) (debug_str (t_plain F) s') [] []).
    - apply debug_ok; [exact (fv_plain F V)|exact Ts].
    - apply debug_ok; [exact (fv_plain F V)|exact Ts'].
    - rewrite Es. reflexivity. }
  destruct e, e'; cbn [build_error_text path_in] in *; try discriminate E; try reflexivity; apply app_inv_head in E; f_equal; exact (Q _ _ T T' E).
Qed.
Print Assumptions C75_build_tells.
(** The message of an error on building names the path that was given. *)
Theorem C75_build_path : forall path e,
  ((exists b c size b', put_link b path c size = (Err e, b')) \/ (exists b md b', set_metadata b path md = (Err e, b'))) ->
  e = TooManyRootLevelEntries \/ path_in e = path.
Proof.
  intros path e [(b & c & size & b' & H)|(b & md & b' & H)]; [apply put_link_err in H|apply set_metadata_err in H];
    destruct e; cbn [build_text] in H; auto.
Qed.
Print Assumptions C75_build_path.

(** What the messages are, with all the numbers and names in them. *)
Lemma num_ok n : numeral_of 10 n (numeral 10 n).
Proof. apply numeral_ok. lia. Qed.
Lemma num_list ns : list_is ns (list_debug (map (numeral 10) ns)).
Proof.
  exists (map (numeral 10) ns). split.
  - induction ns as [|n ns IH]; constructor; [apply num_ok|exact IH].
  - unfold list_debug. enough (E : forall l, commas l = joined l) by (rewrite E; reflexivity).
    induction l as [|t [|t2 l] IH]; [reflexivity|reflexivity|]. cbn [commas joined] in *. rewrite <- IH. reflexivity.
Qed.
Lemma byte_list (d : bytes) : list_is (map b2n d) (list_debug (map (fun x => numeral 10 (b2n x)) d)).
Proof. rewrite <- (map_map b2n (numeral 10)). apply num_list. Qed.
Lemma num_option o : option_is (numeral_of 10) o (opt_debug o).
Proof. destruct o as [n|]; [|reflexivity]. exists (numeral 10 n). split; [apply num_ok|reflexivity]. Qed.
Lemma type_shown t : type_is t (type_text t).
Proof. destruct t; reflexivity. Qed.
Lemma hex2_ok x : byte_of x (hex2 x).
Proof.
  unfold byte_of, hex2. pose proof (b2n_lt x) as L. exists [1; b2n x / 16; b2n x mod 16].
  assert (D : b2n x / 16 < 16) by (apply N.div_lt_upper_bound; lia). assert (M : b2n x mod 16 < 16) by (apply N.mod_lt; lia).
  split; [repeat constructor; assumption|]. split; [discriminate|]. split; [discriminate|]. split.
  - unfold value. cbn [fold_left]. pose proof (N.div_mod (b2n x) 16 ltac:(lia)). lia.
  - cbn [map]. rewrite <- !digit_char_ok by (assumption || lia). reflexivity.
Qed.
Lemma metadata_shown m : metadata_is m (metadata_debug m).
Proof.
  eexists _, _. split; [apply num_option|]. split; [|reflexivity]. destruct (md_mtime m) as [[z n]|]; [|reflexivity].
  eexists. split; [|reflexivity]. exists (signed z), (numeral 10 n). split; [apply signed_ok|]. split; [apply num_ok|reflexivity].
Qed.
Lemma file_says e : file_message e (file_error_text e).
Proof.
  destruct e; try reflexivity; cbn [file_message file_error_text].
  - eexists. split; [apply metadata_shown|reflexivity].
  - eexists _, _. split; [apply num_option|]. split; [apply num_option|]. reflexivity.
Qed.
Lemma props_says p : props_message p (dir_props_text p).
Proof.
  exists (opt_debug (dp_filesize p)), (numeral 10 (N.of_nat (length (dp_blocksizes p)))), (opt_debug (dp_hash_type p)), (opt_debug (dp_fanout p)).
  exists (map hex2 (match dp_data p with Some data => data | None => [] end)).
  split; [apply num_option|]. split; [apply num_ok|]. split; [apply num_option|]. split; [apply num_option|]. split.
  - assert (H : forall l, Forall2 byte_of l (map hex2 l)) by (induction l; constructor; [apply hex2_ok|assumption]). apply H.
  - unfold dir_props_text. destruct (dp_data p); reflexivity.
Qed.
Lemma shard_says e : shard_message e (shard_error_text e).
Proof.
  destruct e as [h f|z bs]; eexists _, _; (split; [apply num_option|]); (split; [first [apply num_option|apply num_ok]|]); reflexivity.
Qed.
Section says.
Context (F : foreign) (V : forall c, t_plain F c = true -> 32 <= c /\ c <> 127).
Let str_ok s : text s -> quoted s (debug_str (t_plain F) s).
Proof. intros T. apply debug_ok; [exact V|exact T]. Qed.
Lemma invalid_says e : ic_text e -> invalid_message (t_cid_error F) e (invalid_cid_text F e).
Proof. intros T. eexists _, _. split; [apply num_ok|]. split; [apply str_ok, T|]. reflexivity. Qed.
Lemma invalid_shown e : ic_text e -> invalid_is (t_cid_error_debug F) e (invalid_cid_debug F e).
Proof. intros T. eexists _, _, _. split; [apply num_ok|]. split; [apply byte_list|]. split; [apply str_ok, T|reflexivity]. Qed.
Lemma match_shown p : match_is (t_cid F) p (found_debug F p).
Proof. eexists. split; [apply num_ok|reflexivity]. Qed.
Lemma multiple_shown m : lk_text (LMultiple m) -> multiple_is (t_cid F) (t_cid_error_debug F) m (multiple_debug F m).
Proof.
  destruct m as [a b|a e]; cbn [lk_text]; intros T; eexists _, _; (split; [apply match_shown|]); (split; [first [apply match_shown|apply invalid_shown, T]|]); reflexivity.
Qed.
Lemma parse_says e : parse_message (t_protobuf F) e (parse_failed_text F e).
Proof. destruct e; reflexivity. Qed.
Lemma read_says e : rf_text e -> read_message (t_cid_error F) (t_protobuf F) e (read_failed_text F e).
Proof.
  destruct e as [e|t|[e|]|e]; cbn [rf_text read_message read_failed_text]; intros T; try reflexivity.
  - apply file_says.
  - eexists. split; [apply type_shown|reflexivity].
  - apply invalid_says, T.
Qed.
Lemma lookup_says e : lk_text e -> lookup_message (t_cid F) (t_cid_error_debug F) (t_protobuf F) e (lookup_error_text F e).
Proof.
  destruct e as [m|e|t|e|[e|]]; cbn [lookup_message lookup_error_text]; intros T; try reflexivity.
  - eexists. split; [apply multiple_shown, T|reflexivity].
  - eexists. split; [apply invalid_shown, T|reflexivity].
  - eexists. split; [apply type_shown|reflexivity].
  - apply shard_says.
Qed.
Lemma resolve_says_text e : rs_text e -> resolve_message (t_cid F) (t_cid_error_debug F) (t_protobuf F) e (resolve_error_text F e).
Proof.
  destruct e as [t|p|e|e]; cbn [rs_text resolve_message resolve_error_text]; intros T; try reflexivity.
  - eexists. split; [apply type_shown|reflexivity].
  - eexists. split; [apply props_says|reflexivity].
  - apply lookup_says, T.
Qed.
Lemma walk_says e : wk_text e -> walk_message (t_cid_error F) (t_protobuf F) e (walk_error_text F e).
Proof.
  destruct e as [t|t|e|e| |e|e|p|e]; cbn [wk_text walk_message walk_error_text]; intros T; try reflexivity;
    (eexists; split; [|reflexivity]); first [apply type_shown|apply invalid_says, T|apply file_says|apply props_says|apply shard_says].
Qed.
Lemma build_says full e : text full -> build_text full e -> build_message e (build_error_text F e).
Proof.
  intros T. destruct e; cbn [build_text build_message build_error_text]; intros B; try reflexivity; subst; (eexists; split; [apply str_ok, T|reflexivity]).
Qed.
End says.
(** Every error that a visit, a lookup, a walk, parsing a block or a
    building operation ends with has the message of the specification. *)
Theorem C75_says_file : forall F X, (forall c, t_plain F c = true -> 32 <= c /\ c <> 127) ->
  (forall v b e, visit_start X v b = Err e -> read_message (t_cid_error F) (t_protobuf F) e (read_failed_text F e))
  /\ (forall v b k e k', continue_walk X v b k = (Err e, k') -> read_message (t_cid_error F) (t_protobuf F) e (read_failed_text F e)).
Proof.
  intros F X V. split; intros; apply read_says; try exact V; [exact (visit_start_text X _ _ _ H)|exact (continue_text X _ _ _ _ _ H)].
Qed.
Print Assumptions C75_says_file.
Theorem C75_says_dir : forall F X, (forall c, t_plain F c = true -> 32 <= c /\ c <> 127) ->
  (forall b needle k e k', resolve X b needle k = (Err e, k') ->
     resolve_message (t_cid F) (t_cid_error_debug F) (t_protobuf F) e (resolve_error_text F e))
  /\ (forall v b k e k', lk_continue_walk X v b k = (Err e, k') ->
     lookup_message (t_cid F) (t_cid_error_debug F) (t_protobuf F) e (lookup_error_text F e)
     /\ resolve_message (t_cid F) (t_cid_error_debug F) (t_protobuf F) (into_resolve_error e) (resolve_error_text F (into_resolve_error e))).
Proof.
  intros F X V. split; intros; [apply resolve_says_text; [exact V|exact (resolve_text X _ _ _ _ _ H)]|].
  apply lk_continue_text in H. split; [apply lookup_says|apply resolve_says_text]; try exact V; exact H.
Qed.
Print Assumptions C75_says_dir.
Theorem C75_says_walk : forall F X, (forall c, t_plain F c = true -> 32 <= c /\ c <> 127) ->
  forall w b k e w' k', walk_next X w b k = (Err e, w', k') -> walk_message (t_cid_error F) (t_protobuf F) e (walk_error_text F e).
Proof. intros F X V w b k e w' k' H. apply walk_says; [exact V|]. exact (next_err X _ _ _ _ _ _ H). Qed.
Print Assumptions C75_says_walk.
Theorem C75_says_builder : forall F, (forall c, t_plain F c = true -> 32 <= c /\ c <> 127) ->
  (forall b path c size e b', text path -> put_link b path c size = (Err e, b') -> build_message e (build_error_text F e))
  /\ (forall b path md e b', text path -> set_metadata b path md = (Err e, b') -> build_message e (build_error_text F e))
  /\ (forall protobuf e, construct_message protobuf e (construct_error_text protobuf e))
  /\ (forall e, parse_message (t_protobuf F) e (parse_failed_text F e)).
Proof.
  intros F V. split; [|split; [|split]].
  - intros. eapply build_says; [exact V|exact H|exact (put_link_err _ _ _ _ _ _ H0)].
  - intros. eapply build_says; [exact V|exact H|exact (set_metadata_err _ _ _ _ _ H0)].
  - intros pb [|n]; [reflexivity|]. eexists. split; [apply num_ok|reflexivity].
  - apply parse_says.
Qed.
Print Assumptions C75_says_builder.

(** a link with a newline and a quote in its name and no Cid *)
Definition ex_foreign : foreign :=
  Foreign (fun c => (32 <=? c) && (c <? 127)) (fun _ => lit "e") (fun _ => lit "e") (fun _ => lit "e") (fun _ => lit "c").
Example C75_nonvacuous : foreign_visible ex_foreign
  /\ (forall X, ext_cid_decode X [] = None -> exists w b k e w' k', walk_next X w b k = (Err e, w', k')
      /\ walk_error_text ex_foreign e = lit "link contained an invalid Cid: failed to convert link #0 (" ++ [x22] ++ lit "a\n\" ++ [x22] ++ [x22] ++ lit ") to Cid: e")
  /\ build_error_text ex_foreign (DuplicatePath (lit "a/b")) = lit "path exists already: " ++ [x22] ++ lit "a/b" ++ [x22].
Proof.
  split; [|split; [|reflexivity]].
  - constructor; intros; try (apply visible_str; reflexivity). cbn [t_plain ex_foreign] in H. apply andb_true_iff in H as [H1 H2]. apply N.leb_le in H1. apply N.ltb_lt in H2. lia.
  - intros X D. exists (walker_new (Cid true 85 0 []) []), [x12; x05; x12; x03; x61; x0a; x22; x0a; x02; x08; x01], None.
    unfold walk_next. cbn [walker_new w_current].
    assert (P : try_parse (ext_dbg X) [x12; x05; x12; x03; x61; x0a; x22; x0a; x02; x08; x01]
      = Ok (Flat [PBLink None (Some [x61; x0a; x22]) None] (UnixFs Directory None None [] None None None None))) by (destruct (ext_dbg X); vm_compute; reflexivity).
    rewrite P. cbn [f_data u_type]. unfold check_directory_supported. cbn -[ext_cid_decode finish_dir]. unfold finish_dir. cbn -[ext_cid_decode convert_link].
    assert (C : forall d, convert_link X d 0 (PBLink None (Some [x61; x0a; x22]) None) = Err (EInvalidCid (InvalidCidInLink 0 [] [x61; x0a; x22]))).
    { intros d. unfold convert_link, link_target, try_convert_cid. cbn [l_hash opt]. rewrite D. reflexivity. }
    rewrite C. do 3 eexists. split; reflexivity.
Qed.
