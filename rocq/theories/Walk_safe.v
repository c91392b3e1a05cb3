(** * Walk_safe: walks over orderly stores do not panic, but after a directory *)
From Verif Require Import Base Tac Wire Utf8 Cid Pb Parsed Reader Visit Dir Walk SpecFile SpecDir SpecWalk
  Dir_proofs Visit_proofs Visit_thms Walk_proofs Walk_sim Walk_steps Walk_thms.

Section safe.
Context (X : ext) (get : cid -> option bytes) (O : orderly X get).
Notation dbg := (ext_dbg X).

Definition fine {E A} (o : outcome E A) : Prop := o <> Panic /\ o <> Diverge.
Lemma fine_ok {E A} (a : A) : fine (E := E) (Ok a). Proof. split; discriminate. Qed.
Lemma fine_err {E A} (e : E) : fine (A := A) (Err e). Proof. split; discriminate. Qed.
Hint Resolve fine_ok fine_err : core.

(** ** Links *)

Definition bucket_target (c : cid) : Prop :=
  forall b g, get c = Some b -> try_parse dbg b = Ok g -> u_type (f_data g) = HAMTShard.
Definition link_ok (pc : list bytes) (l : walk_link) : Prop :=
  let '(c, name, d) := l in
  plain_name name /\ d = S (S (length pc)) \/ name = [] /\ d = S (length pc) /\ bucket_target c.

Lemma link_target_cases i l : (exists c, link_cid X l = Some c /\ link_target X i l = Ok c) \/ (exists e, link_target X i l = Err e).
Proof.
  unfold link_target, try_convert_cid, link_cid. destruct (l_hash l); cbn;
    destruct (ext_cid_decode X _); cbn; eauto.
Qed.

Lemma plain_slash n : plain_name n -> has_slash n = false.
Proof. intros (_ & _ & H). apply existsb_slash, H. Qed.

Lemma convert_fine d i l name : l_name l = Some name -> plain_name name ->
  (exists c, convert_link X d i l = Ok (c, name, d)) \/ (exists e, convert_link X d i l = Err e).
Proof.
  intros N P. unfold convert_link. destruct (link_target_cases i l) as [(c & _ & ->)|[e ->]]; [|right; cbn; eauto].
  cbn [bind]. rewrite N. destruct name as [|x s]; [destruct P; congruence|]. cbn [bind].
  rewrite (plain_slash _ P). left. eexists. reflexivity.
Qed.

Lemma sharded_fine d d2 i l prefix name : l_name l = Some (prefix ++ name) -> length prefix = 2%nat -> utf8_valid name = true ->
  (plain_name name \/ name = []) ->
  (exists c, link_cid X l = Some c /\ convert_sharded_link X d d2 i l = Ok (c, name, match name with [] => d2 | _ => d end))
  \/ (exists e, convert_sharded_link X d d2 i l = Err e).
Proof.
  intros N L U P. unfold convert_sharded_link. destruct (link_target_cases i l) as [(c & C & ->)|[e ->]]; [|right; cbn; eauto].
  left. exists c. split; [exact C|]. cbn [bind]. rewrite N.
  destruct name as [|x s].
  - rewrite app_nil_r. destruct prefix as [|p [|q [|? ?]]]; try discriminate L. reflexivity.
  - destruct P as [P|P]; [|discriminate P].
    assert (E : (2 <? blen (prefix ++ x :: s)) = true).
    { apply N.ltb_lt. rewrite blen_app, blen_cons. unfold blen at 1. rewrite L. lia. }
    rewrite E. rewrite (Dir_proofs.str_from_2 X prefix (x :: s) L ltac:(discriminate) U). cbn [bind fst snd].
    rewrite (plain_slash _ P). reflexivity.
Qed.

(** the links of a directory at the path [cs], converted *)
Lemma push_fine convert (good : walk_link -> Prop) : forall (ls : list pblink) j pending,
  (forall l, In l ls -> forall i, (exists e, convert i l = Ok e /\ good e) \/ (exists er, convert i l = Err er)) ->
  (exists new, push_links convert (rev (combine (seq j (length ls)) ls)) pending = (Ok tt, new ++ pending) /\ Forall good new)
  \/ (exists er q, push_links convert (rev (combine (seq j (length ls)) ls)) pending = (Err er, q)).
Proof.
  induction ls as [|l ls IH]; intros j pending H.
  - left. exists []. repeat split. constructor.
  - cbn [length seq combine rev]. rewrite push_links_app.
    destruct (IH (S j) pending (fun l' Hl => H l' (or_intror Hl))) as [(new & -> & G)|(er & q & ->)].
    + cbn [push_links]. destruct (H l (or_introl eq_refl) j) as [(e & -> & Ge)|(er & ->)].
      * left. exists (e :: new). repeat split. constructor; assumption.
      * right. eauto.
    + right. eauto.
Qed.

Lemma finish_fine w links convert entry k :
  (forall l, In l links -> forall i, (exists e, convert i l = Ok e) \/ (exists er, convert i l = Err er)) ->
  fine entry -> fine (fst (fst (finish_dir w links convert entry k))).
Proof.
  intros H F. unfold finish_dir, enumerate_rev.
  destruct (push_fine convert (fun _ => True) links 0 (w_pending w)) as [(new & -> & _)|(er & q & ->)].
  - intros l Hl i. destruct (H l Hl i) as [(e & E)|E]; [left; eauto|right; exact E].
  - destruct (new ++ w_pending w), entry as [[? ?]| | |]; cbn; auto; destruct F; congruence.
  - cbn. auto.
Qed.
(** ...and what the new ones look like *)
Lemma dir_links f depth (cs : list bytes) new : depth = S (length cs) -> orderly_dir f ->
  Forall2 (fun l e => exists i, convert_link X (S depth) i l = Ok e) (f_links f) new ->
  Forall (fun e => link_ok cs e /\ snd (fst e) <> []) new.
Proof.
  intros -> D F. unfold orderly_dir in D. induction F as [|l e ls new [i C] F IH]; [constructor|]. constructor.
  - destruct (D l (or_introl eq_refl)) as (name & N & P).
    destruct (convert_fine (S (S (length cs))) i l name N P) as [(c & E)|(er & E)]; rewrite E in C; [|discriminate].
    injection C as <-. cbn. split; [left; auto|apply P].
  - apply IH. intros l' Hl. apply D. right. exact Hl.
Qed.
Lemma shard_links f depth (cs : list bytes) new : depth = S (length cs) -> orderly_shard X get f ->
  Forall2 (fun l e => exists i, convert_sharded_link X (S depth) depth i l = Ok e) (f_links f) new ->
  Forall (fun e => link_ok cs e /\ (snd (fst e) = [] -> snd e = depth)) new.
Proof.
  intros -> D F. unfold orderly_shard in D. induction F as [|l e ls new [i C] F IH]; [constructor|]. constructor.
  - destruct (D l (or_introl eq_refl)) as (prefix & name & N & L & U & P). apply Text_proofs.valid_text in U.
    destruct (sharded_fine (S (S (length cs))) (S (length cs)) i l prefix name N L U) as [(c & C2 & E)|(er & E)]; [tauto| |];
      rewrite E in C; [|discriminate]. injection C as <-. cbn.
    destruct P as [P|[-> P]].
    + destruct name as [|x s]; [destruct P; congruence|]. split; [left; auto|discriminate].
    + split; [right|reflexivity]. repeat split. intros b g G T. eapply P; eassumption.
  - apply IH. intros l' Hl. apply D. right. exact Hl.
Qed.

(** the stack: the path of each link is a prefix of the path of the one before *)
Inductive lchain : list bytes -> list walk_link -> Prop :=
| lc_nil : forall cs, lchain cs []
| lc_cons : forall pc e l ls, link_ok pc l -> lchain pc ls -> lchain (pc ++ e) (l :: ls).
Lemma lchain_longer pc e ls : lchain pc ls -> lchain (pc ++ e) ls.
Proof. intros H. destruct H; [constructor|]. rewrite <- app_assoc. constructor; assumption. Qed.
Lemma lchain_app cs new ls : Forall (link_ok cs) new -> lchain cs ls -> lchain cs (new ++ ls).
Proof.
  intros F H. induction F as [|l new L _ IH]; [exact H|]. cbn [app]. rewrite <- (app_nil_r cs) at 1. constructor; assumption.
Qed.
Lemma lchain_inv cs l ls : lchain cs (l :: ls) -> exists pc e, cs = pc ++ e /\ link_ok pc l /\ lchain pc ls.
Proof. intros H. inv H. eauto. Qed.

(** ** Files *)

(** a pending part of a file *)
Definition part_ok (p : pending_link) : Prop :=
  forall b, get (fst p) = Some b -> exists g, try_parse dbg b = Ok g
    /\ (dbg = true -> forall size, u_filesize (f_data g) = Some size -> fst (snd p) + size < two64).

Lemma from_parts_fine f off md :
  (u_type (f_data f) = File \/ u_type (f_data f) = Raw ->
   exists fs, u_filesize (f_data f) = Some fs /\ (dbg = true -> off + fs < two64)) ->
  fine (from_parts X f off md) /\ forall e, from_parts X f off md <> Err (ReadErr e).
Proof.
  intros H.
  assert (D : (u_type (f_data f) = File \/ u_type (f_data f) = Raw) \/ exists t, from_parts X f off md = Err (UnexpectedType t)).
  { unfold from_parts. destruct (u_type (f_data f)); eauto. }
  destruct D as [T|(t & ->)]; [|split; [auto|discriminate]].
  destruct (H T) as (fs & Hf & Ho). split.
  - apply from_parts_total; [congruence|]. destruct dbg; [right|left; reflexivity]. intros fs' E. rewrite Hf in E.
    injection E as <-. apply Ho. reflexivity.
  - intros e. unfold from_parts. rewrite Hf. destruct (u_type (f_data f)); try discriminate;
    (destruct (negb _); [discriminate|]); (destruct (_ && is_nil (f_links f)); [discriminate|]);
    (destruct (u_hashtype (f_data f)); [discriminate|]); (destruct (u_fanout (f_data f)); [discriminate|]);
    destruct (is_nil (f_links f)); unfold add64; destruct (_ <? two64); try discriminate; destruct (ext_dbg X); discriminate.
Qed.
Lemma select_err : forall z n base e, select_links X n base z None <> Err (ReadErr e).
Proof.
  induction z as [|[l z] zs IH]; intros n base e; [discriminate|]. cbn [select_links block_is_in_target_range].
  unfold add64. destruct (base + z <? two64); [|destruct (ext_dbg X)]; cbn [bind]; try discriminate;
  unfold to_pending; (destruct (ext_cid_decode X _); cbn [bind]; [|discriminate]);
  match goal with |- context [select_links X ?a ?b zs None] => specialize (IH a b e); destruct (select_links X a b zs None) end; cbn; congruence.
Qed.

(** the parts of an orderly file block at the offset [base] *)
Lemma select_parts f size : orderly_file X get f -> u_filesize (f_data f) = Some size ->
  length (f_links f) = length (u_blocksizes (f_data f)) ->
  forall base sel, (dbg = true -> base + size < two64) ->
  select_links X 0 base (combine (f_links f) (u_blocksizes (f_data f))) None = Ok sel -> Forall part_ok sel.
Proof.
  intros [(size' & E & Sz) OF] E2 L base sel Hb H. rewrite E in E2. injection E2 as ->.
  assert (G : forall (ls : list pblink) (zs : list N) n b0 sel,
    (forall i l c b, nth_error ls i = Some l -> link_cid X l = Some c -> get c = Some b ->
     exists g, try_parse dbg b = Ok g
       /\ (dbg = true -> forall z size, nth_error zs i = Some z -> u_filesize (f_data g) = Some size -> size <= z)) ->
    (dbg = true -> b0 + sumN zs < two64) -> length ls = length zs ->
    select_links X n b0 (combine ls zs) None = Ok sel -> Forall part_ok sel).
  { clear. induction ls as [|l ls IH]; intros [|z zs] n b0 sel OF Hb L H; try discriminate L; [injection H as <-; constructor|].
    cbn [combine select_links block_is_in_target_range] in H. apply bind_ok in H as (nx & Hn & H).
    apply bind_ok in H as (p & Hp & H). apply bind_ok in H as (ps & Hps & H). injection H as <-.
    assert (Nx : dbg = true -> nx = b0 + z).
    { intros D. unfold add64 in Hn. rewrite D in Hn. destruct (_ <? _); congruence. }
    constructor.
    - assert (Ep : link_cid X l = Some (fst p) /\ snd p = (b0, nx)).
      { unfold to_pending in Hp. unfold link_cid. destruct (l_hash l); cbn in Hp |- *;
          destruct (ext_cid_decode X _); try discriminate; injection Hp as <-; auto. }
      destruct Ep as [Ep Es]. intros b Gb. destruct (OF 0%nat l (fst p) b eq_refl Ep Gb) as (g & Pg & Q). exists g. split; [exact Pg|].
      intros D size Hs. specialize (Q D z size eq_refl Hs). specialize (Hb D). rewrite sumN_cons in Hb. rewrite Es. cbn [fst]. lia.
    - apply (IH zs (S n) nx ps); [intros i; apply (OF (S i))| |cbn in L; lia|exact Hps].
      intros D. specialize (Hb D). rewrite sumN_cons in Hb. rewrite (Nx D). lia. }
  eapply (G _ _ 0%nat base); [exact OF| |exact L|exact H]. intros D. specialize (Hb D). specialize (Sz D). lia.
Qed.

Lemma select_fine f size base n : orderly_file X get f -> u_filesize (f_data f) = Some size ->
  length (f_links f) = length (u_blocksizes (f_data f)) -> (dbg = true -> base + size < two64) ->
  fine (select_links X n base (combine (f_links f) (u_blocksizes (f_data f))) None).
Proof.
  intros [(size' & E & Sz) _] E2 L Hb. rewrite E in E2. injection E2 as ->. apply select_total.
  rewrite map_snd_combine by exact L. destruct dbg; [right|left; reflexivity]. specialize (Sz eq_refl). specialize (Hb eq_refl). lia.
Qed.

Lemma start_fine b f k : clean_cache k -> try_parse dbg b = Ok f -> (u_type (f_data f) = File \/ u_type (f_data f) = Raw) ->
  orderly_file X get f ->
  fine (walk_read (fst (start_from_parsed X None f k)))
  /\ forall out size md v, fst (start_from_parsed X None f k) = Ok (out, size, md, Some v) ->
     fv_range v = None /\ fv_pending v <> [] /\ Forall part_ok (fv_pending v).
Proof.
  intros Hk P T OF. pose proof OF as [(size & Sz & _) _].
  pose proof (proj2 (try_parse_parsed _ _ _ P)) as B.
  assert (S64 : size < two64) by (apply (proj1 B); exact Sz).
  unfold start_from_parsed, from_parsed.
  destruct (from_parts_fine f 0 (metadata_of (f_data f))) as [F1 F2]; [intros _; exists size; split; [exact Sz|intros _; lia]|].
  destruct (from_parts X f 0 (metadata_of (f_data f))) as [fr|er| |] eqn:E; try (destruct F1; congruence).
  2: { cbn. split; [destruct er; cbn; auto; congruence|discriminate]. }
  apply from_parts_ok in E as (_ & _ & _ & L & fs & s & FS & _ & ->). unfold fs_of in FS. rewrite Sz in FS. injection FS as <-.
  unfold start_from_reader, fr_content. cbn [fr_links fr_data fr_offset fr_blocksizes fr_metadata fr_file_size fr_end maybe_target_slice bind].
  destruct (is_nil (f_links f)); [cbn; split; [auto|discriminate]|].
  assert (CE : opt k [] (fun i : cache => i) = []) by (destruct Hk as [-> | ->]; reflexivity).
  pose proof (select_fine f size 0 0 OF Sz L ltac:(intros _; lia)) as F3.
  pose proof (select_err (combine (f_links f) (u_blocksizes (f_data f))) 0 0) as F4.
  pose proof (fun sel => select_parts f size OF Sz L 0 sel ltac:(intros _; lia)) as F5.
  destruct (select_links X 0 0 _ None) as [sel|er| |]; try (destruct F3; congruence).
  - rewrite CE. cbn [app tr_file_size]. destruct sel as [|p sel]; cbn [fst walk_read]; (split; [auto|]); [discriminate|].
    intros out size0 md v [= <- <- <- <-]. cbn. split; [reflexivity|]. split; [discriminate|]. apply F5. reflexivity.
  - cbn [fst walk_read]. split; [destruct er; auto; exfalso; eapply F4; reflexivity|discriminate].
Qed.

Lemma continue_fine v b k c r pending : fv_range v = None -> fv_pending v = (c, r) :: pending -> Forall part_ok (fv_pending v) ->
  get c = Some b ->
  fine (walk_read (fst (continue_walk X v b k)))
  /\ forall out v', fst (continue_walk X v b k) = Ok (out, Some v') ->
     fv_range v' = None /\ fv_pending v' <> [] /\ Forall part_ok (fv_pending v').
Proof.
  intros R Pd PO G. rewrite Pd in PO. inversion PO as [|? ? PO1 PO2]; subst. destruct (PO1 b G) as (f & P & Ho). cbn [fst snd] in Ho.
  destruct (O c b G) as (_ & _ & OO). specialize (OO f P).
  unfold continue_walk. rewrite Pd. unfold tr_continue_walk.
  destruct (check_is_suitable_next _ _ r); [cbn; split; [auto|discriminate]|].
  unfold from_continued. rewrite P. cbn [map_err bind].
  destruct (u_mode (f_data f)); [cbn; split; [auto|discriminate]|]. destruct (u_mtime (f_data f)); [cbn; split; [auto|discriminate]|].
  assert (OF : u_type (f_data f) = File \/ u_type (f_data f) = Raw -> orderly_file X get f)
    by (intros T; destruct T as [T|T]; rewrite T in OO; exact OO).
  destruct (from_parts_fine f (fst r) (tr_metadata (fv_state v))) as [F1 F2].
  { intros T. destruct (OF T) as [(size & Sz & _) _]. exists size. split; [exact Sz|]. intros D. apply (Ho D _ Sz). }
  destruct (from_parts X f (fst r) _) as [fr|er| |] eqn:E; try (destruct F1; congruence).
  2: { cbn. split; [destruct er; cbn; auto; exfalso; eapply F2; reflexivity|discriminate]. }
  apply from_parts_ok in E as (T & _ & _ & L & fs & s & FS & _ & ->). specialize (OF T). pose proof OF as [(size & Sz & _) _].
  unfold fr_content. cbn [fr_links fr_data fr_offset fr_blocksizes fr_metadata fr_file_size fr_end]. rewrite R. cbn [maybe_target_slice].
  destruct (is_nil (f_links f)) eqn:NL.
  - destruct pending as [|p pending]; cbn [fst walk_read]; (split; [auto|]); [discriminate|].
    intros out v' [= <- <-]. cbn. split; [reflexivity|]. split; [discriminate|exact PO2].
  - pose proof (select_fine f size (fst r) 0 OF Sz L ltac:(intros D; apply (Ho D _ Sz))) as F3.
    pose proof (select_err (combine (f_links f) (u_blocksizes (f_data f))) 0 (fst r)) as F4.
    pose proof (fun sel => select_parts f size OF Sz L (fst r) sel ltac:(intros D; apply (Ho D _ Sz))) as F5.
    destruct (select_links X 0 (fst r) _ None) as [sel|er| |] eqn:SE; try (destruct F3; congruence).
    + cbn [bind fst walk_read]. split; [auto|]. intros out v' [= <- <-]. cbn. split; [reflexivity|]. split.
      * intros N. apply app_eq_nil in N as [-> ->]. destruct (f_links f) as [|l ls]; [discriminate|].
        destruct (u_blocksizes (f_data f)) as [|z zs]; [discriminate|]. cbn [combine select_links block_is_in_target_range] in SE.
        apply bind_ok in SE as (? & _ & SE). apply bind_ok in SE as (? & _ & SE). apply bind_ok in SE as (? & _ & SE). discriminate.
      * apply Forall_app. split; [apply F5; reflexivity|exact PO2].
    + cbn [bind fst walk_read]. split; [destruct er; auto; exfalso; eapply F4; reflexivity|discriminate].
Qed.

(** ** The invariant *)

Definition links (w : walker) : list walk_link :=
  match w_next w with Some n => [n] | None => [] end ++ w_pending w.
Definition kind_ok (ie : inner_entry) (ls : list walk_link) : Prop :=
  match ie_kind ie with
  | KRootDirectory => Forall (fun l : walk_link => snd (fst l) <> []) ls
  | KBucketAtRoot => Forall (fun l : walk_link => snd (fst l) = [] -> snd l = ie_depth ie) ls
  | KFile (Some v) _ => fv_range v = None /\ fv_pending v <> [] /\ Forall part_ok (fv_pending v)
  | _ => True
  end.
Definition after_dir (items : list continued) : Prop := exists pre c p md, items = pre ++ [WDirectory c p md].
Definition Safe (items : list continued) (w : walker) : Prop :=
  match w_current w with
  | None => exists root name, (name = [] \/ loose_name name) /\ w = walker_new root name
  | Some ie => exists cs, at_path ie cs /\ path_names cs /\ lchain cs (links w) /\ kind_ok ie (links w)
      /\ (ie_kind ie = KDirectory -> after_dir items)
  end.

Lemma links_hd (ls : list walk_link) ie c : links (Walker (Some ie) (hd_error ls) (tl ls) c) = ls.
Proof. destruct ls; reflexivity. Qed.

Lemma as_bucket_at ie cs pc e c ie' : at_path ie cs -> path_names cs -> cs = pc ++ e ->
  (ie_kind ie = KBucketAtRoot -> S (length pc) = ie_depth ie) ->
  as_bucket ie c [] (S (length pc)) = Ok ie' -> at_path ie' pc /\ path_names pc.
Proof.
  intros AP PL -> D H. pose proof H as H2. apply as_bucket_fields in H2 as [(K & -> & DE)|(K & _)].
  - destruct AP as [A1 A2]. rewrite app_length in A2. assert (e = []) by (destruct e; [reflexivity|cbn in A2; lia]). subst e.
    rewrite app_nil_r in *. split; [split; [exact A1|lia]|exact PL].
  - rewrite (as_bucket_ok ie (pc ++ e) pc e c AP) in H; [| |exact PL|reflexivity].
    + injection H as <-. split; [split; reflexivity|]. apply path_app in PL. apply PL.
    + destruct K as [-> | [-> | [[z ->] | ->]]]; exact Logic.I.
Qed.

Lemma root_name_facts name : name = [] \/ loose_name name -> exists cs,
  path_push [] name = unparts cs /\ (if is_nil name then 1%nat else 2%nat) = S (length cs) /\ path_names cs.
Proof.
  intros [-> |P]; [exists []; apply root_facts; left; auto|exists [name]; apply root_facts; right; auto].
Qed.

Lemma safe_step items w b it w' c others : Safe items w -> w_pending_links w = Ok (c, others) -> get c = Some b ->
  nexts X w b it w' -> Safe (items ++ [it]) w'.
Proof.
  intros SI PL G N. destruct N as [ie v size out step C K CW|f d name depth ie it new NF P N E].
  - unfold Safe in SI. rewrite C in SI. destruct SI as (cs & AP & PC & LC & KO & _). unfold kind_ok in KO. rewrite K in KO.
    destruct KO as (R & NE & PO). unfold Safe. cbn [w_current]. exists cs. split; [exact AP|]. split; [exact PC|]. split; [exact LC|].
    split; [|discriminate]. unfold kind_ok. cbn [ie_kind]. destruct step as [v'|]; [|exact Logic.I].
    destruct (fv_pending v) as [|[c0 r] pending] eqn:Pd; [congruence|].
    assert (c0 = c).
    { unfold w_pending_links in PL. rewrite C in PL. cbn [option_map] in PL. rewrite K in PL. unfold pending_links in PL. rewrite Pd in PL. congruence. }
    subst c0. destruct (continue_fine v b None c r pending R Pd ltac:(rewrite Pd; exact PO) G) as [_ Q]. eapply Q. exact CW.
  - pose proof (asked_next _ _ _ _ _ _ PL NF N) as <-. destruct (O c b G) as (_ & _ & OO). specialize (OO f P).
    unfold Safe. cbn [w_current]. rewrite links_hd.
    assert (Root : w_current w = None -> exists cs, (name = [] \/ loose_name name) /\ w_pending w = []
       /\ path_push [] name = unparts cs /\ depth = S (length cs) /\ path_names cs).
    { intros C. unfold Safe in SI. rewrite C in SI. destruct SI as (r & nm & Hn & ->). cbn in N. injection N as <- <- <-.
      destruct (root_name_facts nm Hn) as (cs & Q). exists cs. tauto. }
    assert (Mid : forall ie0, w_current w = Some ie0 -> exists pc e, at_path ie0 (pc ++ e) /\ path_names (pc ++ e)
       /\ link_ok pc (c, name, depth) /\ lchain pc (w_pending w) /\ kind_ok ie0 ((c, name, depth) :: w_pending w)
       /\ (ie_kind ie0 = KDirectory -> after_dir items)).
    { intros ie0 C. unfold Safe in SI. rewrite C in SI. destruct SI as (cs & AP & PC & LC & KO & AD).
      unfold links in LC, KO. rewrite N in LC, KO. cbn [app] in LC, KO.
      apply lchain_inv in LC as (pc & e & -> & LO & LC). exists pc, e. auto 10. }
    assert (Ent : forall ie0 k md, w_current w = Some ie0 -> as_entry X ie0 k c name depth md = Ok ie ->
       (name = [] -> u_type (f_data f) <> HAMTShard) ->
       exists pc, at_path ie (pc ++ [name]) /\ path_names (pc ++ [name]) /\ lchain pc (w_pending w)).
    { intros ie0 k md C A NB. destruct (Mid ie0 C) as (pc & e & AP & PC & LO & LC & _). exists pc.
      destruct LO as [[PN ->]|(-> & -> & BT)].
      - rewrite (as_entry_ok X get ie0 (pc ++ e) pc e k c name md AP (NF _ C) PC eq_refl (path_snoc _ _ (path_app _ _ PC) PN)) in A. injection A as <-.
        split; [split; [reflexivity|cbn; rewrite app_length; cbn; lia]|]. split; [|exact LC].
        apply path_snoc; [eapply path_app, PC|exact PN].
      - exfalso. apply (NB eq_refl). eapply BT; eassumption. }
    assert (Leaf : forall k md, (k = KFile None 0 \/ True) -> 
       match w_current w with
       | None => ie = new_root k c md name depth
       | Some ie0 => as_entry X ie0 k c name depth md = Ok ie
       end -> u_type (f_data f) <> HAMTShard ->
       exists cs, at_path ie cs /\ path_names cs /\ lchain cs (w_pending w)).
    { intros k md _ A NB. destruct (w_current w) as [ie0|] eqn:C.
      - destruct (Ent ie0 k md eq_refl A (fun _ => NB)) as (pc & A1 & A2 & A3). exists (pc ++ [name]). split; [exact A1|].
        split; [exact A2|]. apply lchain_longer, A3.
      - destruct (Root eq_refl) as (cs & _ & EP & E1 & E2 & E3). subst ie. exists cs. split; [split; [exact E1|exact E2]|].
        split; [exact E3|]. rewrite EP. constructor. }
    inversion E as [new' C T S F|ie0 ie' new' C T S F A|new' C T S F|ie0 ie' new' C T S F NE A|ie0 ie' new' C T S F NE A
      |ie' out size step T S F|ie' T F]; subst.
    + (* root directory *)
      destruct (Root C) as (cs & _ & EP & E1 & E2 & E3). rewrite T in OO. pose proof (dir_links f depth cs new E2 OO F) as L.
      exists cs. split; [split; [exact E1|exact E2]|]. split; [exact E3|]. rewrite EP, app_nil_r. split.
      * rewrite <- (app_nil_r new). apply lchain_app; [|constructor]. eapply Forall_impl; [|exact L]. intros a [Q _]. exact Q.
      * split; [|discriminate]. unfold kind_ok. cbn. eapply Forall_impl; [|exact L]. intros a [_ Q]. exact Q.
    + (* directory *)
      rewrite T in OO. destruct (Ent ie0 KDirectory _ C A ltac:(intros _; rewrite T; discriminate)) as (pc & A1 & A2 & A3).
      apply as_entry_fields in A as (_ & _ & K & _ & D & _).
      pose proof (dir_links f depth (pc ++ [name]) new ltac:(rewrite <- D; apply A1) OO F) as L.
      exists (pc ++ [name]). split; [exact A1|]. split; [exact A2|]. split.
      * apply lchain_app; [|apply lchain_longer, A3]. eapply Forall_impl; [|exact L]. intros a [Q _]. exact Q.
      * split; [unfold kind_ok; rewrite K; exact Logic.I|]. intros _. repeat eexists.
    + (* root shard *)
      destruct (Root C) as (cs & _ & EP & E1 & E2 & E3). rewrite T in OO. pose proof (shard_links f depth cs new E2 OO F) as L.
      exists cs. split; [split; [exact E1|exact E2]|]. split; [exact E3|]. rewrite EP, app_nil_r. split.
      * rewrite <- (app_nil_r new). apply lchain_app; [|constructor]. eapply Forall_impl; [|exact L]. intros a [Q _]. exact Q.
      * split; [|discriminate]. unfold kind_ok. cbn. eapply Forall_impl; [|exact L]. intros a [_ Q]. exact Q.
    + (* shard *)
      rewrite T in OO. destruct (Ent ie0 KRootBucket _ C A ltac:(intros ->; congruence)) as (pc & A1 & A2 & A3).
      apply as_entry_fields in A as (_ & _ & K & _ & D & _).
      pose proof (shard_links f depth (pc ++ [name]) new ltac:(rewrite <- D; apply A1) OO F) as L.
      exists (pc ++ [name]). split; [exact A1|]. split; [exact A2|]. split.
      * apply lchain_app; [|apply lchain_longer, A3]. eapply Forall_impl; [|exact L]. intros a [Q _]. exact Q.
      * split; [unfold kind_ok; rewrite K; exact Logic.I|]. rewrite K. discriminate.
    + (* bucket *)
      rewrite T in OO. destruct (Mid ie0 C) as (pc & e & AP & PC & LO & LC & KO & _).
      destruct LO as [[PN _]|(_ & -> & BT)]; [destruct PN; congruence|].
      destruct (as_bucket_at ie0 (pc ++ e) pc e c ie AP PC eq_refl) as [A1 A2]; [|exact A|].
      { intros K. unfold kind_ok in KO. rewrite K in KO. inversion KO as [|? ? Q _]; subst. apply Q. reflexivity. }
      pose proof (shard_links f (Datatypes.S (length pc)) pc new eq_refl OO F) as L.
      exists pc. split; [exact A1|]. split; [exact A2|]. split.
      * apply lchain_app; [|exact LC]. eapply Forall_impl; [|exact L]. intros a [Q _]. exact Q.
      * apply as_bucket_fields in A as [(K & -> & DE)|(_ & _ & K & _)].
        -- split; [|rewrite K; discriminate]. unfold kind_ok in *. rewrite K in *. apply Forall_app. split.
           ++ eapply Forall_impl; [|exact L]. intros a [_ Q] Z. rewrite DE. apply Q, Z.
           ++ inversion KO; assumption.
        -- split; [unfold kind_ok; rewrite K; exact Logic.I|]. rewrite K. discriminate.
    + (* file *)
      assert (OF : orderly_file X get f) by (destruct T as [T|T]; rewrite T in OO; exact OO).
      destruct (Leaf _ _ (or_intror Logic.I) F ltac:(destruct T as [-> | ->]; discriminate)) as (cs & A1 & A2 & A3).
      assert (K : ie_kind ie = KFile step size) by (destruct (w_current w); [apply as_entry_fields in F; tauto|subst ie; reflexivity]).
      exists cs. split; [exact A1|]. split; [exact A2|]. split; [exact A3|]. rewrite K. split; [|discriminate].
      unfold kind_ok. rewrite K. destruct step as [v|]; [|exact Logic.I].
      destruct (start_fine b f None (or_introl eq_refl) P T OF) as [_ Q]. eapply Q. exact S.
    + (* symlink *)
      destruct (Leaf _ _ (or_intror Logic.I) F ltac:(rewrite T; discriminate)) as (cs & A1 & A2 & A3).
      assert (K : ie_kind ie = KSymlink) by (destruct (w_current w); [apply as_entry_fields in F; tauto|subst ie; reflexivity]).
      exists cs. split; [exact A1|]. split; [exact A2|]. split; [exact A3|]. rewrite K. split; [|discriminate].
      unfold kind_ok. rewrite K. exact Logic.I.
Qed.

Lemma safe_next items w b k c others : Safe items w -> w_pending_links w = Ok (c, others) -> get c = Some b -> clean_cache k ->
  fine (fst (fst (walk_next X w b k)))
  \/ (after_dir items /\ exists f, try_parse dbg b = Ok f /\ u_type (f_data f) = HAMTShard).
Proof.
  intros SI PL G Hk.
  destruct (match w_current w with Some ie => in_file (ie_kind ie) | None => false end) eqn:IF.
  - left. destruct (w_current w) as [[ic [| | | | |[v|] sz|] ip im id]|] eqn:C; try discriminate IF.
    unfold walk_next. rewrite C. unfold next_in_file.
    unfold Safe in SI. rewrite C in SI. destruct SI as (cs & _ & _ & _ & (R & NE & PO) & _).
    destruct (fv_pending v) as [|[c0 r] pending] eqn:Pd; [congruence|].
    assert (c0 = c).
    { unfold w_pending_links in PL. rewrite C in PL. cbn [option_map ie_kind] in PL. unfold pending_links in PL. rewrite Pd in PL. congruence. }
    subst c0. destruct (continue_fine v b k c r pending R Pd ltac:(rewrite Pd; exact PO) G) as [Q _].
    destruct (continue_walk X v b k) as [r0 k']. cbn [fst] in Q. destruct (walk_read r0) as [[? ?]| | |]; cbn; auto; destruct Q; congruence.
  - assert (NF : forall ie, w_current w = Some ie -> in_file (ie_kind ie) = false) by (intros ie E; rewrite E in IF; exact IF).
    destruct (O c b G) as (OP & OD & OO).
    destruct (try_parse dbg b) as [f|er| |] eqn:P; try congruence.
    2: { left. unfold walk_next. rewrite P. destruct (w_current w) as [[? [| | | | |[v|] ?|] ? ? ?]|]; cbn; auto; specialize (NF _ eq_refl); discriminate NF. }
    specialize (OO f eq_refl). rewrite (next_not_file X w b k NF f P).
    assert (FF : forall er k0, fine (fst (fst (failed w (Err er) k0)))) by (intros; cbn; auto).
    assert (N : exists name depth, w_next w = Some (c, name, depth)).
    { unfold w_pending_links in PL. destruct (w_next w) as [[[c0 nm] d]|].
      - exists nm, d. destruct (w_current w) as [ie|]; cbn [option_map] in PL; [specialize (NF _ eq_refl); destruct (ie_kind ie) as [| | | | |[v|] z|]; try discriminate NF|];
          cbn in PL; injection PL; intros; subst; reflexivity.
      - destruct (w_current w) as [ie|]; cbn [option_map] in PL; [specialize (NF _ eq_refl); destruct (ie_kind ie) as [| | | | |[v|] z|]; try discriminate NF|]; discriminate PL. }
    destruct N as (name & depth & N). rewrite N.
    assert (Ent : forall ie0 kd md, w_current w = Some ie0 -> (name = [] -> u_type (f_data f) <> HAMTShard) ->
       exists ie, as_entry X ie0 kd c name depth md = Ok ie).
    { intros ie0 kd md C NB. unfold Safe in SI. rewrite C in SI. destruct SI as (cs & AP & PC & LC & KO & AD).
      unfold links in LC. rewrite N in LC. cbn [app] in LC. apply lchain_inv in LC as (pc & e & -> & LO & LC).
      destruct LO as [[PN ->]|(-> & -> & BT)].
      - rewrite (as_entry_ok X get ie0 (pc ++ e) pc e kd c name md AP (NF _ C) PC eq_refl (path_snoc _ _ (path_app _ _ PC) PN)). eauto.
      - exfalso. apply (NB eq_refl). eapply BT; eassumption. }
    destruct (u_type (f_data f)) eqn:T.
    + left. destruct (start_fine b f k Hk P (or_intror T) OO) as [Q _]. unfold idle_default.
      destruct (start_from_parsed X None f k) as [r k']. cbn [fst] in Q.
      destruct (walk_read r) as [[[[bs size] md] step]|er| |]; try (destruct Q; congruence); [|apply FF]. cbv zeta.
      destruct (w_current w) as [ie0|] eqn:C.
      * destruct (Ent ie0 (KFile step size) md eq_refl ltac:(discriminate)) as [ie ->]. destruct (w_pending w); cbn; auto.
      * destruct (w_pending w); cbn; auto.
    + left. destruct (check_dir_ok f T) as [[_ ->]|[_ ->]]; [|apply FF].
      apply finish_fine.
      * intros l Hl i. destruct (OO l Hl) as (nm & Nm & Pn).
        destruct (convert_fine (S depth) i l nm Nm Pn) as [[c0 Q]|Q]; [left; eauto|right; exact Q].
      * destruct (w_current w) as [ie0|] eqn:C; [|auto]. destruct (Ent ie0 KDirectory (metadata_of (f_data f)) eq_refl ltac:(discriminate)) as [ie ->].
        cbn. auto.
    + left. destruct (start_fine b f k Hk P (or_introl T) OO) as [Q _]. unfold idle_default.
      destruct (start_from_parsed X None f k) as [r k']. cbn [fst] in Q.
      destruct (walk_read r) as [[[[bs size] md] step]|er| |]; try (destruct Q; congruence); [|apply FF]. cbv zeta.
      destruct (w_current w) as [ie0|] eqn:C.
      * destruct (Ent ie0 (KFile step size) md eq_refl ltac:(discriminate)) as [ie ->]. destruct (w_pending w); cbn; auto.
      * destruct (w_pending w); cbn; auto.
    + left. apply FF.
    + left. destruct (w_current w) as [ie0|] eqn:C.
      * destruct (Ent ie0 KSymlink (metadata_of (f_data f)) eq_refl ltac:(discriminate)) as [ie ->]. destruct (w_pending w); cbn; auto.
      * destruct (w_pending w); cbn; auto.
    + assert (H : (after_dir items /\ True) \/ fine (fst (fst (match check_supported f with
        | Ok _ => finish_dir w (f_links f) (convert_sharded_link X (S depth) depth)
          (match w_current w with
           | None => Ok (new_root KBucketAtRoot c (metadata_of (f_data f)) name depth,
                         WRootDirectory c (path_push [] name) (metadata_of (f_data f)))
           | Some ie =>
             if is_nil name then
               do ie <- as_bucket ie c name depth; Ok (ie, WBucket (ie_cid ie) (ie_path ie))
             else
               do ie <- as_entry X ie KRootBucket c name depth (metadata_of (f_data f));
               Ok (ie, WRootDirectory (ie_cid ie) (ie_path ie) (ie_metadata ie))
           end) k
        | Err e => failed w (Err (EShard e)) k
        | Panic => failed w Panic k
        | Diverge => failed w Diverge k
        end)))).
      2: { destruct H as [[H _]|H]; [right; split; [exact H|]; exists f; auto|left; exact H]. }
      destruct (check_shard_ok f T) as [[_ ->]|[_ [[_ ->]|[_ ->]]]]; try (right; apply FF).
      assert (LS : forall l, In l (f_links f) -> forall i, (exists e, convert_sharded_link X (S depth) depth i l = Ok e)
        \/ (exists er, convert_sharded_link X (S depth) depth i l = Err er)).
      { intros l Hl i. destruct (OO l Hl) as (pf & nm & Nm & L2 & U & Pn). apply Text_proofs.valid_text in U.
        destruct (sharded_fine (S depth) depth i l pf nm Nm L2 U) as [(c0 & _ & Q)|Q]; [tauto|left; eauto|right; exact Q]. }
      destruct (w_current w) as [ie0|] eqn:C; [|right; apply finish_fine; auto].
      destruct name as [|x nm]; cbn [is_nil].
      * unfold Safe in SI. rewrite C in SI. destruct SI as (cs & AP & PC & LC & KO & AD).
        unfold links in LC, KO. rewrite N in LC, KO. cbn [app] in LC, KO. apply lchain_inv in LC as (pc & e & -> & LO & LC).
        destruct LO as [[PN _]|(_ & -> & BT)]; [destruct PN; congruence|].
        destruct (ie_kind ie0) as [| | | | |[v|] sz|] eqn:K.
        -- unfold kind_ok in KO. rewrite K in KO. inversion KO as [|? ? Q _]; subst. cbn in Q. congruence.
        -- right. apply finish_fine; [exact LS|]. unfold kind_ok in KO. rewrite K in KO. inversion KO as [|? ? Q _]; subst.
           cbn in Q. unfold as_bucket. rewrite K, <- (Q eq_refl), Nat.eqb_refl. cbn. auto.
        -- right. apply finish_fine; [exact LS|]. rewrite (as_bucket_ok ie0 (pc ++ e) pc e c AP ltac:(rewrite K; exact Logic.I) PC eq_refl). cbn. auto.
        -- right. apply finish_fine; [exact LS|]. rewrite (as_bucket_ok ie0 (pc ++ e) pc e c AP ltac:(rewrite K; exact Logic.I) PC eq_refl). cbn. auto.
        -- left. split; [apply AD; reflexivity|exact Logic.I].
        -- specialize (NF _ eq_refl). rewrite K in NF. discriminate NF.
        -- right. apply finish_fine; [exact LS|]. rewrite (as_bucket_ok ie0 (pc ++ e) pc e c AP ltac:(rewrite K; exact Logic.I) PC eq_refl). cbn. auto.
        -- right. apply finish_fine; [exact LS|]. rewrite (as_bucket_ok ie0 (pc ++ e) pc e c AP ltac:(rewrite K; exact Logic.I) PC eq_refl). cbn. auto.
      * right. apply finish_fine; [exact LS|]. destruct (Ent ie0 KRootBucket (metadata_of (f_data f)) eq_refl ltac:(discriminate)) as [ie ->]. cbn. auto.
Qed.

Lemma safe_walks root name bs asked items w : ~ In x2f name ->
  walks X (store get) (walker_new root name) bs asked items w -> Safe items w.
Proof.
  intros Hn%name_cases H. apply (walks_items X (store get) Safe) in H; [exact H| |].
  - intros h w0 c others b it w1 SI _ PL G N. eapply safe_step; eassumption.
  - exists root, name. auto.
Qed.

End safe.
