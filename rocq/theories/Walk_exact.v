(** * Walk_exact: walks do what SpecWalkSteps.v says, on arbitrary blocks. *)
From Verif Require Import Base Tac Wire Utf8 Cid Pb Reader Visit Dir Walk SpecFile SpecDir SpecWalk
  Dir_proofs Visit_proofs Visit_thms Walk_proofs Walk_sim Walk_steps Walk_thms Walk_paths SpecFileSteps Steps_proofs SpecWalkSteps.

Section exact.
Context (X : ext).
Notation dbg := (ext_dbg X).

Lemma slashed_unparts l : slashed l = unparts l.
Proof. induction l as [|n [|m r] IH]; [reflexivity..|]. cbn [slashed unparts] in *. rewrite IH. reflexivity. Qed.

(** ** Links *)

Definition enc (p : place) : bytes * nat :=
  match p with
  | AtRoot n => (n, S (length (names p)))
  | Entry dir n => (n, S (S (length dir)))
  | Bucket dir => ([], S (length dir))
  end.
Definition encl (e : cid * place) : walk_link := (fst e, fst (enc (snd e)), snd (enc (snd e))).
Lemma enc_depth p : snd (enc p) = S (length (names p)).
Proof. destruct p; cbn [enc snd names]; try reflexivity. rewrite app_length, Nat.add_1_r. reflexivity. Qed.

Definition omap {E A B} (f : A -> B) (o : outcome E A) : outcome E B := bind o (fun a => Ok (f a)).

(** an entry or bucket of the directory [dir] *)
Definition good (dir : list bytes) (e : cid * place) : Prop :=
  (exists n, snd e = Entry dir n /\ seg n) \/ snd e = Bucket dir.

Lemma link_target_model i l :
  link_target X i l = match link_cid X l with
    | Some c => Ok c
    | None => Err (EInvalidCid (InvalidCidInLink i (match l_hash l with Some h => h | None => [] end) (name_of l)))
    end.
Proof.
  unfold link_target, try_convert_cid, link_cid, invalid_cid_of, name_of.
  replace (opt (l_hash l) [] (fun h => h)) with (match l_hash l with Some h => h | None => [] end) by (destruct (l_hash l); reflexivity).
  replace (opt (l_name l) [] (fun h => h)) with (match l_name l with Some h => h | None => [] end) by (destruct (l_name l); reflexivity).
  destruct (ext_cid_decode X _); reflexivity.
Qed.

Lemma slash_dec s : has_slash s = true -> In x2f s.
Proof.
  unfold has_slash. intros H. apply existsb_exists in H as (x & I & E). apply byte_eqb_eq in E. unfold sep in E. subst. exact I.
Qed.

Lemma link_dir_model dir i l : exists r, link_in_dir X dir i l r
  /\ convert_link X (S (S (length dir))) i l = omap encl r /\ (forall e, r = Ok e -> good dir e) /\ r <> Diverge.
Proof.
  unfold convert_link. rewrite link_target_model. destruct (link_cid X l) as [c|] eqn:C; cbn [bind].
  2:{ eexists. split; [apply d_invalid; exact C|]. split; [reflexivity|]. split; discriminate. }
  destruct (name_of l) as [|x s] eqn:N.
  - exists Panic. split; [eapply d_panic; [exact C|left; exact N]|]. split; [|split; discriminate].
    unfold name_of in N. destruct (l_name l) as [n|]; [subst n|]; reflexivity.
  - assert (E : l_name l = Some (x :: s)) by (unfold name_of in N; destruct (l_name l); [f_equal; exact N|discriminate]).
    rewrite E. cbn [bind]. destruct (has_slash (x :: s)) eqn:S; cbn [negb assert bind].
    + exists Panic. split; [eapply d_panic; [exact C|right; rewrite N; apply slash_dec, S]|]. split; [reflexivity|split; discriminate].
    + apply existsb_slash in S. exists (Ok (c, Entry dir (x :: s))). split; [rewrite <- N; apply d_named; rewrite ?N; [exact C|discriminate|exact S]|].
      split; [reflexivity|]. split; [|discriminate]. intros e [= <-]. left. exists (x :: s). split; [reflexivity|]. split; [discriminate|exact S].
Qed.

Lemma link_shard_model dir i l : exists r, link_in_shard X dir i l r
  /\ convert_sharded_link X (S (S (length dir))) (S (length dir)) i l = omap encl r /\ (forall e, r = Ok e -> good dir e) /\ r <> Diverge.
Proof.
  unfold convert_sharded_link. rewrite link_target_model. destruct (link_cid X l) as [c|] eqn:C; cbn [bind].
  2:{ eexists. split; [apply h_invalid; exact C|]. split; [reflexivity|]. split; discriminate. }
  destruct (l_name l) as [n|] eqn:E.
  2:{ exists Panic. split; [eapply h_short; [exact C|unfold name_of; rewrite E; cbn; lia]|]. split; [reflexivity|split; discriminate]. }
  assert (N : name_of l = n) by (unfold name_of; rewrite E; reflexivity).
  destruct n as [|a [|b [|x s]]].
  1,2: exists Panic; split; [eapply h_short; [exact C|rewrite N; cbn; lia]|]; split; [reflexivity|split; discriminate].
  - exists (Ok (c, Bucket dir)). split; [eapply h_bucket; [exact C|exact N]|]. split; [reflexivity|]. split; [|discriminate].
    intros e [= <-]. right. reflexivity.
  - assert (Q : (2 <? blen (a :: b :: x :: s)) = true) by (apply N.ltb_lt; rewrite !blen_cons; lia).
    rewrite Q. unfold str_from. destruct (is_char_boundary (a :: b :: x :: s) 2) eqn:B; cbn [bind skipn fst snd].
    + assert (NS : ~ splits_char l).
      { intros (a' & b' & x' & r & E' & L). rewrite N in E'. injection E' as <- <- <- <-.
        unfold is_char_boundary in B. cbn [nth_error] in B. apply negb_true_iff in B. unfold cont, Utf8.inr in B. lia. }
      destruct (has_slash (x :: s)) eqn:S; cbn [negb assert bind].
      * exists Panic. split; [eapply h_panic; [exact C|exact N|right; apply slash_dec, S]|]. split; [reflexivity|split; discriminate].
      * apply existsb_slash in S. exists (Ok (c, Entry dir (x :: s))).
        split; [eapply h_named; [exact C|exact N|discriminate|exact NS|exact S]|]. split; [reflexivity|]. split; [|discriminate].
        intros e [= <-]. left. exists (x :: s). split; [reflexivity|]. split; [discriminate|exact S].
    + exists Panic. split; [eapply h_panic; [exact C|exact N|left]|split; [reflexivity|split; discriminate]].
      apply (unsliceable X); rewrite N; [cbn; lia|exact B].
Qed.

Lemma links_model dir (one : nat -> pblink -> outcome walk_error (cid * place) -> Prop) convert :
  (forall i l, exists r, one i l r /\ convert i l = omap encl r /\ (forall e, r = Ok e -> good dir e) /\ r <> Diverge) ->
  forall ls i pending, exists r, links_in one i ls r
  /\ match r with
     | Ok es => push_links convert (rev (combine (seq i (length ls)) ls)) pending = (Ok tt, map encl es ++ pending) /\ Forall (good dir) es
     | Err e => exists q, push_links convert (rev (combine (seq i (length ls)) ls)) pending = (Err e, q)
     | Panic => exists q, push_links convert (rev (combine (seq i (length ls)) ls)) pending = (Panic, q)
     | Diverge => False
     end.
Proof.
  intros H. induction ls as [|l ls IH]; intros i pending.
  - exists (Ok []). split; [constructor|]. split; [reflexivity|constructor].
  - cbn [length seq combine rev]. destruct (IH (S i) pending) as (r & L & R). rewrite push_links_app.
    destruct r as [es|e| |]; [|exists (Err e)|exists Panic|destruct R].
    + destruct R as [-> G]. destruct (H i l) as (x & O & C & Gx & ND). cbn [push_links]. rewrite C.
      destruct x as [e|er| |]; cbn [omap bind].
      * exists (Ok (e :: es)). split; [apply l_good; assumption|]. split; [reflexivity|]. constructor; [apply Gx; reflexivity|exact G].
      * exists (Err er). split; [eapply l_error; eassumption|eauto].
      * exists Panic. split; [eapply l_panic; eassumption|eauto].
      * congruence.
    + split; [apply l_later; [exact L|discriminate]|]. destruct R as (q & ->). eauto.
    + split; [apply l_later; [exact L|discriminate]|]. destruct R as (q & ->). eauto.
Qed.

Lemma link_dir_det dir i l r r' : link_in_dir X dir i l r -> link_in_dir X dir i l r' -> r = r'.
Proof. intros H H'. inv H; inv H'; try reflexivity; try congruence; intuition congruence. Qed.
Lemma link_shard_det dir i l r r' : link_in_shard X dir i l r -> link_in_shard X dir i l r' -> r = r'.
Proof.
  intros H H'. inv H; inv H'; try reflexivity; try congruence;
    repeat match goal with A : name_of ?l = _, B : name_of ?l = _ |- _ => rewrite A in B; injection B as ? ?; subst end;
    try congruence; try intuition congruence.
  all: try (match goal with A : name_of ?l = _, B : (length (name_of ?l) < 2)%nat |- _ => rewrite A in B; cbn in B; lia end).
  all: match goal with A : splits_char _ \/ In _ [] |- _ => destruct A as [(? & ? & ? & ? & A & _)|[]]; congruence | _ => idtac end.
Qed.
Lemma links_det (one : nat -> pblink -> outcome walk_error (cid * place) -> Prop) : (forall i l r r', one i l r -> one i l r' -> r = r') ->
  forall i ls r, links_in one i ls r -> forall r', links_in one i ls r' -> r = r'.
Proof.
  intros D i ls r H. induction H as [i|i l ls e es H IH O|i l ls es e H IH O|i l ls es H IH O|i l ls r H IH NE]; intros r' H'; inv H'; try reflexivity.
  all: repeat match goal with IH : forall r', links_in ?o ?i ?l r' -> _, A : links_in ?o ?i ?l _ |- _ => apply IH in A end.
  all: try (exfalso; match goal with A : forall es, _ <> Ok es |- _ => eapply A; solve [eassumption | symmetry; eassumption] end).
  all: try (exfalso; match goal with A : forall es, Ok ?x <> Ok es |- _ => exact (A x eq_refl) end).
  all: try (match goal with D : forall i l r r', ?o i l r -> _, A : ?o ?i ?l ?a, B : ?o ?i ?l ?b |- _ => pose proof (D _ _ _ _ A B) as Q; try discriminate Q; try congruence end).
  all: try congruence.
Qed.

(** ** Paths *)

Lemma dassert_ok {E} d : dassert (E := E) d true = Ok tt.
Proof. unfold dassert. destruct d; reflexivity. Qed.

Definition at_path (ie : inner_entry) (cs : list bytes) : Prop :=
  ie_path ie = unparts cs /\ ie_depth ie = S (length cs) /\ proper cs.

Lemma set_path_entry ie pc e n : at_path ie (pc ++ e) -> seg n -> (pc = [] \/ n <> dot) ->
  set_path X ie n (S (S (length pc))) = Ok (unparts (pc ++ [n])).
Proof.
  intros (P & D & Pr) Sn Hn. unfold set_path. rewrite P, D. rewrite ancestors_proper by exact Pr. rewrite Nat.eqb_refl, (dassert_ok (E := walk_error)). cbn [bind].
  rewrite pop_to_proper by (exact Pr || reflexivity). cbn [bind]. apply proper_prefix in Pr.
  rewrite push_seg1 by (destruct Pr; auto). rewrite ancestors_proper by (apply proper_snoc; assumption). rewrite app_length, Nat.add_1_r. cbn [length].
  rewrite Nat.eqb_refl, (dassert_ok (E := walk_error)). reflexivity.
Qed.
Lemma set_path_dot ie pc e : dbg = true -> at_path ie (pc ++ e) -> pc <> [] -> set_path X ie dot (S (S (length pc))) = Panic.
Proof.
  intros Hd (P & D & Pr) Hn. unfold set_path. rewrite P, D. rewrite ancestors_proper by exact Pr. rewrite Nat.eqb_refl, (dassert_ok (E := walk_error)). cbn [bind].
  rewrite pop_to_proper by (exact Pr || reflexivity). cbn [bind]. apply proper_prefix in Pr.
  rewrite push_seg1 by (destruct Pr; auto using seg_dot).
  rewrite ancestors_trailing by auto. destruct (Nat.eqb_spec (S (S (length pc))) (S (length pc))); [lia|]. rewrite Hd. reflexivity.
Qed.
Lemma set_path_none ie pc e : dbg = true -> at_path ie (pc ++ e) -> set_path X ie [] (S (length pc)) = Panic.
Proof.
  intros Hd (P & D & Pr). unfold set_path. rewrite P, D. rewrite ancestors_proper by exact Pr. rewrite Nat.eqb_refl, (dassert_ok (E := walk_error)). cbn [bind].
  destruct pc as [|n pc _] using rev_ind.
  - cbn [app length] in *. rewrite pop_to_root by (exact Pr || reflexivity). reflexivity.
  - rewrite <- app_assoc in *. cbn [app] in *. rewrite (app_length pc [n]). cbn [length]. rewrite Nat.add_1_r.
    rewrite pop_to_proper by (exact Pr || reflexivity). cbn [bind]. apply proper_prefix in Pr.
    destruct pc as [|m pc].
    + change (path_push (unparts []) []) with (unparts []). rewrite (ancestors_proper []) by apply proper_nil. cbn [length Nat.eqb]. rewrite Hd. reflexivity.
    + rewrite push_none by (discriminate || (destruct Pr; auto)). rewrite ancestors_trailing by (discriminate || auto).
      destruct (Nat.eqb_spec (S (S (length (m :: pc)))) (S (length (m :: pc)))); [lia|]. rewrite Hd. reflexivity.
Qed.

(** ** The walker of a state *)

(** the links to visit, each in a directory on the way to the one before *)
Inductive qchain : list bytes -> list (cid * place) -> Prop :=
| q_nil : forall cs, qchain cs []
| q_cons : forall cs pc e l ls, cs = pc ++ e -> good pc l -> qchain pc ls -> qchain cs (l :: ls).
Lemma qchain_longer cs e q : qchain cs q -> qchain (cs ++ e) q.
Proof. intros H. destruct H as [|cs pc e' l ls -> G H]; [constructor|]. rewrite <- app_assoc. eapply q_cons; [reflexivity|assumption..]. Qed.
Lemma qchain_app cs es q : Forall (good cs) es -> qchain cs q -> qchain cs (es ++ q).
Proof.
  intros G H. induction G as [|l es G _ IH]; [exact H|]. cbn [app]. eapply q_cons; [symmetry; apply app_nil_r|exact G|exact IH].
Qed.

Definition kind_is (pr : prior) (ie : inner_entry) (cs : list bytes) (q : list (cid * place)) : Prop :=
  match pr with
  | Nothing => False
  | PlainDirectory => ie_kind ie = KDirectory \/ ie_kind ie = KRootDirectory
  | RootShard c => ie_kind ie = KBucketAtRoot /\ ie_cid ie = c /\ Forall (good cs) q
  | Other => ie_kind ie = KRootBucket \/ ie_kind ie = KBucket \/ (exists z, ie_kind ie = KFile None z) \/ ie_kind ie = KSymlink
  end.
Definition queued (ie : inner_entry) (q : list (cid * place)) (cont : bool) : walker :=
  Walker (Some ie) (hd_error (map encl q)) (tl (map encl q)) cont.

Inductive Rel : state -> walker -> Prop :=
| rel_begin : forall root name, ~ In x2f name -> Rel (beginning root name) (walker_new root name)
| rel_mid : forall pr q ie cs, at_path ie cs -> qchain cs q -> kind_is pr ie cs q ->
    Rel (State pr None q) (queued ie q (negb (is_nil q)))
| rel_file : forall q ie r v, at_path ie (names (r_place r)) -> qchain (names (r_place r)) q ->
    ie_cid ie = r_cid r -> ie_metadata ie = r_metadata r -> ie_kind ie = KFile (Some v) (r_size r) ->
    r_links r <> [] -> tracks v None (r_links r) (r_prev r) ->
    Rel (State Other (Some r) q) (queued ie q true).

Lemma rel_continue s w : Rel s w -> should_continue w = negb (is_nil (awaited s)).
Proof.
  intros [root name _|pr q ie cs _ _ _|q ie r v _ _ _ _ _ NE _]; unfold awaited; cbn; [reflexivity|destruct q; reflexivity|].
  destruct (r_links r); [congruence|reflexivity].
Qed.
Lemma rel_pending s w c others : Rel s w -> awaited s = c :: others -> w_pending_links w = Ok (c, others).
Proof.
  intros [root name _|pr q ie cs _ _ K|q ie r v _ _ _ _ K NE (T1 & T2 & T3)]; unfold awaited; cbn.
  - intros [= -> <-]. reflexivity.
  - intros E. destruct q as [|[c0 p] q]; [discriminate|]. cbn in E. injection E as -> <-. unfold w_pending_links, queued. cbn [w_current option_map w_next w_pending map hd_error tl encl fst snd].
    assert (M : map link_cid_of (map encl q) = map fst q) by (rewrite map_map; reflexivity). rewrite M.
    destruct (ie_kind ie) as [| | | | |[v|] z|] eqn:E; try reflexivity.
    exfalso. destruct pr; cbn in K; rewrite ?E in K; intuition (try discriminate). destruct H as [? H]; discriminate.
  - intros E. unfold w_pending_links, queued. cbn [w_current option_map w_next w_pending]. rewrite K. unfold pending_links. rewrite T1.
    destruct (r_links r) as [|[c0 rg] rest]; [congruence|]. cbn in E. injection E as -> <-.
    destruct q as [|l q]; cbn [map hd_error tl]; [reflexivity|]. cbn [app]. repeat f_equal. rewrite map_map. reflexivity.
Qed.
Lemma rel_not_file pr q w : Rel (State pr None q) w -> forall ie, w_current w = Some ie -> in_file (ie_kind ie) = false.
Proof.
  intros R. inversion R as [root name _|? ? ie cs _ _ K|]; subst; [discriminate|]. intros ie' [= <-].
  destruct pr; cbn in K; [tauto|..].
  - destruct K as [-> | ->]; reflexivity.
  - destruct K as (-> & _). reflexivity.
  - destruct K as [-> |[-> |[[z ->]| ->]]]; reflexivity.
Qed.
Lemma rel_next pr c p q w : Rel (State pr None ((c, p) :: q)) w ->
  w_next w = Some (c, fst (enc p), snd (enc p)) /\ w_pending w = map encl q.
Proof.
  intros R. inversion R as [root name _|? ? ie cs _ _ K|]; subst; [|split; reflexivity].
  split; [|reflexivity]. cbn. destruct name; reflexivity.
Qed.
Lemma rel_root pr c p q w : Rel (State pr None ((c, p) :: q)) w -> (is_root p <-> w_current w = None).
Proof.
  intros R. inversion R as [root name _|? ? ie cs _ Q K|]; subst; [cbn; split; [reflexivity|intros _; eexists; reflexivity]|].
  split; [|discriminate]. intros [n ->]. exfalso. inversion Q as [|? ? ? ? ? _ [(m & G & _)|G]]; subst; discriminate.
Qed.

Lemma path_of_names p : path_of p = unparts (names p).
Proof. apply slashed_unparts. Qed.

(** entering an entry which is no bucket *)
Definition entry_of (cur : option inner_entry) (k : inner_kind) (c : cid) (name : bytes) (depth : nat) (md : metadata)
  : outcome walk_error inner_entry :=
  match cur with
  | None => Ok (new_root k c md name depth)
  | Some ie => as_entry X ie k c name depth md
  end.
Lemma fits_dec p t : fits p t \/ ~ fits p t.
Proof.
  destruct p as [n|d n|d]; cbn; [auto| |destruct t; auto; right; discriminate].
  destruct d as [|m d]; [auto|]. destruct (is_dot n) as [-> |E]; [right; intros [H|H]; [discriminate|apply H; reflexivity]|auto].
Qed.
Lemma entry_fits pr c p q w t k md : Rel (State pr None ((c, p) :: q)) w -> fits p t -> (forall d, p <> Bucket d) ->
  entry_of (w_current w) k c (fst (enc p)) (snd (enc p)) md = Ok (InnerEntry c k (path_of p) md (S (length (names p))))
  /\ proper (names p) /\ qchain (names p) q.
Proof.
  intros R F NB. pose proof (rel_not_file _ _ _ R) as NF. inversion R as [root name NS|? ? ie cs A Q K|]; subst.
  - cbn [walker_new w_current entry_of]. cbn [enc snd fst]. unfold new_root.
    assert (S : Forall seg (names (AtRoot name))).
    { cbn [names]. destruct name; constructor; [|constructor]. split; [discriminate|exact NS]. }
    split; [|split; [|constructor]].
    + rewrite path_of_names. do 2 f_equal. destruct name as [|x name]; [reflexivity|].
      change (path_push (unparts []) (x :: name) = unparts [x :: name]). apply (push_seg1 []); [constructor|]. inversion S; assumption.
    + split; [exact S|]. cbn [names]. destruct name; constructor.
  - inversion Q as [|? pc e ? ? -> G Q']; subst. destruct G as [(n & G & Sn)|G]; cbn [snd] in G; [|exfalso; eapply NB; exact G]. subst p.
    cbn [queued w_current entry_of enc fst snd]. unfold as_entry. rewrite (NF ie eq_refl).
    rewrite (set_path_entry ie pc e n A Sn F). cbn [bind]. rewrite path_of_names. cbn [names]. rewrite app_length, Nat.add_1_r. cbn [length].
    split; [reflexivity|]. destruct A as (_ & _ & A). apply proper_prefix in A.
    split; [apply proper_snoc; [exact A|exact Sn|exact F]|apply qchain_longer, Q'].
Qed.
Lemma entry_misfit pr c p q w t k md : Rel (State pr None ((c, p) :: q)) w -> ~ fits p t -> dbg = true ->
  entry_of (w_current w) k c (fst (enc p)) (snd (enc p)) md = Panic.
Proof.
  intros R F Hd. pose proof (rel_not_file _ _ _ R) as NF. inversion R as [root name NS|? ? ie cs A Q K|]; subst; [exfalso; apply F; exact Logic.I|].
  inversion Q as [|? pc e ? ? -> G Q']; subst. cbn [queued w_current entry_of]. unfold as_entry. rewrite (NF ie eq_refl).
  destruct G as [(n & G & Sn)|G]; cbn [snd] in G; subst p; cbn [enc fst snd fits] in *.
  - assert (D : n = dot /\ pc <> []) by (destruct (is_dot n) as [-> |E]; [split; [reflexivity|intros ->; apply F; auto]|exfalso; apply F; auto]).
    destruct D as [-> D]. rewrite (set_path_dot ie pc e Hd A D). reflexivity.
  - rewrite (set_path_none ie pc e Hd A). reflexivity.
Qed.

Lemma rel_bucket pr c dir q w : Rel (State pr None ((c, Bucket dir) :: q)) w ->
  exists ie, w_current w = Some ie /\
  match pr with
  | Nothing => False
  | PlainDirectory => as_bucket ie c [] (S (length dir)) = Panic
  | RootShard root => as_bucket ie c [] (S (length dir)) = Ok ie /\ ie_cid ie = root /\ ie_path ie = path_of (Bucket dir)
      /\ ie_kind ie = KBucketAtRoot /\ at_path ie dir /\ Forall (good dir) q /\ qchain dir q
  | Other => exists ie', as_bucket ie c [] (S (length dir)) = Ok ie' /\ ie_cid ie' = c /\ ie_path ie' = path_of (Bucket dir)
      /\ ie_kind ie' = KBucket /\ at_path ie' dir /\ qchain dir q
  end.
Proof.
  intros R. inversion R as [|? ? ie cs A Q K|]; subst. exists ie. split; [reflexivity|].
  inversion Q as [|? pc e ? ? -> G Q']; subst. destruct G as [(n & G & _)|G]; [discriminate|]. injection G as <-.
  destruct A as (A1 & A2 & A3). rewrite path_of_names. cbn [names]. unfold as_bucket. destruct pr as [| |root|]; cbn in K.
  - exact K.
  - destruct K as [-> | ->]; reflexivity.
  - destruct K as (K & C & F). rewrite K. inversion F as [|? ? G F']; subst. destruct G as [(n & G & _)|G]; [discriminate|].
    cbn [snd] in G. injection G as E.
    assert (e = []) as -> by (apply (f_equal (@length _)) in E; rewrite app_length in E; destruct e; [reflexivity|cbn in E; lia]).
    rewrite app_nil_r in *. rewrite A2. unfold assert. rewrite Nat.eqb_refl. cbn [bind]. repeat split; (assumption || reflexivity || (destruct A3; assumption)).
  - assert (P : pop_bucket (ie_depth ie) (S (length dir)) (ie_path ie) = Ok (unparts dir, S (length dir))).
    { rewrite A1, A2. apply pop_bucket_proper; [exact A3|reflexivity]. }
    apply proper_prefix in A3.
    destruct K as [-> |[-> |[[z ->]| ->]]]; cbn [is_nil assert bind]; rewrite P; cbn [bind fst snd]; rewrite Nat.eqb_refl; cbn [assert bind];
      (eexists; split; [reflexivity|]; cbn; repeat split; try reflexivity; (assumption || (destruct A3; assumption))).
Qed.

Definition agrees (res : outcome walk_error (continued * state)) (wr : walk_result) : Prop :=
  match res with
  | Ok (it, s') => exists w' k', wr = (Ok it, w', k') /\ Rel s' w'
  | Err e => exists w' k', wr = (Err e, w', k') /\ should_continue w' = false
  | Panic => fst (fst wr) = Panic
  | Diverge => fst (fst wr) = Diverge
  end.

Lemma finish_model w links convert entry k q r :
  match r with
  | Ok es => push_links convert (rev (combine (seq 0 (length links)) links)) (w_pending w) = (Ok tt, map encl es ++ w_pending w)
  | Err e => exists q, push_links convert (rev (combine (seq 0 (length links)) links)) (w_pending w) = (Err e, q)
  | Panic => exists q, push_links convert (rev (combine (seq 0 (length links)) links)) (w_pending w) = (Panic, q)
  | Diverge => False
  end -> w_pending w = map encl q ->
  match r with
  | Ok es => match entry with
             | Ok (ie, it) => finish_dir w links convert entry k = (Ok it, queued ie (es ++ q) (negb (is_nil (es ++ q))), k)
             | Panic => fst (fst (finish_dir w links convert entry k)) = Panic
             | _ => True
             end
  | Err e => exists w' k', finish_dir w links convert entry k = (Err e, w', k') /\ should_continue w' = false
  | Panic => fst (fst (finish_dir w links convert entry k)) = Panic
  | Diverge => False
  end.
Proof.
  intros H P. unfold finish_dir, enumerate_rev. destruct r as [es|e| |]; [|destruct H as (qq & ->); eexists _, _; split; reflexivity|destruct H as (qq & ->); reflexivity|exact H].
  rewrite H, P, <- map_app. destruct entry as [[ie it]|e| |]; try exact Logic.I.
  - unfold queued. destruct (es ++ q) as [|l ls]; reflexivity.
  - destruct (map encl (es ++ q)) as [|l ls]; reflexivity.
Qed.

Lemma check_dir_model f : u_type (f_data f) = Directory ->
  (supported_dir (f_data f) /\ check_directory_supported f = Ok f)
  \/ (~ supported_dir (f_data f) /\ check_directory_supported f = Err (DirProps (u_filesize (f_data f)) (u_blocksizes (f_data f)) (u_hashtype (f_data f)) (u_fanout (f_data f)) (u_data (f_data f)))).
Proof.
  intros T. unfold check_directory_supported, supported_dir.
  destruct (u_filesize (f_data f)); [right; split; [intuition discriminate|reflexivity]|].
  destruct (u_blocksizes (f_data f)); [|right; split; [intuition discriminate|reflexivity]].
  destruct (u_hashtype (f_data f)); [right; split; [intuition discriminate|reflexivity]|].
  destruct (u_fanout (f_data f)); [right; split; [intuition discriminate|reflexivity]|].
  destruct (u_data (f_data f)) as [[|x d]|]; cbn; [left; intuition|right; split; [intuition discriminate|reflexivity]|left; intuition].
Qed.
Lemma check_shard_model f : u_type (f_data f) = HAMTShard ->
  (supported_shard (f_data f) /\ check_supported f = Ok tt)
  \/ (~ (u_fanout (f_data f) = Some 256 /\ u_hashtype (f_data f) = Some 34) /\ check_supported f = Err (UnsupportedProperties (u_hashtype (f_data f)) (u_fanout (f_data f))))
  \/ (u_fanout (f_data f) = Some 256 /\ u_hashtype (f_data f) = Some 34 /\ ~ supported_shard (f_data f)
      /\ check_supported f = Err (UnexpectedProperties (u_filesize (f_data f)) (u_blocksizes (f_data f)))).
Proof.
  intros T. unfold check_supported, supported_shard. rewrite T. cbn [is_hamt assert bind].
  assert (D : forall o n, (is_some_n o n = true /\ o = Some n) \/ (is_some_n o n = false /\ o <> Some n)).
  { intros [m|] n; cbn; [|right; split; [reflexivity|discriminate]]. destruct (N.eqb_spec m n); [left; subst; auto|right; split; [reflexivity|congruence]]. }
  destruct (D (u_fanout (f_data f)) 256) as [[-> E1]|[-> E1]]; cbn [negb orb]; [|right; left; split; [tauto|reflexivity]].
  destruct (D (u_hashtype (f_data f)) 34) as [[-> E2]|[-> E2]]; cbn [negb orb]; [|right; left; split; [tauto|reflexivity]].
  destruct (u_filesize (f_data f)); [right; right; repeat split; try assumption; intuition discriminate|].
  destruct (u_blocksizes (f_data f)); [left; repeat split; assumption|right; right; repeat split; try assumption; intuition discriminate].
Qed.

Lemma root_dec p : is_root p \/ ~ is_root p.
Proof. destruct p; [left; eexists; reflexivity|right; intros [? ?]; discriminate..]. Qed.

Lemma start_walk f k b : clean_cache k -> try_parse dbg b = Ok f -> exists r k',
  start_from_parsed X None f k = (visit_start X None b, k')
  /\ opened X None (0, blen (own_data f)) [] f r
  /\ match r with
     | Ok (out, links, prev) => exists size ov,
         u_filesize (f_data f) = Some size
         /\ visit_start X None b = Ok (out, size, says (f_data f), ov)
         /\ match ov with
            | None => links = []
            | Some v => links <> [] /\ tracks v None links prev
            end
     | Err e => visit_start X None b = Err e
     | Panic => visit_start X None b = Panic
     | Diverge => visit_start X None b = Diverge
     end.
Proof.
  intros K P. destruct (start_model X None b Logic.I) as (r & F & R).
  exists r, (snd (start_from_parsed X None f k)). split.
  { rewrite (start_parsed_visit X None b f P), <- (start_cache X None f k None (clean_opt k K)). destruct (start_from_parsed X None f k); reflexivity. }
  inversion F as [e P'|P'|P'|f' r' P' O]; try congruence. subst r'. rewrite P in P'. injection P' as <-. split; [exact O|].
  destruct r as [[[out links] prev]|e| |]; try exact R. destruct R as (f' & size & ov & P' & Z & V & R). rewrite P in P'. injection P' as <-.
  exists size, ov. split; [exact Z|]. split; [exact V|]. destruct ov; [|exact R]. destruct R as (R1 & R2 & R3 & R4). split; [exact R1|]. split; [exact R2|]. split; assumption.
Qed.

(** with no target nothing but [Err] of a file error, an unexpected type or an invalid link comes of a parsed block *)
Lemma opened_err r rest f e : opened X None r rest f (Err e) -> forall o, e <> ReadErr o.
Proof.
  intros H o ->. inversion H as [e J| | | | |s e err J PK|]; subst; [inversion J|].
  clear J H. remember 0%nat as i eqn:Ei. clear Ei. remember (@Err read_failed (list (cid * (N * N))) (ReadErr o)) as res eqn:Er. 
  induction PK; try discriminate; auto.
Qed.

Lemma step_model s w b k : Rel s w -> awaited s <> [] -> clean_cache k ->
  (dbg = false /\ misfit X s b) \/ exists res, step X s b res /\ agrees res (walk_next X w b k).
Proof.
  intros R NE K. destruct s as [pr [r|] q].
  - (* inside a file *)
    right. inversion R as [| |? ie ? v A Q C M Kd NL T]; subst. destruct T as (T1 & T2 & T3).
    unfold walk_next, queued. cbn [w_current]. destruct ie as [ic ik ip im id]. cbn in Kd, C, M. subst ik ic im.
    unfold next_in_file. cbn [w_next w_pending ie_cid ie_path ie_metadata ie_depth].
    destruct (r_links r) as [|[c rg] rest] eqn:L; [congruence|].
    destruct (continue_model X v b k c rg rest) as (res & N & D); [rewrite T2; exact Logic.I|exact T1|]. rewrite T2, <- T3 in N.
    destruct (continue_walk X v b k) as [cr k'] eqn:CW. cbn [fst] in D.
    destruct res as [[[out links] prev]|e| |].
    + destruct D as (ov & k2 & E & D). injection E as -> ->. cbn [walk_read].
      eexists. split; [eapply s_file_more; [exact L|exact N]|]. cbn [agrees].
      destruct A as (A1 & A2 & A3). cbn in A1, A2. rewrite path_of_names, <- A1.
      destruct ov as [v'|]; cbn [negb orb].
      * destruct D as (D1 & D2 & D3 & D4). 
        assert (NE' : links <> []).
        { intros ->. destruct (D1 eq_refl) as (s0 & e0 & ->). clear - N.
          inversion N as [| | | | |f res MP P NM O]; subst. inversion O as [| | | |? ? ps J PK| |]; subst.
          inversion J as [| | | | | | | |size e1 F M V B Z PL NL]; subst.
          match goal with H : ?a ++ _ = [] |- _ => apply app_eq_nil in H as [H _]; subst a end.
          destruct (f_links f) as [|l ls]; [congruence|]. inversion PK; subst;
          [match goal with H : ~ touches None _ |- _ => apply H; exact Logic.I end|match goal with H : forall ps, Ok _ <> Ok ps |- _ => eapply H; reflexivity end]. }
        eexists _, _. split; [unfold ends; cbn [r_links]; destruct links; [congruence|reflexivity]|].
        unfold remains. cbn [r_links]. destruct links as [|l0 links]; [congruence|].
        eapply (rel_file q _ (Reading (r_cid r) (r_place r) (r_metadata r) (r_size r) (l0 :: links) prev) v'); cbn; try reflexivity; try assumption; try discriminate.
        { split; [exact A1|]. split; [exact A2|exact A3]. }
        { split; [exact D2|]. split; [rewrite D3; exact T2|exact D4]. }
      * destruct D as [-> _]. eexists _, _. split; [reflexivity|]. cbn [remains r_links].
        assert (W : Walker (Some (InnerEntry (r_cid r) (KFile None (r_size r)) ip (r_metadata r) id)) (hd_error (map encl q)) (tl (map encl q))
                      (match hd_error (map encl q) with Some _ => true | None => false end)
                    = queued (InnerEntry (r_cid r) (KFile None (r_size r)) ip (r_metadata r) id) q (negb (is_nil q))) by (destruct q; reflexivity).
        rewrite W. eapply rel_mid; [split; [exact A1|split; [exact A2|exact A3]]|exact Q|]. cbn. eauto.
    + subst cr. exists (told e). split; [eapply s_file_error; [exact L|exact N]|]. destruct e; cbn [told walk_read agrees]; try (eexists _, _; split; reflexivity); reflexivity.
    + subst cr. exists Panic. split; [eapply s_file_panic; [exact L|exact N]|reflexivity].
    + subst cr. exists Diverge. split; [eapply s_file_diverge; [exact L|exact N]|reflexivity].
  - pose proof (rel_not_file _ _ _ R) as NF. destruct (try_parse dbg b) as [f|e| |] eqn:P.
    2-4: right; unfold walk_next; rewrite P;
      assert (W : forall T (g : inner_entry -> file_visit -> N -> T) (h : T),
        match w_current w with Some (InnerEntry _ (KFile (Some v) size) _ _ _ as ie) => g ie v size | _ => h end = h)
        by (intros; destruct (w_current w) as [[ic [| | | | |[v|] sz|] ip im id]|]; try reflexivity; specialize (NF _ eq_refl); discriminate NF);
      rewrite W; clear W.
    2:{ exists (Err (unparsable e)). split; [apply s_unparsable; exact P|]. cbn [agrees]. unfold failed.
        eexists _, _. split; [destruct e; reflexivity|reflexivity]. }
    2:{ exists Panic. split; [apply s_panic; exact P|reflexivity]. }
    2:{ exists Diverge. split; [apply s_diverge; exact P|reflexivity]. }
    destruct q as [|[c p] q]; [exfalso; apply NE; reflexivity|].
    destruct (rel_next _ _ _ _ _ R) as [Wn Wp].
    assert (FM : ~ fits p (u_type (f_data f)) -> dbg = false -> dbg = false /\ misfit X (State pr None ((c, p) :: q)) b).
    { intros H Hd. split; [exact Hd|]. exists pr, c, p, q, f. auto. }
    enough (H : (dbg = false /\ misfit X (State pr None ((c, p) :: q)) b) \/ exists res, enters X pr q c p f res /\ agrees res (walk_next X w b k)).
    { destruct H as [H|(res & H1 & H2)]; [left; exact H|right; exists res; split; [eapply s_enters; eassumption|exact H2]]. }
    rewrite (next_not_file X w b k NF f P). rewrite Wn.
    destruct (u_type (f_data f)) eqn:T.
    1,3: (* files *)
      assert (IF : is_file (f_data f)) by (unfold is_file; auto);
      destruct (start_walk f k b K P) as (r & k' & S1 & O & D); unfold idle_default; rewrite S1; clear S1;
      destruct r as [[[out links] prev]|e| |];
      [|right; exists (told e); split; [apply e_file_error; assumption|]; rewrite D; pose proof (opened_err _ _ _ _ O) as NR; destruct e; cbn [told walk_read agrees]; try (eexists _, _; split; reflexivity); exfalso; eapply NR; reflexivity
       |right; exists Panic; split; [apply e_file_panic; assumption|rewrite D; reflexivity]
       |exfalso; inversion O];
      destruct D as (size & ov & Z & -> & D); cbn [walk_read];
      change (match w_current w with None => Ok (new_root (KFile ov size) c (says (f_data f)) (fst (enc p)) (snd (enc p))) | Some ie => as_entry X ie (KFile ov size) c (fst (enc p)) (snd (enc p)) (says (f_data f)) end)
        with (entry_of (w_current w) (KFile ov size) c (fst (enc p)) (snd (enc p)) (says (f_data f)));
      (destruct (fits_dec p (u_type (f_data f))) as [F|F];
       [|destruct dbg eqn:Hd; [right; exists Panic; split; [eapply (e_misfit X _ _ _ _ _ []); [exact F|exact Hd|rewrite T; eauto]|]; rewrite (entry_misfit _ _ _ _ _ _ _ _ R F Hd); reflexivity
          |left; apply FM; [rewrite T in F; exact F|reflexivity]]]);
      right; destruct (entry_fits _ _ _ _ _ _ (KFile ov size) (says (f_data f)) R F) as (-> & Pn & Qn);
      [intros d ->; rewrite T in F; discriminate F|];
      rewrite Wp; (eexists; split; [eapply e_file; [exact IF|exact O|rewrite T in *; exact F|exact Z]|]); cbn [agrees ie_cid ie_path ie_metadata];
      (destruct ov as [v|];
       [destruct D as [NL Tr]; unfold ends, remains; cbn [r_links]; destruct links as [|l0 links]; [congruence|];
        exists (queued (InnerEntry c (KFile (Some v) size) (path_of p) (says (f_data f)) (S (length (names p)))) q true), k';
        split; [destruct q; reflexivity|];
        apply (rel_file q _ (Reading c p (says (f_data f)) size (l0 :: links) prev) v); cbn; try reflexivity; try assumption; try discriminate;
        split; [cbn; apply path_of_names|split; [reflexivity|exact Pn]]
       |subst links; cbn [ends remains r_links];
        exists (queued (InnerEntry c (KFile None size) (path_of p) (says (f_data f)) (S (length (names p)))) q (negb (is_nil q))), k';
        split; [destruct q; reflexivity|];
        eapply rel_mid; [split; [cbn; apply path_of_names|split; [reflexivity|exact Pn]]|exact Qn|cbn; eauto]]).
    (* plain directories *)
    + destruct (check_dir_model f T) as [[Su ->]|[Su ->]].
      2:{ right. eexists. split; [apply e_dir_props; assumption|]. eexists _, _. split; reflexivity. }
      destruct (links_model (names p) (link_in_dir X (names p)) (convert_link X (S (snd (enc p)))) ltac:(rewrite enc_depth; apply link_dir_model) (f_links f) 0 (w_pending w)) as (lr & L & LR).
      match goal with |- context [finish_dir w (f_links f) ?cv ?en k] => pose proof (finish_model w (f_links f) cv en k q lr) as FD end.
      destruct lr as [es|e| |]; [|right; exists (Err e); split; [apply e_dir_link; assumption|apply FD; assumption]|right; exists Panic; split; [apply e_dir_panic; assumption|apply FD; assumption]|destruct LR].
      destruct LR as [LR G]. specialize (FD LR Wp).
      destruct (fits_dec p Directory) as [F|F].
      2:{ assert (C : w_current w <> None) by (intros E; apply F; apply (rel_root _ _ _ _ _ R) in E as [n ->]; exact Logic.I).
          destruct dbg eqn:Hd; [|left; apply FM; [exact F|reflexivity]]. right. exists Panic. split; [apply (e_misfit X _ _ _ _ _ es); [rewrite T; exact F|exact Hd|rewrite T; split; assumption]|].
          pose proof (entry_misfit _ _ _ _ _ _ KDirectory (metadata_of (f_data f)) R F Hd) as EM. unfold entry_of in EM.
          destruct (w_current w) as [ie|]; [|congruence]. rewrite EM in *. cbn [bind] in *. exact FD. }
      right. destruct (root_dec p) as [Rt|Rt].
      * pose proof (proj1 (rel_root _ _ _ _ _ R) Rt) as C. eexists. split; [apply e_root_dir; eassumption|].
        destruct (entry_fits _ _ _ _ _ _ KRootDirectory (metadata_of (f_data f)) R F) as (EF & Pn & Qn); [intros d ->; destruct Rt; discriminate|].
        unfold entry_of in EF. rewrite C in *. injection EF as EF Ed. cbn [agrees].
        eexists _, _. split; [rewrite FD, EF, Steps_proofs.says_metadata; reflexivity|].
        eapply rel_mid; [|apply qchain_app; [exact G|exact Qn]|cbn; auto].
        split; [cbn; rewrite EF; apply path_of_names|split; [exact Ed|exact Pn]].
      * assert (C : w_current w <> None) by (intros E; apply Rt, (rel_root _ _ _ _ _ R), E).
        eexists. split; [apply e_dir; eassumption|].
        destruct (entry_fits _ _ _ _ _ _ KDirectory (metadata_of (f_data f)) R F) as (EF & Pn & Qn); [intros d ->; discriminate F|].
        unfold entry_of in EF. destruct (w_current w) as [ie|]; [|congruence]. rewrite EF in *. cbn [bind ie_cid ie_path ie_metadata] in *. cbn [agrees].
        eexists _, _. split; [rewrite FD, <- Steps_proofs.says_metadata; reflexivity|].
        eapply rel_mid; [|apply qchain_app; [exact G|exact Qn]|cbn; auto].
        split; [cbn; apply path_of_names|split; [reflexivity|exact Pn]].
    + (* Metadata *) right. eexists. split; [apply e_metadata; exact T|]. eexists _, _. split; reflexivity.
    + (* symlinks *)
      change (match w_current w with None => Ok (new_root KSymlink c (metadata_of (f_data f)) (fst (enc p)) (snd (enc p))) | Some ie => as_entry X ie KSymlink c (fst (enc p)) (snd (enc p)) (metadata_of (f_data f)) end)
        with (entry_of (w_current w) KSymlink c (fst (enc p)) (snd (enc p)) (metadata_of (f_data f))).
      destruct (fits_dec p Symlink) as [F|F].
      2:{ destruct dbg eqn:Hd; [|left; apply FM; [exact F|reflexivity]]. right. exists Panic.
          split; [apply (e_misfit X _ _ _ _ _ []); [rewrite T; exact F|exact Hd|rewrite T; exact Logic.I]|].
          rewrite (entry_misfit _ _ _ _ _ _ _ _ R F Hd). reflexivity. }
      right. destruct (entry_fits _ _ _ _ _ _ KSymlink (metadata_of (f_data f)) R F) as (-> & Pn & Qn); [intros d ->; discriminate F|].
      eexists. split; [apply e_symlink; assumption|]. cbn [agrees ie_cid ie_path ie_metadata]. rewrite Wp, opt_own, Steps_proofs.says_metadata.
      exists (queued (InnerEntry c KSymlink (path_of p) (says (f_data f)) (S (length (names p)))) q (negb (is_nil q))), k.
      split; [destruct q; reflexivity|]. eapply rel_mid; [split; [cbn; apply path_of_names|split; [reflexivity|exact Pn]]|exact Qn|cbn; auto].
    + (* shards *)
      destruct (check_shard_model f T) as [[Su ->]|[[Su ->]|(S1 & S2 & S3 & ->)]].
      2:{ right. eexists. split; [apply e_shard_unsupported; assumption|]. eexists _, _. split; reflexivity. }
      2:{ right. eexists. split; [apply e_shard_props; assumption|]. eexists _, _. split; reflexivity. }
      destruct (links_model (names p) (link_in_shard X (names p)) (convert_sharded_link X (S (snd (enc p))) (snd (enc p))) ltac:(rewrite enc_depth; apply link_shard_model) (f_links f) 0 (w_pending w)) as (lr & L & LR).
      match goal with |- context [finish_dir w (f_links f) ?cv ?en k] => pose proof (finish_model w (f_links f) cv en k q lr) as FD end.
      destruct lr as [es|e| |]; [|right; exists (Err e); split; [apply e_shard_link; assumption|apply FD; assumption]|right; exists Panic; split; [apply e_shard_panic; assumption|apply FD; assumption]|destruct LR].
      destruct LR as [LR G]. specialize (FD LR Wp).
      destruct p as [name|dir name|dir].
      * assert (Rt : is_root (AtRoot name)) by (eexists; reflexivity).
        pose proof (proj1 (rel_root _ _ _ _ _ R) Rt) as C. right. eexists. split; [apply e_root_shard; eassumption|].
        destruct (entry_fits _ _ _ _ _ HAMTShard KBucketAtRoot (metadata_of (f_data f)) R Logic.I) as (EF & Pn & Qn); [discriminate|].
        unfold entry_of in EF. rewrite C in *. injection EF as EF. cbn [agrees].
        eexists _, _. split; [rewrite FD; cbn [enc fst snd]; rewrite EF, Steps_proofs.says_metadata; reflexivity|].
        assert (q = []) as -> by (inversion R; [reflexivity|subst; discriminate C]).
        eapply rel_mid; [|apply qchain_app; [exact G|exact Qn]|cbn; rewrite app_nil_r; repeat split; assumption]. unfold new_root in *.
        split; [cbn; cbn in EF; rewrite EF; apply slashed_unparts|split; [reflexivity|exact Pn]].
      * assert (C : w_current w <> None) by (intros E; apply (rel_root _ _ _ _ _ R) in E as [? E]; discriminate).
        assert (NN : is_nil name = false).
        { inversion R as [|? ? ? cs _ Q _|]; subst. inversion Q as [|? ? ? ? ? _ [(n & Gn & [Sn _])|Gn]]; subst; [|discriminate].
          cbn [snd] in Gn. injection Gn as _ ->. apply is_nil_false. exact Sn. }
        destruct (fits_dec (Entry dir name) HAMTShard) as [F|F].
        -- right. destruct (entry_fits _ _ _ _ _ _ KRootBucket (metadata_of (f_data f)) R F) as (EF & Pn & Qn); [discriminate|].
           unfold entry_of in EF. destruct (w_current w) as [ie|]; [|congruence]. cbn [enc fst snd] in *. rewrite NN in *. rewrite EF in *. cbn [bind ie_cid ie_path ie_metadata] in *.
           eexists. split; [eapply e_shard; [exact Su|exact L|reflexivity|exact F]|]. cbn [agrees].
           eexists _, _. split; [rewrite FD, <- Steps_proofs.says_metadata; reflexivity|].
           eapply rel_mid; [|apply qchain_app; [exact G|exact Qn]|cbn; auto].
           split; [cbn; apply slashed_unparts|split; [reflexivity|exact Pn]].
        -- destruct dbg eqn:Hd; [|left; apply FM; [exact F|reflexivity]]. right. exists Panic.
           split; [apply (e_misfit X _ _ _ _ _ es); [rewrite T; exact F|exact Hd|rewrite T; split; assumption]|].
           pose proof (entry_misfit _ _ _ _ _ _ KRootBucket (metadata_of (f_data f)) R F Hd) as EM. unfold entry_of in EM.
           destruct (w_current w) as [ie|]; [|congruence]. cbn [enc fst snd] in *. rewrite NN in *. rewrite EM in *. cbn [bind] in *. exact FD.
      * right. destruct (rel_bucket _ _ _ _ _ R) as (ie & C & B). rewrite C in *. cbn [enc fst snd is_nil] in *. destruct pr as [| |root|].
        -- destruct B.
        -- rewrite B in *. exists Panic. split; [eapply e_bucket_after_dir; (eassumption || reflexivity)|exact FD].
        -- destruct B as (B & B1 & B2 & B3 & B4 & B5 & B6). rewrite B in *. cbn [bind] in *. rewrite B1, B2 in *.
           eexists. split; [eapply e_bucket_of_root; (eassumption || reflexivity)|]. cbn [agrees]. eexists _, _. split; [exact FD|].
           eapply rel_mid; [exact B4|apply qchain_app; assumption|]. cbn. repeat split; [assumption..|]. apply Forall_app. split; assumption.
        -- destruct B as (ie' & B & B1 & B2 & B3 & B4 & B5). rewrite B in *. cbn [bind] in *. rewrite B1, B2 in *.
           eexists. split; [eapply e_bucket; (eassumption || reflexivity)|]. cbn [agrees]. eexists _, _. split; [exact FD|].
           eapply rel_mid; [exact B4|apply qchain_app; assumption|]. cbn. auto.
Qed.

(** ** The answers are unique *)
Lemma sd_type u : supported_dir u -> u_type u = Directory. Proof. intros H; apply H. Qed.
Lemma ss_type u : supported_shard u -> u_type u = HAMTShard. Proof. intros H; apply H. Qed.
Lemma ss_props u : supported_shard u -> u_fanout u = Some 256 /\ u_hashtype u = Some 34. Proof. intros (_ & H & H' & _). auto. Qed.

Lemma enters_det pr q c p f x y : enters X pr q c p f x -> enters X pr q c p f y -> x = y.
Proof.
  pose proof (links_det _ (link_dir_det (names p)) 0%nat (f_links f)) as LD.
  pose proof (links_det _ (link_shard_det (names p)) 0%nat (f_links f)) as LS.
  pose proof (opened_det X None (0, blen (own_data f)) [] f) as OD.
  pose proof (sd_type (f_data f)) as SD. pose proof (ss_type (f_data f)) as SS. pose proof (ss_props (f_data f)) as SP.
  intros H H'. 
  assert (T : is_file (f_data f) \/ u_type (f_data f) = Directory \/ u_type (f_data f) = HAMTShard \/ u_type (f_data f) = Symlink \/ u_type (f_data f) = Metadata)
    by (unfold is_file; destruct (u_type (f_data f)); auto).
  destruct T as [T|T].
  - (* files *)
    assert (T1 : u_type (f_data f) <> Directory /\ u_type (f_data f) <> HAMTShard /\ u_type (f_data f) <> Symlink /\ u_type (f_data f) <> Metadata)
      by (destruct T as [-> | ->]; repeat split; discriminate).
    destruct T1 as (T1 & T2 & T3 & T4).
    assert (M : forall (A B C D E : Prop), match u_type (f_data f) with Directory => A | HAMTShard => B | File | Raw => C | Symlink => D | Metadata => E end -> C)
      by (intros *; destruct T as [-> | ->]; exact (fun z => z)).
    inversion H; subst; try (exfalso; solve [apply T1; auto | apply T2; auto | apply T3; auto | apply T4; auto]);
    inversion H'; subst; try (exfalso; solve [apply T1; auto | apply T2; auto | apply T3; auto | apply T4; auto]); try reflexivity.
    all: repeat match goal with A : match u_type _ with _ => _ end |- _ => apply M in A as (? & ? & ? & A) end.
    all: match goal with A : opened X None _ _ _ ?a, B : opened X None _ _ _ ?b |- _ => pose proof (OD _ _ A B) as Q; try discriminate Q end.
    all: try (exfalso; match goal with A : ~ fits _ _, B : fits _ _ |- _ => exact (A B) end).
    all: try (injection Q as <-); try reflexivity.
    all: congruence.
  - destruct T as [T|[T|[T|T]]].
    + assert (T' : ~ is_file (f_data f)) by (intros [E|E]; congruence).
      inversion H; subst; try contradiction; try congruence; try (exfalso; match goal with A : supported_shard _ |- _ => apply SS in A; congruence end);
      inversion H'; subst; try contradiction; try congruence; try (exfalso; match goal with A : supported_shard _ |- _ => apply SS in A; congruence end).
      all: repeat match goal with A : match u_type _ with _ => _ end |- _ => rewrite T in A; destruct A as [? A] end.
      all: try contradiction.
      all: try (match goal with A : links_in _ _ _ ?a, B : links_in _ _ _ ?b |- _ => pose proof (LD _ A _ B) as Q; try discriminate Q; try (injection Q as <-) end).
      all: try reflexivity; try contradiction.
      all: try (exfalso; match goal with A : ~ fits _ _, B : fits _ _ |- _ => rewrite T in A; exact (A B) end).
      all: exfalso; match goal with A : ~ fits _ _, B : is_root _ |- _ => destruct B as [? ->]; apply A; exact Logic.I end.
    + assert (T' : ~ is_file (f_data f)) by (intros [E|E]; congruence).
      inversion H; subst; try contradiction; try congruence; try (exfalso; match goal with A : supported_dir _ |- _ => apply SD in A; congruence end);
      inversion H'; subst; try contradiction; try congruence; try (exfalso; match goal with A : supported_dir _ |- _ => apply SD in A; congruence end).
      all: repeat match goal with A : match u_type _ with _ => _ end |- _ => rewrite T in A; destruct A as [? A] end.
      all: try contradiction.
      all: try (exfalso; match goal with A : supported_shard _, B : ~ (_ /\ _) |- _ => apply B, SP, A end).
      all: try (exfalso; match goal with B : ~ (_ /\ _) |- _ => apply B; split; assumption end).
      all: try (match goal with A : links_in _ _ _ ?a, B : links_in _ _ _ ?b |- _ => pose proof (LS _ A _ B) as Q; try discriminate Q; try (injection Q as <-) end).
      all: try reflexivity; try congruence.
      all: repeat match goal with B : is_root _ |- _ => destruct B as [? ?]; try discriminate end.
      all: try (exfalso; match goal with A : ~ fits ?p _ |- _ => rewrite T in A; solve [apply A; exact Logic.I | apply A; reflexivity | contradiction] end).
      all: try (match goal with A : Entry _ _ = AtRoot _ |- _ => discriminate A | A : Bucket _ = AtRoot _ |- _ => discriminate A end).
      all: try congruence.
      all: exfalso; subst p; match goal with A : ~ fits _ _ |- _ => rewrite T in A; solve [apply A; exact Logic.I | apply A; reflexivity | contradiction] end.
    + assert (T' : ~ is_file (f_data f)) by (intros [E|E]; congruence).
      inversion H; subst; try contradiction; try congruence; try (exfalso; match goal with A : supported_dir _ |- _ => apply SD in A; congruence | A : supported_shard _ |- _ => apply SS in A; congruence end);
      inversion H'; subst; try contradiction; try congruence; try (exfalso; match goal with A : supported_dir _ |- _ => apply SD in A; congruence | A : supported_shard _ |- _ => apply SS in A; congruence end).
      all: exfalso; match goal with A : ~ fits _ _ |- _ => rewrite T in A; contradiction end.
    + assert (T' : ~ is_file (f_data f)) by (intros [E|E]; congruence).
      inversion H; subst; try contradiction; try congruence; try (exfalso; match goal with A : supported_dir _ |- _ => apply SD in A; congruence | A : supported_shard _ |- _ => apply SS in A; congruence end);
      inversion H'; subst; try contradiction; try congruence; try (exfalso; match goal with A : supported_dir _ |- _ => apply SD in A; congruence | A : supported_shard _ |- _ => apply SS in A; congruence end).
      all: exfalso; match goal with A : match u_type _ with _ => _ end |- _ => rewrite T in A; exact A end.
Qed.

Lemma step_det s b x y : step X s b x -> step X s b y -> x = y.
Proof.
  intros H H'. inversion H as [p0 r q b0 c rg rest e L N|p0 r q b0 c rg rest L N|p0 r q b0 c rg rest L N|p0 r q b0 c rg rest out links prev L N r1|? ? ? e P|? ? ? P|? ? ? P|p0 q c p b0 f r P O]; subst;
  inversion H' as [p1 r' q' b1 c' rg' rest' e' L' N'|p1 r' q' b1 c' rg' rest' L' N'|p1 r' q' b1 c' rg' rest' L' N'|p1 r' q' b1 c' rg' rest' out' links' prev' L' N' r1'|? ? ? e' P'|? ? ? P'|? ? ? P'|p1 q' c' p' b1 f' r' P' O']; subst;
  try congruence.
  all: try (rewrite L in L'; injection L' as <- <- <-; pose proof (next_det X None _ _ _ _ _ _ N N') as Q; try discriminate Q; try reflexivity; injection Q).
  - intros <-. reflexivity.
  - intros <- <- <-. reflexivity.
  - rewrite P in P'. injection P' as <-. eapply enters_det; eassumption.
Qed.

(** ** Histories *)

Lemma follows_snoc root name bs asked items s c others b it s' :
  follows X root name bs asked items s -> awaited s = c :: others -> step X s b (Ok (it, s')) ->
  follows X root name (bs ++ [b]) (asked ++ [c]) (items ++ [it]) s'.
Proof. intros. eapply fol_next; eassumption. Qed.

Lemma walks_snoc_inv (gives : cid -> bytes -> Prop) w bs asked items w' : walks X gives w bs asked items w' ->
  (bs = [] /\ asked = [] /\ items = [] /\ w' = w)
  \/ exists bs0 asked0 items0 w0 c others b k k' it,
     bs = bs0 ++ [b] /\ asked = asked0 ++ [c] /\ items = items0 ++ [it] /\ walks X gives w bs0 asked0 items0 w0
     /\ should_continue w0 = true /\ w_pending_links w0 = Ok (c, others) /\ gives c b /\ clean_cache k
     /\ walk_next X w0 b k = (Ok it, w', k').
Proof.
  intros H. induction H as [w|w c others b k k' it w1 bs asked items w2 Hc Hp Hg Hk Hn H IH]; [auto|right].
  destruct IH as [(-> & -> & -> & ->)|(bs0 & asked0 & items0 & w0 & c0 & o0 & b0 & k0 & k0' & it0 & -> & -> & -> & H0 & I1 & I2 & I3 & I4 & I5)].
  - exists [], [], [], w, c, others, b, k, k', it. repeat split; try assumption. constructor.
  - exists (b :: bs0), (c :: asked0), (it :: items0), w0, c0, o0, b0, k0, k0', it0. repeat split; try assumption.
    eapply walks_next; [exact Hc|exact Hp|exact Hg|exact Hk|exact Hn|exact H0].
Qed.
Lemma walks_snoc (gives : cid -> bytes -> Prop) w bs asked items w0 c others b k k' it w' : walks X gives w bs asked items w0 ->
  should_continue w0 = true -> w_pending_links w0 = Ok (c, others) -> gives c b -> clean_cache k -> walk_next X w0 b k = (Ok it, w', k') ->
  walks X gives w (bs ++ [b]) (asked ++ [c]) (items ++ [it]) w'.
Proof.
  intros H. induction H as [w|w c1 others1 b1 k1 k1' it1 w1 bs asked items w2 Hc Hp Hg Hk Hn H IH]; intros A1 A2 A3 A4 A5.
  - eapply walks_next; [eassumption..|constructor].
  - cbn [app]. eapply walks_next; [exact Hc|exact Hp|exact Hg|exact Hk|exact Hn|]. apply IH; assumption.
Qed.

(** walks over any blocks; without assertions only up to a misfit *)
Lemma walks_follow (gives : cid -> bytes -> Prop) root name bs : ~ In x2f name -> forall asked items w,
  walks X gives (walker_new root name) bs asked items w ->
  (exists s, follows X root name bs asked items s /\ Rel s w)
  \/ (dbg = false /\ exists bs1 b bs2 asked1 items1 s, bs = bs1 ++ b :: bs2 /\ follows X root name bs1 asked1 items1 s /\ misfit X s b).
Proof.
  intros Hn. induction bs as [|b bs IH] using rev_ind; intros asked items w H.
  - left. inversion H; subst. exists (beginning root name). split; [constructor|constructor; exact Hn].
  - apply walks_snoc_inv in H as [(E & _)|(bs0 & asked0 & items0 & w0 & c & others & b0 & k & k' & it & E & -> & -> & H & Hc & Hp & Hg & Hk & Hw)];
      [destruct bs; discriminate|].
    apply app_inj_tail in E as [<- <-]. destruct (IH _ _ _ H) as [(s & F & R)|(Hd & bs1 & b1 & bs2 & asked1 & items1 & s & -> & F & M)].
    2:{ right. split; [exact Hd|]. exists bs1, b1, (bs2 ++ [b]), asked1, items1, s. rewrite <- app_assoc. auto. }
    assert (NE : awaited s <> []).
    { intros E. rewrite (rel_continue s w0 R), E in Hc. discriminate. }
    destruct (awaited s) as [|c1 o1] eqn:A; [congruence|]. pose proof (rel_pending s w0 c1 o1 R A) as Hp'. rewrite Hp in Hp'. injection Hp' as <- <-.
    destruct (step_model s w0 b k R ltac:(rewrite A; discriminate) Hk) as [[Hd M]|(res & S & Ag)].
    + right. split; [exact Hd|]. exists bs, b, [], asked0, items0, s. auto.
    + left. rewrite Hw in Ag. destruct res as [[it' s']|e| |]; cbn in Ag; try discriminate; [|destruct Ag as (? & ? & Ag & _); discriminate].
      destruct Ag as (w' & k2 & E & R'). injection E as <- <- <-. exists s'. split; [eapply fol_next; eassumption|exact R'].
Qed.
Lemma follows_walks root name bs asked items s : ~ In x2f name -> follows X root name bs asked items s ->
  exists w, walks X anything (walker_new root name) bs asked items w /\ Rel s w.
Proof.
  intros Hn H. induction H as [|bs asked items s c others b it s' H IH A St].
  - exists (walker_new root name). split; constructor. exact Hn.
  - destruct IH as (w & W & R). 
    destruct (step_model s w b None R ltac:(rewrite A; discriminate) ltac:(left; reflexivity)) as [[Hd M]|(res & S & Ag)].
    + exfalso. destruct M as (pr & c1 & p & q & f & -> & P & NF). inversion St as [| | | | | | |? ? ? ? ? f' r P' O]; subst. rewrite P in P'. injection P' as <-.
      clear - O NF. inversion O; subst; try contradiction; try (match goal with H : told ?e = Ok _ |- _ => destruct e; discriminate H end);
        repeat match goal with A : supported_dir _ |- _ => apply sd_type in A | A : supported_shard _ |- _ => apply ss_type in A end;
        try (match goal with A : u_type _ = _ |- _ => rewrite A in NF end); try contradiction;
        try (match goal with A : is_root _ |- _ => destruct A as [? ->] end); subst; solve [contradiction | apply NF; exact Logic.I | apply NF; exact (eq_refl HAMTShard)].
    + rewrite (step_det _ _ _ _ S St) in Ag. destruct Ag as (w' & k' & E & R'). exists w'. split; [|exact R'].
      eapply walks_snoc; [exact W| | |exact Logic.I|left; reflexivity|exact E].
      * rewrite (rel_continue s w R), A. reflexivity.
      * apply (rel_pending s w c others R A).
Qed.

End exact.
