(** * Walk_astray: walks without debug assertions do what SpecWalkAstray.v says. *)
From Verif Require Import Base Tac Wire Utf8 Cid Pb Reader Visit Dir Walk SpecFile SpecDir SpecWalk
  Dir_proofs Visit_proofs Visit_thms Walk_proofs Walk_sim Walk_steps Walk_thms Walk_paths SpecFileSteps Steps_proofs SpecWalkSteps Walk_exact SpecWalkAstray.

(** ** Paths *)

Definition noslash (n : bytes) : Prop := ~ In x2f n.
(** a written path *)
Definition written (l : list bytes) : Prop := Forall noslash l /\ match l with [] => True | n :: _ => n <> [] end.

Lemma blank_component n : blank n = negb (is_component n).
Proof.
  unfold is_component, dot. destruct n as [|x [|y n]]; [reflexivity| |].
  - cbn. unfold bytes_eqb. cbn. rewrite andb_true_r. destruct (byte_eqb x x2e); reflexivity.
  - cbn. unfold bytes_eqb. cbn. rewrite andb_false_r. reflexivity.
Qed.
Lemma strip_snoc l n : strip (l ++ [n]) = if blank n then strip l else l ++ [n].
Proof.
  induction l as [|m l IH]; cbn [app strip].
  - destruct (blank n); reflexivity.
  - rewrite IH. destruct (blank n); [reflexivity|]. destruct (l ++ [n]) eqn:E; [destruct l; discriminate|reflexivity].
Qed.
Lemma strip_trim l : strip l = rev (trim (rev l)).
Proof.
  induction l as [|n l IH] using rev_ind; [reflexivity|]. rewrite strip_snoc, rev_app_distr. cbn [rev app trim]. rewrite blank_component.
  destruct (is_component n); cbn [negb]; [|exact IH]. cbn [rev]. rewrite rev_involutive. reflexivity.
Qed.
Lemma trim_app l n : trim (l ++ [n]) = match trim l with [] => trim [n] | t => t ++ [n] end.
Proof.
  induction l as [|m l IH]; [reflexivity|]. cbn [app trim]. destruct (is_component m); [reflexivity|exact IH].
Qed.

Lemma dot_case (q : list bytes) : Some (dot ++ unparts (match q with [] => [] | b :: l => [] :: b :: l end)) = Some (unparts (dot :: q)).
Proof. destruct q as [|b l]; [reflexivity|]. rewrite <- dot_unparts. reflexivity. Qed.
Lemma plain_case n (q : list bytes) : Some (unparts (match q with [] => [n] | b :: l => n :: b :: l end)) = Some (unparts (n :: q)).
Proof. destruct q as [|b l]; reflexivity. Qed.
Lemma up_model l : written l -> path_pop (unparts l) = option_map unparts (up l).
Proof.
  intros [S F]. destruct l as [|n r]; [reflexivity|]. cbn [up option_map]. inversion S as [|? ? Sn Sr]; subst.
  assert (G : forall first, match trim (rev (first :: r)) with _ :: t => Some (rev (trim t)) | [] => None end
    = match strip r with [] => if blank first then None else Some [] | r' => Some (match strip (removelast r') with [] => if blank first then [] else [first] | s => first :: s end) end).
  { intros first. cbn [rev]. rewrite trim_app. rewrite (strip_trim r). destruct (trim (rev r)) as [|y t] eqn:E.
    - cbn [rev trim]. rewrite blank_component. destruct (is_component first); reflexivity.
    - cbn [app rev]. assert (NE : rev t ++ [y] <> []) by (destruct (rev t); discriminate). destruct (rev t ++ [y]) eqn:E2; [congruence|]. rewrite <- E2 in *. clear E2.
      rewrite removelast_last, trim_app, strip_trim, rev_involutive. destruct (trim t) as [|z t'] eqn:E3.
      + cbn [rev trim]. rewrite blank_component. destruct (is_component first); reflexivity.
      + cbn [app rev]. rewrite rev_app_distr. cbn [app rev]. destruct (rev t' ++ [z]) eqn:E4; [destruct (rev t'); discriminate|]. reflexivity. }
  destruct (is_dot n) as [-> |Nd].
  - unfold path_pop. rewrite (parent_dot r Sr). specialize (G []). unfold bytes in *. destruct (trim (rev ([] :: r))) as [|y t].
    + destruct (strip r); [reflexivity|discriminate G].
    + destruct (strip r) as [|z r']; cbn [blank] in G; [discriminate G|]. apply (f_equal (fun o => match o with Some x => x | None => [] end)) in G. cbn beta iota in G. rewrite G. clear G.
      exact (dot_case _).
  - unfold path_pop. rewrite (parent_first n r (conj F Sn) Nd Sr). specialize (G n).
    assert (B : blank n = false).
    { rewrite blank_component. unfold is_component. rewrite (proj2 (bytes_eqb_neq n []) F), (proj2 (bytes_eqb_neq n dot) Nd). reflexivity. }
    rewrite B in G. remember (trim (rev (n :: r))) as q eqn:Eq. clear Eq. destruct q as [|y t].
    + destruct (strip r); discriminate G.
    + destruct (strip r) as [|z r']; apply (f_equal (fun o => match o with Some x => x | None => [] end)) in G; cbn beta iota in G; rewrite G; [reflexivity|]. clear G.
      exact (plain_case _ _).
Qed.
Lemma strip_incl l : incl (strip l) l.
Proof.
  induction l as [|n r IH]; cbn [strip]; [intros ? []|]. destruct (strip r) as [|m r'].
  - destruct (blank n); [intros ? []|]. intros x [-> |[]]. left. reflexivity.
  - intros x [-> |I]; [left; reflexivity|right; apply IH, I].
Qed.
Lemma removelast_incl {A} (l : list A) : incl (removelast l) l.
Proof.
  induction l as [|n r IH]; [intros ? []|]. cbn [removelast]. destruct r; [intros ? []|]. intros x [-> |I]; [left; reflexivity|right; apply IH, I].
Qed.
Lemma Forall_incl' {A} (P : A -> Prop) l l' : incl l' l -> Forall P l -> Forall P l'.
Proof. rewrite !Forall_forall. auto. Qed.
Lemma up_written l l' : written l -> up l = Some l' -> written l'.
Proof.
  intros [S F] H. destruct l as [|n r]; [discriminate|]. cbn [up] in H. injection H as <-. inversion S as [|? ? Sn Sr]; subst.
  destruct (strip r) as [|m r'] eqn:E; [split; constructor|]. split; [|exact F]. constructor; [exact Sn|].
  eapply Forall_incl'; [eapply incl_tran; [apply strip_incl|]|exact Sr]. eapply incl_tran; [exact (removelast_incl (m :: r'))|]. rewrite <- E. apply strip_incl.
Qed.
Lemma ups_written k : forall l l', written l -> ups k l = Some l' -> written l'.
Proof.
  induction k as [|k IH]; intros l l' W H; cbn [ups] in H; [injection H as <-; exact W|].
  destruct (up l) as [l1|] eqn:U; [|discriminate]. eapply IH; [eapply up_written; eassumption|exact H].
Qed.

Lemma unparts_snoc l n : l <> [] -> unparts (l ++ [n]) = unparts l ++ x2f :: n.
Proof.
  induction l as [|m l IH]; [congruence|]. intros _. destruct l as [|m' l]; [reflexivity|].
  change ((m :: m' :: l) ++ [n]) with (m :: (m' :: l) ++ [n]). rewrite unparts_cons by (destruct l; discriminate).
  rewrite IH by discriminate. rewrite (unparts_cons m (m' :: l)) by discriminate. rewrite <- app_assoc. reflexivity.
Qed.
Lemma last_byte m : noslash m -> m <> [] -> exists a x, m = a ++ [x] /\ byte_eqb x sep = false.
Proof.
  intros H NE. destruct (exists_last NE) as (a & x & ->). exists a, x. split; [reflexivity|].
  destruct (byte_eqb x sep) eqn:E; [|reflexivity]. apply byte_eqb_eq in E. subst x. exfalso. apply H, in_or_app. right. left. reflexivity.
Qed.
Lemma down_model l n : written l -> noslash n -> path_push (unparts l) n = unparts (down l n).
Proof.
  intros [S F] Hn. unfold path_push.
  assert (A : is_absolute n = false).
  { destruct n as [|x n]; [reflexivity|]. cbn. destruct (byte_eqb x sep) eqn:E; [|reflexivity]. apply byte_eqb_eq in E. subst. exfalso. apply Hn. left. reflexivity. }
  rewrite A. destruct (list_eq_dec (list_eq_dec byte_eq_dec) l []) as [-> |NE]; [destruct n; reflexivity|].
  destruct (exists_last NE) as (l0 & m & ->).
  assert (D : down (l0 ++ [m]) n = (match m with [] => l0 | _ => l0 ++ [m] end) ++ [n]).
  { unfold down. destruct (l0 ++ [m]) eqn:E; [destruct l0; discriminate|]. rewrite <- E, last_last, removelast_last. reflexivity. }
  rewrite D. apply Forall_app in S as [S0 Sm]. inversion Sm as [|? ? Sm' _]; subst. clear D Sm.
  pose proof unparts_snoc as US. unfold bytes in *.
  destruct m as [|x m].
  - destruct l0 as [|p l0]; [cbn in F; congruence|]. rewrite (US (p :: l0) []) by discriminate. rewrite rev_app_distr. cbn [rev app].
    change (byte_eqb x2f sep) with true. cbn iota. change (p :: l0 ++ [n]) with ((p :: l0) ++ [n]). rewrite (US (p :: l0) n) by discriminate. rewrite <- app_assoc. reflexivity.
  - destruct (last_byte (x :: m) Sm' ltac:(discriminate)) as (a & y & E & Y).
    assert (U : exists z, unparts (l0 ++ [x :: m]) = z ++ [y]).
    { destruct l0 as [|p l0]; [cbn [app unparts]; rewrite E; eauto|]. rewrite (US (p :: l0) (x :: m)) by discriminate. rewrite E.
      exists (unparts (p :: l0) ++ x2f :: a). rewrite <- app_assoc. reflexivity. }
    destruct U as [z U]. rewrite (US (l0 ++ [x :: m]) n) by (destruct l0; discriminate).
    rewrite U, rev_app_distr. cbn [rev app]. rewrite Y. reflexivity.
Qed.
Lemma down_written l n : written l -> noslash n -> written (down l n).
Proof.
  intros [S F] Hn. unfold down. destruct l as [|m r]; [destruct n as [|x n]; [split; constructor|split; [constructor; [exact Hn|constructor]|discriminate]]|].
  split.
  - apply Forall_app. split; [|constructor; [exact Hn|constructor]]. destruct (last (m :: r) []); [|exact S].
    eapply Forall_incl'; [apply removelast_incl|exact S].
  - destruct (last (m :: r) []) eqn:L; [|exact F]. destruct r as [|m' r]; [cbn in L; congruence|exact F].
Qed.

(** the number of steps up that are possible *)
Definition height (l : list bytes) : nat :=
  match l with [] => 0 | _ :: r => S (length (filter (fun n => negb (blank n)) r)) end.
Lemma filter_strip l : filter (fun n => negb (blank n)) (strip l) = filter (fun n => negb (blank n)) l.
Proof.
  induction l as [|n l IH] using rev_ind; [reflexivity|]. rewrite strip_snoc. destruct (blank n) eqn:B; [|reflexivity].
  rewrite IH, filter_app. cbn [filter]. rewrite B. cbn. rewrite app_nil_r. reflexivity.
Qed.
Lemma strip_last l m r : strip l = m :: r -> exists a n, m :: r = a ++ [n] /\ blank n = false.
Proof.
  revert m r. induction l as [|n l IH] using rev_ind; intros m r H; [discriminate|]. rewrite strip_snoc in H.
  destruct (blank n) eqn:B; [exact (IH _ _ H)|]. exists l, n. auto.
Qed.
Lemma up_height l l' : up l = Some l' -> height l = S (height l').
Proof.
  destruct l as [|n r]; [discriminate|]. intros H. cbn [up] in H. cbn [height]. rewrite <- filter_strip.
  destruct (strip r) as [|m r'] eqn:E; [injection H as <-; reflexivity|]. destruct (strip_last _ _ _ E) as (a & z & Ea & B).
  rewrite Ea in *. rewrite removelast_last in H. apply (f_equal (fun o => match o with Some x => x | None => [] end)) in H. cbn beta iota in H. subst l'.
  rewrite filter_app. cbn [filter]. rewrite B. cbn [negb height]. rewrite filter_strip, app_length. cbn. lia.
Qed.
Lemma ups_height k : forall l l', ups k l = Some l' -> height l = (k + height l')%nat.
Proof.
  induction k as [|k IH]; intros l l' H; cbn [ups] in H; [injection H as <-; reflexivity|].
  destruct (up l) as [l1|] eqn:U; [|discriminate]. apply up_height in U. apply IH in H. lia.
Qed.
Lemma down_height l n : (height (down l n) <= S (height l))%nat.
Proof.
  unfold down. destruct l as [|m r]; [destruct n; cbn; lia|].
  assert (G : forall x, (length (filter (fun n => negb (blank n)) (x ++ [n])) <= S (length (filter (fun n => negb (blank n)) x)))%nat).
  { intros x. rewrite filter_app, app_length. cbn [filter]. destruct (negb (blank n)); cbn; lia. }
  destruct (last (m :: r) []) eqn:L; [|cbn [app height]; specialize (G r); lia].
  destruct r as [|m' r]; [cbn in *; lia|]. change (removelast (m :: m' :: r)) with (m :: removelast (m' :: r)). cbn [app height].
  specialize (G (removelast (m' :: r))).
  assert (H : (length (filter (fun n => negb (blank n)) (removelast (m' :: r))) <= length (filter (fun n => negb (blank n)) (m' :: r)))%nat).
  { destruct (exists_last (l := m' :: r) ltac:(discriminate)) as (a & z & ->). rewrite removelast_last, filter_app, app_length. lia. }
  lia.
Qed.
Lemma down_none_height l : (height (down l []) <= height l)%nat.
Proof.
  assert (G : forall (n : bytes) x, blank n = true -> length (filter (fun n => negb (blank n)) (x ++ [n])) = length (filter (fun n => negb (blank n)) x)).
  { intros n x B. rewrite filter_app, app_length. cbn [filter]. rewrite B. cbn. lia. }
  unfold down. destruct l as [|m r]; [cbn; lia|].
  destruct (last (m :: r) []) eqn:L; [|cbn [app height]; rewrite G by reflexivity; lia].
  destruct r as [|m' r]; [cbn in *; lia|]. change (removelast (m :: m' :: r)) with (m :: removelast (m' :: r)). cbn [app height].
  rewrite G by reflexivity.
  destruct (exists_last (l := m' :: r) ltac:(discriminate)) as (a & z & ->). rewrite removelast_last, filter_app, app_length. lia.
Qed.

(** *** the loops *)
Lemma pop_to_model d : forall depth l, written l -> (1 <= depth)%nat ->
  pop_to d depth (unparts l) = match ups (S d - depth) l with Some l' => Ok (unparts l') | None => Panic end.
Proof.
  induction d as [|d IH]; intros depth l W H; cbn [pop_to].
  - replace (1 - depth)%nat with 0%nat by lia. reflexivity.
  - destruct (Nat.leb_spec depth (S d)) as [L|L].
    + replace (S (S d) - depth)%nat with (S (S d - depth)) by lia. cbn [ups]. rewrite up_model by exact W.
      destruct (up l) as [l1|] eqn:U; cbn [option_map unwrap bind]; [|reflexivity]. apply IH; [eapply up_written; eassumption|exact H].
    + replace (S (S d) - depth)%nat with 0%nat by lia. reflexivity.
Qed.
Lemma pop_bucket_model d : forall depth l, written l -> (depth <= d)%nat ->
  pop_bucket d depth (unparts l) = match ups (d - depth) l with Some l' => Ok (unparts l', depth) | None => Panic end.
Proof.
  induction d as [|d IH]; intros depth l W H.
  - replace depth with 0%nat by lia. reflexivity.
  - cbn [pop_bucket]. destruct (Nat.ltb_spec depth (S d)) as [L|L].
    + replace (S d - depth)%nat with (S (d - depth)) by lia. cbn [ups]. rewrite up_model by exact W.
      destruct (up l) as [l1|] eqn:U; cbn [option_map unwrap bind]; [|reflexivity]. apply IH; [eapply up_written; eassumption|lia].
    + replace depth with (S d) by lia. rewrite Nat.sub_diag. reflexivity.
Qed.

(** ** The walker of a state *)
Section astray.
Context (X : ext) (Hdbg : ext_dbg X = false).

Definition good_at (n : nat) (e : cid * place) : Prop :=
  (exists dir m, snd e = Entry dir m /\ seg m /\ length dir = n) \/ (exists dir, snd e = Bucket dir /\ length dir = n).
Inductive lchain : nat -> list (cid * place) -> Prop :=
| lc_nil : forall n, lchain n []
| lc_cons : forall n m e q, (m <= n)%nat -> good_at m e -> lchain m q -> lchain n (e :: q).
Lemma lchain_more n m q : lchain n q -> (n <= m)%nat -> lchain m q.
Proof. intros [|? m' ? ? L G H] Hm; [constructor|]. eapply lc_cons; [|exact G|exact H]. lia. Qed.
Lemma lchain_app n es q : Forall (good_at n) es -> lchain n q -> lchain n (es ++ q).
Proof. intros G H. induction G as [|e es G _ IH]; [exact H|]. cbn [app]. eapply lc_cons; [|exact G|exact IH]. lia. Qed.
Lemma good_good_at dir e : good dir e -> good_at (length dir) e.
Proof. intros [(n & E & S)|E]; [left; exists dir, n; auto|right; exists dir; auto]. Qed.

Definition kind_at (pr : prior) (ie : inner_entry) (n : nat) (q : list (cid * place)) : Prop :=
  match pr with
  | Nothing => False
  | PlainDirectory => ie_kind ie = KDirectory \/ ie_kind ie = KRootDirectory
  | RootShard c => ie_kind ie = KBucketAtRoot /\ ie_cid ie = c /\ Forall (good_at n) q
  | Other => ie_kind ie = KRootBucket \/ ie_kind ie = KBucket \/ (exists z, ie_kind ie = KFile None z) \/ ie_kind ie = KSymlink
  end.
Definition at_level (ie : inner_entry) (l : list bytes) (n : nat) : Prop :=
  ie_path ie = unparts l /\ ie_depth ie = S n /\ written l /\ (height l <= n)%nat.

Inductive ARel : astray -> walker -> Prop :=
| ar_begin : forall root name, noslash name -> ARel (Astray (beginning root name) [] 0) (walker_new root name)
| ar_mid : forall pr q ie l n, at_level ie l n -> lchain n q -> kind_at pr ie n q ->
    ARel (Astray (State pr None q) l n) (queued ie q (negb (is_nil q)))
| ar_file : forall q ie r v l n, at_level ie l n -> lchain n q ->
    ie_cid ie = r_cid r -> ie_metadata ie = r_metadata r -> ie_kind ie = KFile (Some v) (r_size r) ->
    r_links r <> [] -> tracks v None (r_links r) (r_prev r) ->
    ARel (Astray (State Other (Some r) q) l n) (queued ie q true).

Lemma arel_continue a w : ARel a w -> should_continue w = negb (is_nil (awaited (a_state a))).
Proof.
  intros [root name _|pr q ie l n _ _ _|q ie r v l n _ _ _ _ _ NE _]; unfold awaited; cbn; [reflexivity|destruct q; reflexivity|].
  destruct (r_links r); [congruence|reflexivity].
Qed.
Lemma arel_pending a w c others : ARel a w -> awaited (a_state a) = c :: others -> w_pending_links w = Ok (c, others).
Proof.
  intros [root name _|pr q ie l n _ _ K|q ie r v l n _ _ _ _ K NE (T1 & T2 & T3)]; unfold awaited; cbn.
  - intros [= -> <-]. reflexivity.
  - intros E. destruct q as [|[c0 p] q]; [discriminate|]. cbn in E. injection E as -> <-. unfold w_pending_links, queued. cbn [w_current option_map w_next w_pending map hd_error tl encl fst snd].
    assert (M : map link_cid_of (map encl q) = map fst q) by (rewrite map_map; reflexivity). rewrite M.
    destruct (ie_kind ie) as [| | | | |[v|] z|] eqn:E; try reflexivity.
    exfalso. destruct pr; cbn in K; rewrite ?E in K; intuition (try discriminate). destruct H as [? H]; discriminate.
  - intros E. unfold w_pending_links, queued. cbn [w_current option_map w_next w_pending]. rewrite K. unfold pending_links. rewrite T1.
    destruct (r_links r) as [|[c0 rg] rest]; [congruence|]. cbn in E. injection E as -> <-.
    destruct q as [|e q]; cbn [map hd_error tl]; [reflexivity|]. cbn [app]. repeat f_equal. rewrite map_map. reflexivity.
Qed.
Lemma arel_not_file pr q l n w : ARel (Astray (State pr None q) l n) w -> forall ie, w_current w = Some ie -> in_file (ie_kind ie) = false.
Proof.
  intros R. inversion R as [root name _|? ? ie l' n' _ _ K|]; subst; [discriminate|]. intros ie' [= <-].
  destruct pr; cbn in K; [tauto|..].
  - destruct K as [-> | ->]; reflexivity.
  - destruct K as (-> & _). reflexivity.
  - destruct K as [-> |[-> |[[z ->]| ->]]]; reflexivity.
Qed.
Lemma arel_next pr c p q l n w : ARel (Astray (State pr None ((c, p) :: q)) l n) w ->
  w_next w = Some (c, fst (enc p), snd (enc p)) /\ w_pending w = map encl q.
Proof.
  intros R. inversion R as [root name _|? ? ie l' n' _ _ K|]; subst; [|split; reflexivity].
  split; [|reflexivity]. cbn. destruct name; reflexivity.
Qed.
Lemma arel_root pr c p q l n w : ARel (Astray (State pr None ((c, p) :: q)) l n) w -> (is_root p <-> w_current w = None).
Proof.
  intros R. inversion R as [root name _|? ? ie l' n' _ Q K|]; subst; [cbn; split; [reflexivity|intros _; eexists; reflexivity]|].
  split; [|discriminate]. intros [m ->]. exfalso. inversion Q as [|? ? ? ? _ [(? & ? & G & _)|(? & G & _)]]; subst; discriminate.
Qed.

Lemma set_path_astray ie l n name depth : at_level ie l n -> noslash name -> (1 <= depth)%nat ->
  set_path X ie name depth = match option_map (fun l => down l name) (ups (S (S n) - depth) l) with
                             | Some l' => Ok (unparts l')
                             | None => Panic
                             end.
Proof.
  intros (P & D & W & _) Sn Hd. unfold set_path, dassert. rewrite Hdbg. cbn [bind]. rewrite P, D, pop_to_model by assumption.
  destruct (ups (S (S n) - depth) l) as [l'|] eqn:U; cbn [bind option_map]; [|reflexivity].
  rewrite down_model by (assumption || (eapply ups_written; eassumption)). reflexivity.
Qed.

Lemma entry_astray pr c p q l n w t k md : ARel (Astray (State pr None ((c, p) :: q)) l n) w -> (forall d, p = Bucket d -> t <> HAMTShard) ->
  match arrive l n p t with
  | Some l' => entry_of X (w_current w) k c (fst (enc p)) (snd (enc p)) md = Ok (InnerEntry c k (unparts l') md (S (length (names p))))
      /\ written l' /\ (height l' <= length (names p))%nat /\ lchain (length (names p)) q
  | None => entry_of X (w_current w) k c (fst (enc p)) (snd (enc p)) md = Panic
  end.
Proof.
  intros R NB. pose proof (arel_not_file _ _ _ _ _ R) as NF. inversion R as [root name NS|? ? ie l' n' A Q K|]; subst.
  - cbn [walker_new w_current entry_of arrive enc snd fst]. unfold new_root.
    assert (W : written (names (AtRoot name))).
    { cbn [names]. destruct name; [split; constructor|split; [constructor; [exact NS|constructor]|discriminate]]. }
    split; [|split; [exact W|split; [cbn [names]; destruct name; cbn; lia|constructor]]].
    do 2 f_equal. destruct name as [|x name]; [reflexivity|].
    change (path_push (unparts []) (x :: name) = unparts (down [] (x :: name))). apply down_model; [split; constructor|exact NS].
  - inversion Q as [|? m ? ? L G Q']; subst. cbn [queued w_current entry_of]. unfold as_entry. rewrite (NF ie eq_refl).
    destruct G as [(dir & nm & G & Sn & <-)|(dir & G & <-)]; cbn [snd] in G; subst p; cbn [enc fst snd arrive names].
    + rewrite (set_path_astray ie l n nm (S (S (length dir))) A) by (apply Sn || lia). cbn [Nat.sub].
      destruct (ups (n - length dir) l) as [l1|] eqn:U; cbn [option_map bind]; [|reflexivity].
      rewrite app_length. cbn [length]. rewrite Nat.add_1_r. destruct A as (A1 & A2 & A3 & A4).
      split; [reflexivity|]. split; [apply down_written; [eapply ups_written; eassumption|apply Sn]|].
      split; [|eapply lchain_more; [exact Q'|lia]]. pose proof (down_height l1 nm). apply ups_height in U. lia.
    + specialize (NB dir eq_refl). rewrite (set_path_astray ie l n [] (S (length dir)) A) by ((intros []) || lia).
      assert (E : arrive l n (Bucket dir) t = option_map (fun l => down l []) (ups (S n - length dir) l)) by (destruct t; try reflexivity; congruence).
      cbn [arrive] in E. rewrite E. change (S (S n) - S (length dir))%nat with (S n - length dir)%nat. destruct (ups (S n - length dir) l) as [l1|] eqn:U; cbn [option_map bind]; [|reflexivity].
      destruct A as (A1 & A2 & A3 & A4).
      split; [reflexivity|]. split; [apply down_written; [eapply ups_written; eassumption|intros []]|].
      split; [|exact Q']. pose proof (down_none_height l1). apply ups_height in U. lia.
Qed.

Lemma bucket_astray pr c dir q l n w : ARel (Astray (State pr None ((c, Bucket dir) :: q)) l n) w ->
  exists ie, w_current w = Some ie /\
  match pr with
  | Nothing => False
  | PlainDirectory => as_bucket ie c [] (S (length dir)) = Panic
  | RootShard root => as_bucket ie c [] (S (length dir)) = Ok ie /\ ie_cid ie = root /\ ie_path ie = unparts l /\ length dir = n
      /\ ie_kind ie = KBucketAtRoot /\ at_level ie l n /\ Forall (good_at n) q /\ lchain n q
  | Other => match ups (n - length dir) l with
             | Some l' => exists ie', as_bucket ie c [] (S (length dir)) = Ok ie' /\ ie_cid ie' = c /\ ie_path ie' = unparts l'
                 /\ ie_kind ie' = KBucket /\ at_level ie' l' (length dir) /\ lchain (length dir) q
             | None => as_bucket ie c [] (S (length dir)) = Panic
             end
  end.
Proof.
  intros R. inversion R as [|? ? ie l' n' A Q K|]; subst. exists ie. split; [reflexivity|].
  inversion Q as [|? m ? ? L G Q']; subst. destruct G as [(? & ? & G & _)|(dir' & G & <-)]; [discriminate|]. cbn [snd] in G. injection G as <-.
  unfold as_bucket. destruct pr as [| |root|]; cbn in K.
  - exact K.
  - destruct K as [-> | ->]; reflexivity.
  - destruct K as (K & C & F). rewrite K. inversion F as [|? ? G F']; subst. destruct G as [(? & ? & G & _)|(d & G & E)]; [discriminate|].
    cbn [snd] in G. injection G as <-. pose proof A as (A1 & A2 & A3 & A4). rewrite A2, <- E. unfold assert. rewrite Nat.eqb_refl. cbn [bind].
    rewrite E. split; [reflexivity|]. split; [reflexivity|]. split; [exact A1|]. split; [reflexivity|]. split; [reflexivity|]. split; [exact A|]. split; [exact F'|].
    eapply lchain_more; [exact Q'|lia].
  - destruct A as (A1 & A2 & A3 & A4).
    assert (P : pop_bucket (ie_depth ie) (S (length dir)) (ie_path ie) = match ups (n - length dir) l with Some l' => Ok (unparts l', S (length dir)) | None => Panic end).
    { rewrite A1, A2, pop_bucket_model by (assumption || lia). reflexivity. }
    destruct (ups (n - length dir) l) as [l1|] eqn:U.
    + assert (W : written l1 /\ (height l1 <= length dir)%nat).
      { split; [eapply ups_written; eassumption|]. apply ups_height in U. lia. }
      destruct W as [W1 W2].
      destruct K as [-> |[-> |[[z ->]| ->]]]; cbn [is_nil assert bind]; rewrite P; cbn [bind fst snd]; rewrite Nat.eqb_refl; cbn [assert bind];
        (eexists; split; [reflexivity|]; split; [reflexivity|]; split; [reflexivity|]; split; [reflexivity|]; split; [split; [reflexivity|split; [reflexivity|split; assumption]]|assumption]).
    + destruct K as [-> |[-> |[[z ->]| ->]]]; cbn [is_nil assert bind]; rewrite P; reflexivity.
Qed.

(** whether links are in order does not depend on the directory *)
Definition same_verdict {A B} (r : outcome walk_error A) (r' : outcome walk_error B) : Prop :=
  match r, r' with Ok _, Ok _ => True | Err e, Err e' => e = e' | Panic, Panic => True | Diverge, Diverge => True | _, _ => False end.
Lemma link_dir_indep dir dir' i l r : link_in_dir X dir i l r -> exists r', link_in_dir X dir' i l r' /\ same_verdict r r'.
Proof.
  intros [C|c C N S|c C N]; eexists; (split; [|shelve]); [apply d_invalid; exact C|eapply d_named; eassumption|eapply d_panic; eassumption].
  Unshelve. all: cbn; auto.
Qed.
Lemma links_dir_indep dir dir' : forall ls i r, links_in (link_in_dir X dir) i ls r -> exists r', links_in (link_in_dir X dir') i ls r' /\ same_verdict r r'.
Proof.
  intros ls i r H. induction H as [i|i l ls e es H IH O|i l ls es e H IH O|i l ls es H IH O|i l ls r H IH NE].
  - exists (Ok []). split; [constructor|exact Logic.I].
  - destruct IH as ([es'| | |] & H' & S); try destruct S. destruct (link_dir_indep _ dir' _ _ _ O) as ([e'| | |] & O' & S'); try destruct S'.
    eexists. split; [apply l_good; eassumption|exact Logic.I].
  - destruct IH as ([es'| | |] & H' & S); try destruct S. destruct (link_dir_indep _ dir' _ _ _ O) as ([e'| | |] & O' & S'); cbn in S'; try destruct S'.
    eexists. split; [eapply l_error; eassumption|reflexivity].
  - destruct IH as ([es'| | |] & H' & S); try destruct S. destruct (link_dir_indep _ dir' _ _ _ O) as ([e'| | |] & O' & S'); cbn in S'; try destruct S'.
    eexists. split; [eapply l_panic; eassumption|exact Logic.I].
  - destruct IH as (r' & H' & S). exists r'. split; [apply l_later; [exact H'|]|exact S]. intros es ->. destruct r; cbn in S; try contradiction. eapply NE; reflexivity.
Qed.

Definition aagrees (res : outcome walk_error (continued * astray)) (wr : walk_result) : Prop :=
  match res with
  | Ok (it, a') => exists w' k', wr = (Ok it, w', k') /\ ARel a' w'
  | Err e => exists w' k', wr = (Err e, w', k') /\ should_continue w' = false
  | Panic => fst (fst wr) = Panic
  | Diverge => fst (fst wr) = Diverge
  end.
Lemma fits_stand_in p t : ~ fits p t -> fits (stand_in p) t.
Proof. destruct p as [n|d n|d]; cbn; intros H; [exact Logic.I|right; discriminate..]. Qed.
Lemma stand_in_not_root p t : ~ fits p t -> ~ is_root (stand_in p).
Proof. destruct p as [n|d n|d]; cbn; intros H [m E]; [apply H; exact Logic.I|discriminate..]. Qed.
Lemma stand_in_level p t : ~ fits p t -> p <> Bucket [] -> length (names (stand_in p)) = length (names p).
Proof.
  destruct p as [n|d n|d]; cbn [stand_in names]; intros H NE; [reflexivity|rewrite !app_length; reflexivity|].
  destruct (exists_last (l := d) ltac:(congruence)) as (a & z & ->). rewrite removelast_last, !app_length. reflexivity.
Qed.
(** a place at which the block fits *)
Lemma place_for pr q c p f : exists p0, fits p0 (u_type (f_data f))
  /\ (forall r, enters X pr q c p0 f r -> enters_anyway X pr q c p f r)
  /\ (p0 = p \/ ~ fits p (u_type (f_data f)) /\ p0 = stand_in p).
Proof.
  destruct (fits_dec p (u_type (f_data f))) as [F|F].
  - exists p. split; [exact F|]. split; [intros r H; apply a_fits; assumption|auto].
  - exists (stand_in p). split; [apply fits_stand_in, F|]. split; [intros r H; apply a_misfit; assumption|auto].
Qed.

Lemma strays_model a w b k : ARel a w -> awaited (a_state a) <> [] -> clean_cache k ->
  exists res, strays X a b res /\ aagrees res (walk_next X w b k).
Proof.
  intros R NE K. destruct a as [[pr [r|] q] l n]; cbn [a_state] in NE.
  - (* inside a file *)
    inversion R as [| |? ie ? v ? ? A Q C M Kd NL T]; subst. destruct T as (T1 & T2 & T3).
    unfold walk_next, queued. cbn [w_current]. destruct ie as [ic ik ip im id]. cbn in Kd, C, M. subst ik ic im.
    unfold next_in_file. cbn [w_next w_pending ie_cid ie_path ie_metadata ie_depth].
    destruct (r_links r) as [|[c rg] rest] eqn:L; [congruence|].
    destruct (continue_model X v b k c rg rest) as (res & N & D); [rewrite T2; exact Logic.I|exact T1|]. rewrite T2, <- T3 in N.
    destruct (continue_walk X v b k) as [cr k'] eqn:CW. cbn [fst] in D.
    destruct res as [[[out links] prev]|e| |].
    + destruct D as (ov & k2 & E & D). injection E as -> ->. cbn [walk_read].
      eexists. split; [eapply y_file, s_file_more; [exact L|exact N]|]. cbn [aagrees with_path]. pose proof A as (A1 & A2 & A3 & A4). cbn in A1, A2. rewrite slashed_unparts, <- A1.
      destruct ov as [v'|]; cbn [negb orb].
      * destruct D as (D1 & D2 & D3 & D4).
        assert (NE' : links <> []).
        { intros ->. destruct (D1 eq_refl) as (s0 & e0 & ->). clear - N.
          inversion N as [| | | | |f res MP P NM O]; subst. inversion O as [| | | |? ? ps J PK| |]; subst.
          inversion J as [| | | | | | | |size e1 F M V B Z PL NL]; subst.
          match goal with H : ?a ++ _ = [] |- _ => apply app_eq_nil in H as [H _]; subst a end.
          destruct (f_links f) as [|l0 ls]; [congruence|]. inversion PK; subst;
          [match goal with H : ~ touches None _ |- _ => apply H; exact Logic.I end|match goal with H : forall ps, Ok _ <> Ok ps |- _ => eapply H; reflexivity end]. }
        eexists _, _. split; [unfold ends; cbn [r_links]; destruct links; [congruence|reflexivity]|].
        unfold remains. cbn [r_links]. destruct links as [|l0 links]; [congruence|].
        eapply (ar_file q _ (Reading (r_cid r) (r_place r) (r_metadata r) (r_size r) (l0 :: links) prev) v'); cbn; try reflexivity; try assumption; try discriminate.
        split; [exact D2|]. split; [rewrite D3; exact T2|exact D4].
      * destruct D as [-> _]. eexists _, _. split; [reflexivity|]. cbn [remains r_links].
        assert (W : Walker (Some (InnerEntry (r_cid r) (KFile None (r_size r)) ip (r_metadata r) id)) (hd_error (map encl q)) (tl (map encl q))
                      (match hd_error (map encl q) with Some _ => true | None => false end)
                    = queued (InnerEntry (r_cid r) (KFile None (r_size r)) ip (r_metadata r) id) q (negb (is_nil q))) by (destruct q; reflexivity).
        rewrite W. eapply ar_mid; [exact A|exact Q|]. cbn. eauto.
    + subst cr. exists (failure (told e)). split; [apply y_file_fails; [eapply s_file_error; [exact L|exact N]|destruct e; discriminate]|].
      destruct e; cbn [told failure walk_read aagrees]; try (eexists _, _; split; reflexivity); reflexivity.
    + subst cr. exists Panic. split; [apply (y_file_fails X _ _ _ _ _ _ Panic); [eapply s_file_panic; [exact L|exact N]|discriminate]|reflexivity].
    + subst cr. exists Diverge. split; [apply (y_file_fails X _ _ _ _ _ _ Diverge); [eapply s_file_diverge; [exact L|exact N]|discriminate]|reflexivity].
  - pose proof (arel_not_file _ _ _ _ _ R) as NF. destruct (try_parse (ext_dbg X) b) as [f|e| |] eqn:P.
    2-4: unfold walk_next; rewrite P;
      assert (W : forall T (g : inner_entry -> file_visit -> N -> T) (h : T),
        match w_current w with Some (InnerEntry _ (KFile (Some v) size) _ _ _ as ie) => g ie v size | _ => h end = h)
        by (intros; destruct (w_current w) as [[ic [| | | | |[v|] sz|] ip im id]|]; try reflexivity; specialize (NF _ eq_refl); discriminate NF);
      rewrite W; clear W.
    2:{ exists (failure (@Err walk_error (continued * state) (unparsable e))). split; [apply y_unparsable; [apply s_unparsable; exact P|intros f E; congruence]|].
        cbn [aagrees failure]. unfold failed. eexists _, _. split; [destruct e; reflexivity|reflexivity]. }
    2:{ exists Panic. split; [apply (y_unparsable X _ _ _ _ _ Panic); [apply s_panic; exact P|intros f E; congruence]|reflexivity]. }
    2:{ exists Diverge. split; [apply (y_unparsable X _ _ _ _ _ Diverge); [apply s_diverge; exact P|intros f E; congruence]|reflexivity]. }
    destruct q as [|[c p] q]; [exfalso; apply NE; reflexivity|].
    destruct (arel_next _ _ _ _ _ _ _ R) as [Wn Wp].
    assert (Pf : try_parse false b = Ok f) by (rewrite <- Hdbg; exact P).
    (* the cases of the conclusion *)
    remember (walk_next X w b k) as W eqn:EW.
    assert (CFail : forall res, enters_anyway X pr q c p f res -> (forall x, res <> Ok x) -> aagrees (failure res) W ->
      exists res, strays X (Astray (State pr None ((c, p) :: q)) l n) b res /\ aagrees res W).
    { intros res H1 H2 H3. exists (failure res). split; [eapply y_fails; eassumption|exact H3]. }
    assert (COk : forall it s', enters_anyway X pr q c p f (Ok (it, s')) ->
      match arrive l n p (u_type (f_data f)) with
      | Some l' => aagrees (Ok (with_path (slashed l') it, Astray s' l' (length (names p)))) W
      | None => fst (fst W) = Panic
      end -> exists res, strays X (Astray (State pr None ((c, p) :: q)) l n) b res /\ aagrees res W).
    { intros it s' H1 H2. destruct (arrive l n p (u_type (f_data f))) as [l'|] eqn:A.
      - eexists; split; [eapply y_arrives; eassumption|exact H2].
      - exists Panic. split; [eapply y_lost; eassumption|exact H2]. }
    rewrite (next_not_file X w b k NF f P) in EW. rewrite Wn in EW.
    destruct (place_for pr q c p f) as (p0 & F0 & EA & P0).
    assert (Rt : is_root p0 <-> is_root p).
    { destruct P0 as [-> |[NF0 ->]]; [reflexivity|]. split; [intros H; exfalso; exact (stand_in_not_root _ _ NF0 H)|intros [m ->]; exfalso; apply NF0; exact Logic.I]. }
    destruct (u_type (f_data f)) eqn:T.
    1,3: (* files *)
      assert (IF : is_file (f_data f)) by (unfold is_file; auto);
      destruct (start_walk X f k b K P) as (r & k' & S1 & O & D); unfold idle_default in EW; rewrite S1 in EW; clear S1;
      destruct r as [[[out links] prev]|e| |];
      [|apply (CFail (told e)); [apply EA, e_file_error; assumption|destruct e; discriminate|]; rewrite EW, D; pose proof (opened_err _ _ _ _ _ O) as NR; destruct e; cbn [told failure walk_read aagrees]; try (eexists _, _; split; reflexivity); exfalso; eapply NR; reflexivity
       |apply (CFail Panic); [apply EA, e_file_panic; assumption|discriminate|rewrite EW, D; reflexivity]
       |exfalso; inversion O];
      destruct D as (size & ov & Z & D0 & D); rewrite D0 in EW; cbn [walk_read] in EW;
      change (match w_current w with None => Ok (new_root (KFile ov size) c (says (f_data f)) (fst (enc p)) (snd (enc p))) | Some ie => as_entry X ie (KFile ov size) c (fst (enc p)) (snd (enc p)) (says (f_data f)) end)
        with (entry_of X (w_current w) (KFile ov size) c (fst (enc p)) (snd (enc p)) (says (f_data f))) in EW;
      eapply COk; [apply EA; eapply e_file; [exact IF|exact O|rewrite T; exact F0|exact Z]|];
      match goal with |- match arrive _ _ _ ?t with _ => _ end => pose proof (entry_astray pr c p q l n w t (KFile ov size) (says (f_data f)) R ltac:(discriminate)) as EN end;
      (destruct (arrive l n p _) as [l'|] eqn:Ar; [|rewrite EW, EN; reflexivity]); destruct EN as (EN & Wl & Hl & Ql);
      rewrite EN, Wp in EW; rewrite EW; cbn [aagrees ie_cid ie_path ie_metadata with_path]; rewrite (slashed_unparts l');
      (destruct ov as [v|];
       [destruct D as [NL Tr]; unfold ends, remains; cbn [r_links]; destruct links as [|l0 links]; [congruence|];
        exists (queued (InnerEntry c (KFile (Some v) size) (unparts l') (says (f_data f)) (S (length (names p)))) q true), k';
        split; [destruct q; reflexivity|];
        apply (ar_file q _ (Reading c p0 (says (f_data f)) size (l0 :: links) prev) v); cbn; try reflexivity; try assumption; try discriminate;
        (split; [reflexivity|split; [reflexivity|split; [exact Wl|exact Hl]]])
       |subst links; cbn [ends remains r_links];
        exists (queued (InnerEntry c (KFile None size) (unparts l') (says (f_data f)) (S (length (names p)))) q (negb (is_nil q))), k';
        split; [destruct q; reflexivity|];
        eapply ar_mid; [(split; [reflexivity|split; [reflexivity|split; [exact Wl|exact Hl]]])|exact Ql|cbn; eauto]]).
    (* plain directories *)
    + destruct (check_dir_model f T) as [[Su Ck]|[Su Ck]]; rewrite Ck in EW; clear Ck.
      2:{ eapply CFail; [apply EA, e_dir_props; assumption|discriminate|]. rewrite EW. eexists _, _. split; reflexivity. }
      pose proof (entry_astray pr c p q l n w Directory KDirectory (metadata_of (f_data f)) R ltac:(discriminate)) as EN.
      destruct (links_model (names p) (link_in_dir X (names p)) (convert_link X (S (snd (enc p)))) ltac:(rewrite enc_depth; apply link_dir_model) (f_links f) 0 (w_pending w)) as (lr & L & LR).
      match type of EW with context [finish_dir w (f_links f) ?cv ?en k] => pose proof (finish_model w (f_links f) cv en k q lr) as FD end.
      destruct (links_dir_indep _ (names p0) _ _ _ L) as (lr0 & L0 & SV).
      destruct lr as [es|e| |]; destruct lr0 as [es0|e0| |]; try (exfalso; exact SV); try (exfalso; exact LR).
      2:{ cbn in SV. subst e0. eapply CFail; [apply EA, e_dir_link; eassumption|discriminate|rewrite EW; apply FD; assumption]. }
      2:{ eapply CFail; [apply EA, e_dir_panic; eassumption|discriminate|rewrite EW; apply FD; assumption]. }
      destruct LR as [LR G]. specialize (FD LR Wp). rewrite <- EW in FD.
      destruct (root_dec p) as [Rp|Rp].
      * assert (p0 = p) as -> by (destruct P0 as [-> |[NF0 _]]; [reflexivity|exfalso; destruct Rp as [m ->]; apply NF0; exact Logic.I]).
        pose proof (proj1 (arel_root _ _ _ _ _ _ _ R) Rp) as C.
        clear L0 SV.
        eapply COk; [apply EA; apply e_root_dir; eassumption|].
        destruct (arrive l n p Directory) as [l'|] eqn:Ar; [|destruct Rp as [m ->]; discriminate Ar].
        destruct EN as (EF & Wl & Hl & Ql). unfold entry_of in EF. rewrite C in EF, FD. injection EF as EF Ed. cbn [aagrees with_path]. rewrite (slashed_unparts l').
        eexists _, _. split; [rewrite FD, EF, Steps_proofs.says_metadata; reflexivity|].
        eapply ar_mid; [|apply lchain_app; [eapply Forall_impl; [apply good_good_at|exact G]|exact Ql]|cbn; auto].
        split; [exact EF|split; [exact Ed|split; [exact Wl|exact Hl]]].
      * assert (C : w_current w <> None) by (intros E; apply Rp, (arel_root _ _ _ _ _ _ _ R), E).
        eapply COk; [apply EA; apply e_dir; [exact Su|exact L0|rewrite Rt; exact Rp|exact F0]|].
        unfold entry_of in EN. destruct (w_current w) as [ie|]; [|congruence].
        destruct (arrive l n p Directory) as [l'|] eqn:Ar.
        2:{ rewrite EN in FD. exact FD. }
        destruct EN as (EF & Wl & Hl & Ql). rewrite EF in *. cbn [bind ie_cid ie_path ie_metadata] in *. cbn [aagrees with_path]. rewrite (slashed_unparts l').
        assert (EE : map encl es0 = map encl es /\ Forall (good_at (length (names p))) es0).
        { assert (LE : length (names p0) = length (names p)).
          { destruct P0 as [-> |[NF0 ->]]; [reflexivity|]. apply (stand_in_level p Directory); [exact NF0|]. intros ->.
            cbn [arrive length] in Ar. rewrite Nat.sub_0_r in Ar. destruct (ups (S n) l) as [l1|] eqn:U; [|discriminate]. apply ups_height in U.
            inversion R as [|? ? ie0 l0 n0 A _ _|]; subst. destruct A as (_ & _ & _ & A). lia. }
          destruct (links_model (names p0) (link_in_dir X (names p0)) (convert_link X (S (snd (enc p)))) ltac:(rewrite enc_depth, <- LE; apply link_dir_model) (f_links f) 0 (w_pending w)) as (lr2 & L2 & LR2).
          pose proof (links_det _ (link_dir_det X (names p0)) _ _ _ L0 _ L2) as <-. destruct LR2 as [LR2 G2]. rewrite LR in LR2. injection LR2 as LR2.
          apply app_inv_tail in LR2. split; [symmetry; exact LR2|]. rewrite <- LE. eapply Forall_impl; [apply good_good_at|exact G2]. }
        destruct EE as [EE EG]. 
        assert (QE : queued (InnerEntry c KDirectory (unparts l') (metadata_of (f_data f)) (S (length (names p)))) (es ++ q) (negb (is_nil (es ++ q)))
                   = queued (InnerEntry c KDirectory (unparts l') (metadata_of (f_data f)) (S (length (names p)))) (es0 ++ q) (negb (is_nil (es0 ++ q)))).
        { unfold queued. rewrite !map_app, EE. do 2 f_equal. destruct es, es0; (reflexivity || discriminate EE). }
        rewrite QE in FD. eexists _, _. split; [rewrite FD, <- Steps_proofs.says_metadata; reflexivity|].
        eapply ar_mid; [|apply lchain_app; [exact EG|exact Ql]|cbn; auto].
        (split; [reflexivity|split; [reflexivity|split; [exact Wl|exact Hl]]]).
    + (* Metadata *) eapply CFail; [apply EA, e_metadata; exact T|discriminate|]. rewrite EW. eexists _, _. split; reflexivity.
    + (* symlinks *)
      change (match w_current w with None => Ok (new_root KSymlink c (metadata_of (f_data f)) (fst (enc p)) (snd (enc p))) | Some ie => as_entry X ie KSymlink c (fst (enc p)) (snd (enc p)) (metadata_of (f_data f)) end)
        with (entry_of X (w_current w) KSymlink c (fst (enc p)) (snd (enc p)) (metadata_of (f_data f))) in EW.
      eapply COk; [apply EA, e_symlink; [exact T|exact F0]|].
      pose proof (entry_astray pr c p q l n w Symlink KSymlink (metadata_of (f_data f)) R ltac:(discriminate)) as EN.
      destruct (arrive l n p Symlink) as [l'|] eqn:Ar; [|rewrite EW, EN; reflexivity]. destruct EN as (EN & Wl & Hl & Ql). rewrite EN, Wp in EW. rewrite EW.
      cbn [aagrees ie_cid ie_path ie_metadata with_path]. rewrite (slashed_unparts l'), opt_own, Steps_proofs.says_metadata.
      exists (queued (InnerEntry c KSymlink (unparts l') (says (f_data f)) (S (length (names p)))) q (negb (is_nil q))), k.
      split; [destruct q; reflexivity|]. eapply ar_mid; [(split; [reflexivity|split; [reflexivity|split; [exact Wl|exact Hl]]])|exact Ql|cbn; auto].
    + (* shards *)
      destruct (check_shard_model f T) as [[Su Ck]|[[Su Ck]|(S1 & S2 & S3 & Ck)]]; rewrite Ck in EW; clear Ck.
      2:{ eapply CFail; [apply EA, e_shard_unsupported; assumption|discriminate|]. rewrite EW. eexists _, _. split; reflexivity. }
      2:{ eapply CFail; [apply EA, e_shard_props; assumption|discriminate|]. rewrite EW. eexists _, _. split; reflexivity. }
      assert (LE : length (names p0) = length (names p)).
      { destruct P0 as [-> |[NF0 ->]]; [reflexivity|]. apply (stand_in_level p HAMTShard); [exact NF0|]. intros ->. apply NF0. reflexivity. }
      destruct (links_model (names p0) (link_in_shard X (names p0)) (convert_sharded_link X (S (snd (enc p))) (snd (enc p))) ltac:(rewrite enc_depth, <- LE; apply link_shard_model) (f_links f) 0 (w_pending w)) as (lr & L & LR).
      match type of EW with context [finish_dir w (f_links f) ?cv ?en k] => pose proof (finish_model w (f_links f) cv en k q lr) as FD end.
      destruct lr as [es|e| |]; [| | |destruct LR].
      2:{ eapply CFail; [apply EA, e_shard_link; eassumption|discriminate|rewrite EW; apply FD; assumption]. }
      2:{ eapply CFail; [apply EA, e_shard_panic; eassumption|discriminate|rewrite EW; apply FD; assumption]. }
      destruct LR as [LR G]. specialize (FD LR Wp). rewrite <- EW in FD.
      assert (Ga : Forall (good_at (length (names p))) es) by (rewrite <- LE; eapply Forall_impl; [apply good_good_at|exact G]).
      destruct p as [name|dir name|dir].
      * assert (Rp : is_root (AtRoot name)) by (eexists; reflexivity).
        assert (p0 = AtRoot name) as -> by (destruct P0 as [-> |[NF0 _]]; [reflexivity|exfalso; apply NF0; exact Logic.I]).
        pose proof (proj1 (arel_root _ _ _ _ _ _ _ R) Rp) as C. eapply COk; [apply EA, e_root_shard; eassumption|].
        pose proof (entry_astray pr c (AtRoot name) q l n w HAMTShard KBucketAtRoot (metadata_of (f_data f)) R ltac:(discriminate)) as EN.
        destruct (arrive l n (AtRoot name) HAMTShard) as [l'|] eqn:Ar; [|discriminate Ar].
        destruct EN as (EF & Wl & Hl & Ql). unfold entry_of in EF. rewrite C in EF, FD. injection EF as EF. cbn [aagrees with_path]. rewrite (slashed_unparts l').
        eexists _, _. split; [rewrite FD; cbn [enc fst snd]; rewrite EF, Steps_proofs.says_metadata; reflexivity|].
        assert (q = []) as -> by (inversion R; [reflexivity|subst; discriminate C]).
        eapply ar_mid; [|apply lchain_app; [exact Ga|exact Ql]|cbn; rewrite app_nil_r; repeat split; assumption].
        split; [exact EF|split; [reflexivity|split; [exact Wl|exact Hl]]].
      * assert (C : w_current w <> None) by (intros E; apply (arel_root _ _ _ _ _ _ _ R) in E as [? E]; discriminate).
        assert (NN : is_nil name = false).
        { inversion R as [|? ? ? ? ? _ Q _|]; subst. inversion Q as [|? ? ? ? _ [(? & m & Gn & [Sn _] & _)|(? & Gn & _)]]; subst; [|discriminate].
          cbn [snd] in Gn. injection Gn as _ ->. apply is_nil_false. exact Sn. }
        assert (PE : exists dir0 name0, p0 = Entry dir0 name0) by (destruct P0 as [-> |[_ ->]]; cbn; eauto). destruct PE as (dir0 & name0 & PE).
        eapply COk; [apply EA; eapply e_shard; [exact Su|exact L|exact PE|exact F0]|].
        pose proof (entry_astray pr c (Entry dir name) q l n w HAMTShard KRootBucket (metadata_of (f_data f)) R ltac:(discriminate)) as EN.
        unfold entry_of in EN. destruct (w_current w) as [ie|]; [|congruence]. cbn [enc fst snd] in *. rewrite NN in *.
        destruct (arrive l n (Entry dir name) HAMTShard) as [l'|] eqn:Ar.
        2:{ rewrite EN in FD. exact FD. }
        destruct EN as (EF & Wl & Hl & Ql). rewrite EF in *. cbn [bind ie_cid ie_path ie_metadata] in *. cbn [aagrees with_path]. rewrite (slashed_unparts l').
        eexists _, _. split; [rewrite FD, <- Steps_proofs.says_metadata; reflexivity|].
        eapply ar_mid; [|apply lchain_app; [exact Ga|exact Ql]|cbn; auto].
        (split; [reflexivity|split; [reflexivity|split; [exact Wl|exact Hl]]]).
      * assert (p0 = Bucket dir) as -> by (destruct P0 as [-> |[NF0 _]]; [reflexivity|exfalso; apply NF0; reflexivity]).
        destruct (bucket_astray _ _ _ _ _ _ _ R) as (ie & C & B). rewrite C in *. cbn [enc fst snd is_nil names] in *. destruct pr as [| |root|].
        -- destruct B.
        -- rewrite B in *. eapply (CFail Panic); [apply EA; eapply e_bucket_after_dir; (eassumption || reflexivity)|discriminate|exact FD].
        -- destruct B as (B & B1 & B2 & B3 & B4 & B5 & B6 & B7). rewrite B in *. cbn [bind] in *. rewrite B1, B2 in *.
           eapply COk; [apply EA; eapply e_bucket_of_root; (eassumption || reflexivity)|]. cbn [arrive]. rewrite B3, Nat.sub_diag. cbn [ups aagrees with_path]. rewrite (slashed_unparts l).
           eexists _, _. split; [exact FD|]. rewrite B3 in Ga.
           eapply ar_mid; [exact B5|apply lchain_app; assumption|]. cbn. split; [exact B4|]. split; [exact B1|]. apply Forall_app. split; assumption.
        -- eapply COk; [apply EA; eapply e_bucket; (eassumption || reflexivity)|]. cbn [arrive].
           destruct (ups (n - length dir) l) as [l'|]; [|rewrite B in *; exact FD].
           destruct B as (ie' & B & B1 & B2 & B3 & B4 & B5). rewrite B in *. cbn [bind] in *. rewrite B1, B2 in *.
           cbn [aagrees with_path]. rewrite (slashed_unparts l'). eexists _, _. split; [exact FD|].
           eapply ar_mid; [exact B4|apply lchain_app; assumption|]. cbn. auto.
Qed.

(** ** The answers are unique *)
Lemma anyway_det pr q c p f x y : enters_anyway X pr q c p f x -> enters_anyway X pr q c p f y -> x = y.
Proof. intros [F H|F H] [F' H'|F' H']; try contradiction; eapply enters_det; eassumption. Qed.
Lemma strays_det a b x y : strays X a b x -> strays X a b y -> x = y.
Proof.
  intros H H'.
  inversion H as [? ? ? ? ? ? ? ? S|? ? ? ? ? ? ? S NO|? ? ? ? ? ? S NP|? ? ? ? ? ? ? f ? P E NO|? ? ? ? ? ? ? f ? ? ? P E A|? ? ? ? ? ? ? f ? ? P E A]; subst;
  inversion H' as [? ? ? ? ? ? ? ? S'|? ? ? ? ? ? ? S' NO'|? ? ? ? ? ? S' NP'|? ? ? ? ? ? ? f' ? P' E' NO'|? ? ? ? ? ? ? f' ? ? ? P' E' A'|? ? ? ? ? ? ? f' ? ? P' E' A']; subst;
  try (exfalso; eapply NP; eassumption); try (exfalso; eapply NP'; eassumption);
  try (rewrite P in P'; injection P' as <-);
  try (pose proof (step_det X _ _ _ _ S S') as Q); try (pose proof (anyway_det _ _ _ _ _ _ _ E E') as Q); subst;
  try (exfalso; eapply NO; reflexivity); try (exfalso; eapply NO'; reflexivity); try reflexivity; try congruence.
  all: injection Q as <- <-; try reflexivity; rewrite A in A'; congruence.
Qed.

(** ** Histories *)
Lemma walks_wander (gives : cid -> bytes -> Prop) root name bs : ~ In x2f name -> forall asked items w,
  walks X gives (walker_new root name) bs asked items w ->
  exists a, wanders X root name bs asked items a /\ ARel a w.
Proof.
  intros Hn. induction bs as [|b bs IH] using rev_ind; intros asked items w H.
  - inversion H; subst. exists (Astray (beginning root name) [] 0). split; [constructor|constructor; exact Hn].
  - apply walks_snoc_inv in H as [(E & _)|(bs0 & asked0 & items0 & w0 & c & others & b0 & k & k' & it & E & -> & -> & H & Hc & Hp & Hg & Hk & Hw)];
      [destruct bs; discriminate|].
    apply app_inj_tail in E as [<- <-]. destruct (IH _ _ _ H) as (a & F & R).
    assert (NE : awaited (a_state a) <> []).
    { intros E. rewrite (arel_continue a w0 R), E in Hc. discriminate. }
    destruct (awaited (a_state a)) as [|c1 o1] eqn:A; [congruence|]. pose proof (arel_pending a w0 c1 o1 R A) as Hp'. rewrite Hp in Hp'. injection Hp' as <- <-.
    destruct (strays_model a w0 b k R ltac:(rewrite A; discriminate) Hk) as (res & S & Ag).
    rewrite Hw in Ag. destruct res as [[it' a']|e| |]; cbn in Ag; try discriminate; [|destruct Ag as (? & ? & Ag & _); discriminate].
    destruct Ag as (w' & k2 & E & R'). injection E as <- <- <-. exists a'. split; [eapply wan_next; eassumption|exact R'].
Qed.
Lemma wander_walks root name bs asked items a : ~ In x2f name -> wanders X root name bs asked items a ->
  exists w, walks X anything (walker_new root name) bs asked items w /\ ARel a w.
Proof.
  intros Hn H. induction H as [|bs asked items a c others b it a' H IH A St].
  - exists (walker_new root name). split; constructor. exact Hn.
  - destruct IH as (w & W & R).
    destruct (strays_model a w b None R ltac:(rewrite A; discriminate) ltac:(left; reflexivity)) as (res & S & Ag).
    rewrite (strays_det _ _ _ _ S St) in Ag. destruct Ag as (w' & k' & E & R'). exists w'. split; [|exact R'].
    eapply walks_snoc; [exact W| | |exact Logic.I|left; reflexivity|exact E].
    + rewrite (arel_continue a w R), A. reflexivity.
    + apply (arel_pending a w c others R A).
Qed.
End astray.
