(** * Lookup_exact: the model of lookups agrees with SpecLookupSteps.v *)
From Verif Require Import Base Tac Wire Utf8 Cid Pb Reader Dir SpecFile SpecDir Dir_proofs SpecLookupSteps.

Section exact.
Context (X : ext).

Lemma inv_eq i l : invalid_cid_of i l = InvalidCidInLink i (hash_of l) (name_of l).
Proof. unfold invalid_cid_of, hash_of, name_of, opt. destruct (l_name l), (l_hash l); reflexivity. Qed.
Lemma mult_eq i c j l : multiple_of X (i, c) j l = both X i c j l.
Proof.
  unfold multiple_of, both, link_cid, opt. rewrite <- inv_eq. destruct (l_hash l); reflexivity.
Qed.

(** ** One link *)
Lemma kinds needle l :
  (splits_char l /\ (2 <? blen (name_of l)) = true /\ @str_from lookup_error (name_of l) 2 = Panic)
  \/ (~ splits_char l /\ carries needle l /\ ~ leads l /\ (2 <? blen (name_of l)) = true /\ @str_from lookup_error (name_of l) 2 = Ok needle)
  \/ (~ splits_char l /\ ~ carries needle l /\ ~ leads l /\ (2 <? blen (name_of l)) = true
      /\ exists s, @str_from lookup_error (name_of l) 2 = Ok s /\ bytes_eqb s needle = false)
  \/ (~ splits_char l /\ ~ carries needle l /\ leads l /\ (2 <? blen (name_of l)) = false /\ (blen (name_of l) =? 2) = true)
  \/ (~ splits_char l /\ ~ carries needle l /\ ~ leads l /\ (2 <? blen (name_of l)) = false /\ (blen (name_of l) =? 2) = false).
Proof.
  unfold splits_char, carries, leads, blen. destruct (name_of l) as [|a [|b [|x n]]].
  - do 4 right. repeat split; [intros (?&?&?&?&H&_)|intros (_&?&?&H)|intros (?&?&H)]; discriminate H.
  - do 4 right. repeat split; [intros (?&?&?&?&H&_)|intros (_&?&?&H)|intros (?&?&H)]; discriminate H.
  - do 3 right. left. repeat split; [intros (?&?&?&?&H&_)|intros (NE&?&?&H)|eauto]; try discriminate H.
    injection H as _ _ <-. congruence.
  - assert (L : (2 <? N.of_nat (length (a :: b :: x :: n))) = true) by (cbn [length]; lia).
    unfold str_from, is_char_boundary. cbn [nth_error N.to_nat Pos.to_nat Pos.iter_op Nat.add skipn].
    destruct (cont x) eqn:C; cbn [negb].
    + left. split; [|split; [exact L|reflexivity]]. exists a, b, x, n. split; [reflexivity|]. unfold cont, inr in C. lia.
    + right. assert (NS : ~ exists a0 b0 x0 rest, a :: b :: x :: n = a0 :: b0 :: x0 :: rest /\ 128 <= b2n x0 <= 191).
      { intros (? & ? & x0 & ? & H & R). injection H as _ _ <- _. unfold cont, inr in C. lia. }
      assert (NL : ~ exists a0 b0, a :: b :: x :: n = [a0; b0]) by (intros (? & ? & H); discriminate H).
      destruct (bytes_eqb (x :: n) needle) eqn:E.
      * left. apply bytes_eqb_eq in E. subst needle. repeat split; [exact NS|discriminate|eauto|exact NL|exact L].
      * right. left. split; [exact NS|]. split; [|split; [exact NL|split; [exact L|eauto]]].
        intros (_ & ? & ? & H). injection H as _ _ <-. rewrite bytes_eqb_refl in E. discriminate.
Qed.

Definition found_in (needle : bytes) (pre : list pblink) (found : option (nat * cid)) : Prop :=
  match found with
  | None => forall p, In p pre -> ~ carries needle p
  | Some (i, c) => exists p1 l1 p2, pre = p1 ++ l1 :: p2 /\ i = length p1 /\ carries needle l1 /\ link_cid X l1 = Some c
                    /\ forall p, In p p1 \/ In p p2 -> ~ carries needle p
  end.

Lemma passes_snoc needle pre l : passes X needle pre -> (forall r, ~ stops X needle pre l r) -> passes X needle (pre ++ [l]).
Proof.
  intros P N p q post r E S. destruct (list_rect (fun l => l = [] \/ exists l' x, l = l' ++ [x]) (or_introl eq_refl)
    (fun a l0 IH => or_intror (match IH with or_introl E => ex_intro _ [] (ex_intro _ a (f_equal (cons a) E)) | or_intror (ex_intro _ l' (ex_intro _ x E)) => ex_intro _ (a :: l') (ex_intro _ x (f_equal (cons a) E)) end)) post) as [->|(post' & x & ->)].
  - apply app_inj_tail in E as [<- <-]. exact (N r S).
  - rewrite app_comm_cons, app_assoc in E. apply app_inj_tail in E as [-> _]. eapply P; [reflexivity|exact S].
Qed.
Lemma buckets_snoc_leads pre l c cs : buckets X pre cs -> leads l -> link_cid X l = Some c -> buckets X (pre ++ [l]) (cs ++ [c]).
Proof. intros B L C. induction B; cbn [app]; constructor; auto. constructor. Qed.
Lemma buckets_snoc_other pre l cs : buckets X pre cs -> ~ leads l -> buckets X (pre ++ [l]) cs.
Proof. intros B L. induction B; cbn [app]; constructor; auto. constructor. Qed.
Lemma found_snoc needle pre l found : found_in needle pre found -> ~ carries needle l -> found_in needle (pre ++ [l]) found.
Proof.
  intros F N. destruct found as [[i c]|]; cbn in *.
  - destruct F as (p1 & l1 & p2 & -> & -> & C & K & O). exists p1, l1, (p2 ++ [l]). rewrite <- app_assoc. cbn [app].
    split; [reflexivity|]. split; [reflexivity|]. split; [exact C|]. split; [exact K|].
    intros p [I|I]; [apply O; auto|]. apply in_app_or in I as [I|[->|[]]]; [apply O; auto|exact N].
  - intros p I. apply in_app_or in I as [I|[->|[]]]; auto.
Qed.

Lemma partition_model needle work : forall links pre found cs,
  passes X needle pre -> found_in needle pre found -> buckets X pre cs ->
  exists r, scan X needle (pre ++ links) r
  /\ partition X (length pre) links needle found (work ++ cs)
     = match r with Ok (o, q) => Ok (o, work ++ q) | Err e => Err e | Panic => Panic | Diverge => Diverge end.
Proof.
  induction links as [|l ls IH]; intros pre found cs P F B; cbn [partition].
  - rewrite app_nil_r. destruct found as [[i c]|]; cbn in F.
    + destruct F as (p1 & l1 & p2 & E & -> & C & K & O). exists (Ok (Some c, cs)). split; [|reflexivity].
      eapply sc_found; eassumption.
    + exists (Ok (None, cs)). split; [|reflexivity]. apply sc_none; assumption.
  - assert (Stop : forall r, stops X needle pre l r -> scan X needle (pre ++ l :: ls) r) by (intros r S; eapply sc_stops; eauto).
    assert (Go : forall found' cs', (forall r, ~ stops X needle pre l r) -> found_in needle (pre ++ [l]) found' -> buckets X (pre ++ [l]) cs' ->
       exists r, scan X needle (pre ++ l :: ls) r /\ partition X (S (length pre)) ls needle found' (work ++ cs')
         = match r with Ok (o, q) => Ok (o, work ++ q) | Err e => Err e | Panic => Panic | Diverge => Diverge end).
    { intros found' cs' NS F' B'. destruct (IH (pre ++ [l]) found' cs' (passes_snoc _ _ _ P NS) F' B') as (r & S & E).
      exists r. rewrite <- app_assoc in S. split; [exact S|]. rewrite app_length, Nat.add_1_r in E. exact E. }
    clear IH. rewrite link_name_of.
    destruct (kinds needle l) as [(S & E1 & E2)|[(NS & C & NL & E1 & E2)|[(NS & NC & NL & E1 & s & E2 & E3)|[(NS & NC & L & E1 & E2)|(NS & NC & NL & E1 & E2)]]]];
      rewrite E1.
    + rewrite E2. cbn [bind]. exists Panic. split; [apply Stop; constructor; exact S|reflexivity].
    + rewrite E2. cbn [bind]. rewrite bytes_eqb_refl. destruct found as [[i c]|]; cbn in F.
      * destruct F as (p1 & l1 & p2 & E & -> & C1 & K & O). rewrite mult_eq. eexists. split; [apply Stop; eapply st_several; eassumption|reflexivity].
      * destruct (link_cid X l) as [c|] eqn:K.
        -- rewrite (convert_ok X _ _ _ K). cbn [map_err bind]. apply Go.
           ++ intros r S. inversion S; subst; try congruence; try contradiction. eapply F; [|eassumption]. apply in_or_app. right. left. reflexivity.
           ++ exists pre, l, []. split; [reflexivity|]. split; [reflexivity|]. split; [exact C|]. split; [exact K|]. intros p [I|[]]. auto.
           ++ apply buckets_snoc_other; assumption.
        -- rewrite (convert_none X _ _ K). cbn [map_err bind]. rewrite inv_eq. eexists. split; [apply Stop; apply st_invalid; auto|reflexivity].
    + rewrite E2. cbn [bind]. rewrite E3.
      assert (E4 : (blen (name_of l) =? 2) = false) by (apply N.eqb_neq; apply N.ltb_lt in E1; lia). rewrite E4.
      apply Go; [|apply found_snoc; assumption|apply buckets_snoc_other; assumption].
      intros r S. inversion S as [|? [?|[? ?]]|]; contradiction.
    + cbn [bind]. rewrite E2. destruct (link_cid X l) as [c|] eqn:K.
      * rewrite (convert_ok X _ _ _ K). cbn [map_err bind]. rewrite <- app_assoc. apply Go.
        -- intros r S. inversion S as [|? [?|[? ?]]|]; congruence || contradiction.
        -- apply found_snoc; assumption.
        -- apply buckets_snoc_leads; assumption.
      * rewrite (convert_none X _ _ K). cbn [map_err bind]. rewrite inv_eq. eexists. split; [apply Stop; apply st_invalid; auto|reflexivity].
    + cbn [bind]. rewrite E2. apply Go; [|apply found_snoc; assumption|apply buckets_snoc_other; assumption].
      intros r S. inversion S as [|? [?|[? ?]]|]; contradiction.
Qed.

(** ** The specification is deterministic *)

Lemma carries_dec needle l : carries needle l \/ ~ carries needle l.
Proof. destruct (kinds needle l) as [(S & _)|[(_ & C & _)|[(_ & C & _)|[(_ & C & _)|(_ & C & _)]]]]; auto.
  destruct S as (a & b & x & rest & N & R). unfold carries. rewrite N. destruct (bytes_eqb (x :: rest) needle) eqn:E.
  - apply bytes_eqb_eq in E. left. subst. split; [discriminate|eauto].
  - right. intros (_ & ? & ? & H). injection H as _ _ <-. rewrite bytes_eqb_refl in E. discriminate.
Qed.

Lemma only_split {A} (P : A -> Prop) p1 l1 p2 q1 m1 q2 : p1 ++ l1 :: p2 = q1 ++ m1 :: q2 -> P l1 -> P m1 ->
  (forall p, In p p1 \/ In p p2 -> ~ P p) -> (forall p, In p q1 \/ In p q2 -> ~ P p) -> p1 = q1 /\ l1 = m1 /\ p2 = q2.
Proof.
  revert q1. induction p1 as [|a p1 IH]; intros [|b q1] E L M N1 N2; cbn in E; injection E as E1 E2.
  - subst. auto.
  - subst. exfalso. apply (N2 b); [left; left; reflexivity|exact L].
  - subst. exfalso. apply (N1 m1); [left; left; reflexivity|exact M].
  - subst. destruct (IH q1 E2 L M) as (-> & -> & ->); auto.
    + intros p [I|I]; apply N1; [left; right|right]; exact I.
    + intros p [I|I]; apply N2; [left; right|right]; exact I.
Qed.

Lemma stops_det needle pre l r r' : stops X needle pre l r -> stops X needle pre l r' -> r = r'.
Proof.
  intros H H'. destruct H as [S|NS L K|p1 l1 p2 c NS C E C1 O K1]; destruct H' as [S'|NS' L' K'|q1 m1 q2 c' NS' C' E' C1' O' K1']; try contradiction; try reflexivity.
  - exfalso. subst. destruct L as [(a & b & N)|[_ NC]].
    + destruct C' as (NE & ? & ? & N'). rewrite N in N'. injection N' as _ _ <-. congruence.
    + apply (NC m1); [apply in_or_app; right; left; reflexivity|exact C1'].
  - exfalso. subst. destruct L' as [(a & b & N)|[_ NC]].
    + destruct C as (NE & ? & ? & N'). rewrite N in N'. injection N' as _ _ <-. congruence.
    + apply (NC l1); [apply in_or_app; right; left; reflexivity|exact C1].
  - subst. destruct (only_split _ _ _ _ _ _ _ E' C1 C1' O O') as (-> & -> & ->). congruence.
Qed.

Lemma first_split needle (p : list pblink) l post q m post' r r' : p ++ l :: post = q ++ m :: post' -> passes X needle p -> passes X needle q ->
  stops X needle p l r -> stops X needle q m r' -> p = q /\ l = m.
Proof.
  intros E P Q S S'. destruct (app_eq_app _ _ _ _ E) as (z & [[E1 E2]|[E1 E2]]).
  - destruct z as [|x z]; cbn in E2; injection E2 as E3 E4; subst; [rewrite app_nil_r; auto|]. exfalso. eapply P; [reflexivity|exact S'].
  - destruct z as [|x z]; cbn in E2; injection E2 as E3 E4; subst; [rewrite app_nil_r; auto|]. exfalso. eapply Q; [reflexivity|exact S].
Qed.

Lemma buckets_det ls cs cs' : buckets X ls cs -> buckets X ls cs' -> cs = cs'.
Proof.
  intros H. revert cs'. induction H as [|l c ls cs L K B IH|l ls cs L B IH]; intros cs' H'; inversion H'; subst; try contradiction; [reflexivity| |auto].
  f_equal; [congruence|auto].
Qed.

Lemma scan_det needle links r r' : scan X needle links r -> scan X needle links r' -> r = r'.
Proof.
  assert (SP : forall pre l post z, links = pre ++ l :: post -> stops X needle pre l z -> ~ passes X needle links).
  { intros pre l post z E S P. eapply P; eassumption. }
  intros H H'. destruct H as [p l post r E P S|p l post c cs P E C O K B|cs P N B]; destruct H' as [p' l' post' r' E' P' S'|p' l' post' c' cs' P' E' C' O' K' B'|cs' P' N' B'];
    try (exfalso; eapply SP; [exact E|exact S|exact P']); try (exfalso; eapply SP; [exact E'|exact S'|exact P]).
  - rewrite E in E'. destruct (first_split _ _ _ _ _ _ _ _ _ E' P P' S S') as [-> ->]. eapply stops_det; eassumption.
  - rewrite (buckets_det _ _ _ B B'). rewrite E in E'. destruct (only_split _ _ _ _ _ _ _ E' C C' O O') as (-> & -> & ->). congruence.
  - exfalso. apply (N' l); [rewrite E; apply in_or_app; right; left; reflexivity|exact C].
  - exfalso. apply (N l'); [rewrite E'; apply in_or_app; right; left; reflexivity|exact C'].
  - rewrite (buckets_det _ _ _ B B'). reflexivity.
Qed.
Lemma search_det needle queue links r r' : search X needle queue links r -> search X needle queue links r' -> r = r'.
Proof.
  intros H H'. destruct H as [c cs S|Q S|cs c o S Q|e S|S]; destruct H' as [c' cs' S'|Q' S'|cs' c' o' S' Q'|e' S'|S'];
    pose proof (scan_det _ _ _ _ S S') as E; try discriminate E; try congruence.
  - injection E as <-. subst queue. discriminate Q'.
  - injection E as ->. subst queue. discriminate Q.
Qed.
Lemma refused_det u e e' : refused u e -> refused u e' -> e = e'.
Proof. intros H H'. destruct H, H'; tauto || reflexivity. Qed.
Lemma refused_not u e : refused u e -> ~ supported_shard u.
Proof. intros H (_ & A & B & C & D). destruct H as [N|_ _ [N|N]]; tauto. Qed.

Lemma named_app a b n : named (a ++ b) n = named a n ++ named b n.
Proof. apply filter_app. Qed.
Lemma named_cons l ls n : name_of l = n -> named (l :: ls) n = l :: named ls n.
Proof. intros E. unfold named. cbn [filter]. rewrite E, bytes_eqb_refl. reflexivity. Qed.
Lemma named_spec n ls : named ls n = [] <-> forall l, In l ls -> name_of l <> n.
Proof.
  unfold named. induction ls as [|l ls IH]; cbn [filter]; [split; [intros _ l []|reflexivity]|].
  destruct (bytes_eqb (name_of l) n) eqn:E.
  - apply bytes_eqb_eq in E. split; [discriminate|]. intros H. exfalso. apply (H l); [left; reflexivity|exact E].
  - apply bytes_eqb_neq in E. rewrite IH. split; intros H l0; [intros [->|I]; auto|intros I; apply H; right; exact I].
Qed.
Lemma first_named n p l post q m post' : p ++ l :: post = q ++ m :: post' -> named p n = [] -> named q n = [] -> name_of l = n -> name_of m = n ->
  p = q /\ l = m /\ post = post'.
Proof.
  intros E P Q L M. rewrite named_spec in P, Q. destruct (app_eq_app _ _ _ _ E) as (z & [[E1 E2]|[E1 E2]]).
  - destruct z as [|x z]; cbn in E2; injection E2 as E3 E4; subst; [rewrite app_nil_r; auto|]. exfalso.
    eapply P; [apply in_or_app; right; left; reflexivity|eassumption || reflexivity].
  - destruct z as [|x z]; cbn in E2; injection E2 as E3 E4; subst; [rewrite app_nil_r; auto|]. exfalso.
    eapply Q; [apply in_or_app; right; left; reflexivity|eassumption || reflexivity].
Qed.
Lemma among_det needle links r r' : among X needle links r -> among X needle links r' -> r = r'.
Proof.
  intros H H'.
  destruct H as [N|pre l post E P L K|l c N K|pre l mid l2 post c E P L M L2 K]; destruct H' as [N'|pre' l' post' E' P' L' K'|l' c' N' K'|pre' l' mid' l2' post' c' E' P' L' M' L2' K'];
    try reflexivity; try congruence;
    try (rewrite E in N'; rewrite named_app, P in N'; cbn [app] in N'; rewrite (named_cons _ _ _ L) in N'; try discriminate N');
    try (rewrite E' in N; rewrite named_app, P' in N; cbn [app] in N; rewrite (named_cons _ _ _ L') in N; try discriminate N).
  - rewrite E in E'. destruct (first_named _ _ _ _ _ _ _ E' P P' L L') as (-> & -> & ->). congruence.
  - injection N' as -> _. congruence.
  - rewrite E in E'. destruct (first_named _ _ _ _ _ _ _ E' P P' L L') as (-> & -> & _). congruence.
  - injection N as -> _. congruence.
  - rewrite named_app, M', (named_cons _ _ _ L2') in N. discriminate N.
  - rewrite E in E'. destruct (first_named _ _ _ _ _ _ _ E' P P' L L') as (-> & -> & _). congruence.
  - rewrite named_app, M, (named_cons _ _ _ L2) in N'. discriminate N'.
  - rewrite E in E'. destruct (first_named _ _ _ _ _ _ _ E' P P' L L') as (-> & -> & E2).
    destruct (first_named _ _ _ _ _ _ _ E2 M M' L2 L2') as (-> & -> & _). congruence.
Qed.

Lemma lists_ok block links f : lists X block links -> try_parse (ext_dbg X) block = Ok f -> supported_dir (f_data f) /\ links = f_links f.
Proof. intros L P. destruct L as [f' P' S|n P'|e n P']; rewrite P in P'; try discriminate P'. injection P' as <-. auto. Qed.
Lemma lists_det block links links' : lists X block links -> lists X block links' -> links = links'.
Proof. intros L L'. destruct L as [f P S|n P|e n P]; destruct L' as [f' P' S'|n' P'|e' n' P']; congruence. Qed.
Lemma lists_parse block links : lists X block links -> try_parse (ext_dbg X) block <> Panic /\ try_parse (ext_dbg X) block <> Diverge
  /\ forall e, try_parse (ext_dbg X) block <> Err (InvalidDagPb e).
Proof. intros L. destruct L as [f P S|n P|e n P]; rewrite P; repeat split; discriminate. Qed.

Lemma first_det needle block r r' : first_call X needle block r -> first_call X needle block r' -> r = r'.
Proof.
  intros H H'.
  assert (LF : forall links f, lists X block links -> try_parse (ext_dbg X) block = Ok f -> u_type (f_data f) = Directory /\ supported_dir (f_data f)).
  { intros links f L P. destruct (lists_ok _ _ _ L P) as [S _]. split; [apply S|exact S]. }
  assert (SH : forall f, supported_shard (f_data f) -> u_type (f_data f) = HAMTShard) by (intros f S; apply S).
  destruct H as [e P|P|P|links r L A|f P T S|f P T1 T2|f e P T R|f r P S A|f e P S A|f P S A];
  destruct H' as [e' P'|P'|P'|links' r' L' A'|f' P' T' S'|f' P' T1' T2'|f' e' P' T' R'|f' r' P' S' A'|f' e' P' S' A'|f' P' S' A'];
  try congruence;
  try (exfalso; destruct (lists_parse _ _ L) as (? & ? & ?); congruence);
  try (exfalso; destruct (lists_parse _ _ L') as (? & ? & ?); congruence);
  try (destruct (LF _ _ L P') as [? ?]; exfalso; try pose proof (SH _ S'); congruence || tauto);
  try (destruct (LF _ _ L' P) as [? ?]; exfalso; try pose proof (SH _ S); congruence || tauto);
  try (rewrite P in P'; injection P' as <-);
  try (exfalso; pose proof (SH _ S); congruence); try (exfalso; pose proof (SH _ S'); congruence);
  try (exfalso; eapply refused_not; eassumption);
  try (pose proof (search_det _ _ _ _ _ A A'); congruence).
  - rewrite (lists_det _ _ _ L L') in A. eapply among_det; eassumption.
  - rewrite (refused_det _ _ _ R R'). reflexivity.
Qed.
Lemma next_det needle queue block r r' : next_call X needle queue block r -> next_call X needle queue block r' -> r = r'.
Proof.
  intros H H'. assert (SH : forall f, supported_shard (f_data f) -> u_type (f_data f) = HAMTShard) by (intros f S; apply S).
  destruct H as [e P|P|P|f P T|f e P T R|f r P S A]; destruct H' as [e' P'|P'|P'|f' P' T'|f' e' P' T' R'|f' r' P' S' A'];
    try congruence; rewrite P in P'; injection P' as <-;
    try (exfalso; pose proof (SH _ S); congruence); try (exfalso; pose proof (SH _ S'); congruence);
    try (exfalso; eapply refused_not; eassumption).
  - reflexivity.
  - rewrite (refused_det _ _ _ R R'). reflexivity.
  - eapply search_det; eassumption.
Qed.

(** ** The code *)

(** what the caller of a lookup sees *)
Definition seen {E} (needle : bytes) (r : outcome E reply) : outcome E maybe_resolved :=
  match r with
  | Ok (Gives c) => Ok (Found c)
  | Ok Absent => Ok NotFound
  | Ok (Awaits c o) => Ok (NeedToLoadMore (Lookup (c :: o) needle))
  | Err e => Err e
  | Panic => Panic
  | Diverge => Diverge
  end.

Lemma search_model needle queue links k : exists r, search X needle queue links r
  /\ fst (conclude (partition X 0 links needle None queue) needle k) = seen needle r.
Proof.
  destruct (partition_model needle queue links [] None []) as (r & S & E).
  { intros pre l post z H. destruct pre; discriminate. }
  { intros p []. }
  { constructor. }
  cbn [app length] in S, E. rewrite app_nil_r in E. rewrite E. destruct r as [[[c|] q]|e| |]; cbn [conclude].
  - exists (Ok (Gives c)). split; [eapply se_found; exact S|reflexivity].
  - destruct (queue ++ q) as [|c o] eqn:Q.
    + apply app_eq_nil in Q as [-> ->]. exists (Ok Absent). split; [apply se_absent; [reflexivity|exact S]|reflexivity].
    + exists (Ok (Awaits c o)). split; [eapply se_more; eassumption|reflexivity].
  - exists (Err e). split; [apply se_error; exact S|reflexivity].
  - exists Panic. split; [apply se_panic; exact S|reflexivity].
  - exfalso. inversion S as [? ? ? ? ? ? St| |]; subst. inversion St.
Qed.

Lemma plain_model needle links : exists r, among X needle links r /\ resolve_plain X links needle = seen needle r.
Proof.
  destruct (resolve_plain_case X links needle) as [[N ->]|(pre & l & post & -> & N & P & [[C ->]|(c & C & [[Q ->]|(mid & l2 & post2 & -> & N2 & P2 & ->)])])].
  - apply named_spec in N. exists (Ok Absent). split; [constructor; exact N|reflexivity].
  - apply named_spec in P. rewrite inv_eq, N. eexists. split; [eapply a_invalid; eauto|reflexivity].
  - apply named_spec in P, Q. exists (Ok (Gives c)). split; [|reflexivity]. apply (a_one X _ _ l); [|exact C].
    rewrite named_app, P. cbn [app]. rewrite (named_cons _ _ _ N), Q. reflexivity.
  - apply named_spec in P, P2. eexists. split; [eapply a_several with (pre := pre) (mid := mid); eauto|].
    cbn [seen]. rewrite inv_eq. unfold both. replace (length pre + 1 + length mid)%nat with (S (length pre) + length mid)%nat by lia. reflexivity.
Qed.

Lemma first_model needle block k : clean k -> exists r, first_call X needle block r /\ fst (resolve X block needle k) = seen needle r.
Proof.
  intros K. assert (K0 : opt k [] (fun c => c) = []) by (destruct K as [->| ->]; reflexivity).
  unfold resolve. destruct (try_parse (ext_dbg X) block) as [f|[e|n|e n]| |] eqn:P.
  - destruct (u_type (f_data f)) eqn:T.
    1,3-5: eexists; (split; [eapply fc_type; [exact P|rewrite T; discriminate..]|rewrite T; reflexivity]).
    + destruct (check_dir_ok f T) as [[S C]|[S C]]; rewrite C; cbn [fst].
      * destruct (plain_model needle (f_links f)) as (r & A & ->). exists r. split; [|reflexivity].
        eapply fc_lists; [apply lists_dir; eassumption|exact A].
      * eexists. split; [eapply fc_dir_props; eassumption|reflexivity].
    + unfold lookup_or_start. rewrite K0. destruct (check_shard_ok f T) as [[S C]|[_ [[N C]|[N C]]]]; rewrite C.
      * destruct (search_model needle [] (f_links f) None) as (r & A & E). destruct (conclude _ _ _) as [o k'] eqn:QQ. cbn [fst] in *. subst o.
        destruct r as [r|e| |]; cbn [seen].
        -- exists (Ok r). split; [eapply fc_shard; eassumption|destruct r; reflexivity].
        -- exists (Err (RLookup e)). split; [eapply fc_shard_error; eassumption|reflexivity].
        -- exists Panic. split; [eapply fc_shard_panic; eassumption|reflexivity].
        -- exfalso. inversion A.
      * eexists. split; [eapply fc_refused; [exact P|exact T|apply rf_kind; exact N]|reflexivity].
      * eexists. split; [eapply fc_refused; [exact P|exact T|apply rf_props; [apply N|apply N|]]|reflexivity].
        destruct N as [N1 N2]. unfold check_supported in C. rewrite T in C. cbn [is_hamt assert bind] in C.
        rewrite N1, N2 in C. cbn in C. destruct (u_filesize (f_data f)); [left; discriminate|].
        destruct (u_blocksizes (f_data f)); [discriminate C|right; discriminate].
  - exists (Err (RRead e)). split; [apply fc_unreadable; exact P|reflexivity].
  - destruct (plain_model needle (n_links n)) as (r & A & E). exists r. cbn [fst]. split; [|exact E].
    eapply fc_lists; [apply lists_nodata; exact P|exact A].
  - destruct (plain_model needle (n_links n)) as (r & A & E). exists r. cbn [fst]. split; [|exact E].
    eapply fc_lists; [eapply lists_other; exact P|exact A].
  - exists Panic. split; [apply fc_panic; exact P|reflexivity].
  - exists Diverge. split; [apply fc_diverge; exact P|reflexivity].
Qed.

Lemma next_model needle c queue block k : exists r, next_call X needle queue block r
  /\ fst (lk_continue_walk X (Lookup (c :: queue) needle) block k) = seen needle r.
Proof.
  unfold lk_continue_walk. cbn [lk_links lk_needle]. destruct (try_parse (ext_dbg X) block) as [f|e| |] eqn:P.
  - destruct (u_type (f_data f)) eqn:T; cbn [is_hamt].
    1-5: eexists; (split; [eapply nc_type; [exact P|rewrite T; discriminate]|rewrite T; reflexivity]).
    destruct (check_shard_ok f T) as [[S C]|[_ [[N C]|[N C]]]]; rewrite C.
    + destruct (search_model needle queue (f_links f) k) as (r & A & E). exists r. split; [eapply nc_search; eassumption|exact E].
    + eexists. split; [eapply nc_refused; [exact P|exact T|apply rf_kind; exact N]|reflexivity].
    + eexists. split; [eapply nc_refused; [exact P|exact T|apply rf_props; [apply N|apply N|]]|reflexivity].
      destruct N as [N1 N2]. unfold check_supported in C. rewrite T in C. cbn [is_hamt assert bind] in C.
      rewrite N1, N2 in C. cbn in C. destruct (u_filesize (f_data f)); [left; discriminate|].
      destruct (u_blocksizes (f_data f)); [discriminate C|right; discriminate].
  - exists (Err (LRead (match e with InvalidDagPb e => Some e | InvalidUnixFs e _ => Some e | NoData _ => None end))).
    split; [apply nc_unreadable; exact P|destruct e; reflexivity].
  - exists Panic. split; [apply nc_panic; exact P|reflexivity].
  - exists Diverge. split; [apply nc_diverge; exact P|reflexivity].
Qed.

(** ** Histories *)
Lemma looking_awaits needle block bs v : looking X needle block bs v ->
  exists c others, v = Lookup (c :: others) needle /\ awaiting X needle block bs c others.
Proof.
  intros H. induction H as [k v k' K E|bs v b k v' k' K H (c & o & -> & A) E|bs v H (c & o & -> & A)].
  - destruct (first_model needle block k K) as (r & F & S). rewrite E in S. cbn [fst] in S.
    destruct r as [[c| |c o]|e| |]; try discriminate S. injection S as ->. exists c, o. split; [reflexivity|]. apply aw_first. exact F.
  - destruct (next_model needle c o b k) as (r & F & S). rewrite E in S. cbn [fst] in S.
    destruct r as [[c'| |c' o']|e| |]; try discriminate S. injection S as ->. exists c', o'. split; [reflexivity|]. eapply aw_next; eassumption.
  - exists c, o. split; [reflexivity|exact A].
Qed.
Lemma awaits_looking needle block bs c others : awaiting X needle block bs c others -> looking X needle block bs (Lookup (c :: others) needle).
Proof.
  intros H. induction H as [c o F|bs c o b c' o' H IH F].
  - destruct (first_model needle block None (or_introl eq_refl)) as (r & F' & S). rewrite (first_det _ _ _ _ F' F) in S.
    destruct (resolve X block needle None) as [o0 k'] eqn:E. cbn [fst seen] in S. subst o0. eapply lo_first; [|exact E]. left. reflexivity.
  - destruct (next_model needle c o b None) as (r & F' & S). rewrite (next_det _ _ _ _ _ F' F) in S.
    destruct (lk_continue_walk X (Lookup (c :: o) needle) b None) as [o0 k'] eqn:E. cbn [fst seen] in S. subst o0.
    eapply lo_next; [|exact IH|exact E]. left. reflexivity.
Qed.
End exact.
