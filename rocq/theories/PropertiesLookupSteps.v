(** * Property C53: name lookups, call by call, on arbitrary blocks; and from it the
    exact conditions of the panics (C29).
    The vocabulary is in SpecLookupSteps.v, the proofs in Lookup_exact.v. *)
From Verif Require Import Base Tac Wire Utf8 Cid Pb Reader Dir SpecFile SpecDir Dir_proofs SpecLookupSteps Lookup_exact
  Examples_file Examples_dir.

(** C53: the first call.  Every block gets the one answer of SpecLookupSteps.v. *)
Theorem C53_resolve : forall X needle block k, clean k ->
  exists r, first_call X needle block r /\ (forall r', first_call X needle block r' -> r' = r)
  /\ match r with
     | Ok (Gives c) => exists k', resolve X block needle k = (Ok (Found c), k')
     | Ok Absent => exists k', resolve X block needle k = (Ok NotFound, k')
     | Ok (Awaits c others) => exists v k', resolve X block needle k = (Ok (NeedToLoadMore v), k')
         /\ lk_pending_links v = Ok (c, others)
     | Err e => exists k', resolve X block needle k = (Err e, k')
     | Panic => exists k', resolve X block needle k = (Panic, k')
     | Diverge => exists k', resolve X block needle k = (Diverge, k')
     end.
Proof.
  intros X needle block k K. destruct (first_model X needle block k K) as (r & F & S). exists r. split; [exact F|].
  split; [intros r' F'; exact (first_det X _ _ _ _ F' F)|].
  destruct (resolve X block needle k) as [o k']. cbn [fst] in S. subst o.
  destruct r as [[c| |c o]|e| |]; cbn [seen]; eauto. all: try (exists (Lookup (c :: o) needle), k'; split; reflexivity).
Qed.
Print Assumptions C53_resolve.

(** the further calls, at every point of every lookup, whatever blocks were given
    before *)
Theorem C53_continue : forall X needle block bs v, looking X needle block bs v ->
  exists c others, awaiting X needle block bs c others /\ lk_pending_links v = Ok (c, others)
  /\ forall b k, exists r, next_call X needle others b r /\ (forall r', next_call X needle others b r' -> r' = r)
     /\ match r with
        | Ok (Gives c) => exists k', lk_continue_walk X v b k = (Ok (Found c), k')
        | Ok Absent => exists k', lk_continue_walk X v b k = (Ok NotFound, k')
        | Ok (Awaits c' others') => exists v' k', lk_continue_walk X v b k = (Ok (NeedToLoadMore v'), k')
            /\ lk_pending_links v' = Ok (c', others')
        | Err e => exists k', lk_continue_walk X v b k = (Err e, k')
        | Panic => exists k', lk_continue_walk X v b k = (Panic, k')
        | Diverge => exists k', lk_continue_walk X v b k = (Diverge, k')
        end.
Proof.
  intros X needle block bs v H. destruct (looking_awaits X _ _ _ _ H) as (c & others & -> & A). exists c, others.
  split; [exact A|]. split; [reflexivity|]. intros b k. destruct (next_model X needle c others b k) as (r & F & S). exists r. split; [exact F|].
  split; [intros r' F'; exact (next_det X _ _ _ _ _ F' F)|].
  destruct (lk_continue_walk _ _ _ _) as [o k']. cbn [fst] in S. subst o.
  destruct r as [[c'| |c' o]|e| |]; cbn [seen]; eauto. all: try (exists (Lookup (c' :: o) needle), k'; split; reflexivity).
Qed.
Print Assumptions C53_continue.

(** and every history that SpecLookupSteps.v accepts is accepted by the code *)
Theorem C53_accepts : forall X needle block bs c others, awaiting X needle block bs c others ->
  exists v, looking X needle block bs v /\ lk_pending_links v = Ok (c, others).
Proof.
  intros X needle block bs c others A. exists (Lookup (c :: others) needle). split; [apply awaits_looking; exact A|reflexivity].
Qed.
Print Assumptions C53_accepts.

(** the directory of Examples_dir.v: "c" is in the bucket of a bucket; a directory
    that ends with a link without a Cid *)
Example C53_nonvacuous : forall X, ext_ok X -> forall needle, needle = [x63] ->
  first_call X needle (flat_write s_root) (Ok (Awaits (idc 2) [idc 5]))
  /\ awaiting X needle (flat_write s_root) [flat_write (s_msg 2)] (idc 5) [idc 3]
  /\ next_call X needle [] (flat_write (s_msg 3)) (Ok (Gives (idc 8)))
  /\ next_call X needle [] (flat_write (s_msg 5)) (Ok Absent)
  /\ next_call X needle [] (flat_write (leafm File [x78])) (Err (LUnexpectedBucketType File))
  /\ (ext_cid_decode X [] = None -> next_call X needle [] (flat_write (shardm [badlnk [x30; x30]])) (Err (LInvalidCid (InvalidCidInLink 0 [] [x30; x30])))).
Proof.
  intros X HX needle ->.
  assert (P0 : try_parse (ext_dbg X) (flat_write s_root) = Ok s_root) by (destruct (ext_dbg X); vm_compute; reflexivity).
  assert (P : forall n, n = 2 \/ n = 3 \/ n = 5 -> try_parse (ext_dbg X) (flat_write (s_msg n)) = Ok (s_msg n)).
  { intros n [->|[->| ->]]; destruct (ext_dbg X); vm_compute; reflexivity. }
  assert (NC : forall n a b, ~ carries [x63] (nlnk n [a; b])) by (intros n a b (_ & ? & ? & H); discriminate H).
  assert (NC' : forall n a b x, x <> x63 -> ~ carries [x63] (nlnk n [a; b; x])) by (intros n a b x N (_ & ? & ? & H); cbn in H; congruence).
  assert (NS : forall n a b x, b2n x < 128 -> ~ splits_char (nlnk n [a; b; x])).
  { intros n a b x H (? & ? & ? & ? & E & R). cbn in E. injection E as _ _ <- _. lia. }
  assert (NS' : forall n a b, ~ splits_char (nlnk n [a; b])) by (intros n a b (? & ? & ? & ? & E & R); discriminate E).
  assert (LD : forall n a b, leads (nlnk n [a; b])) by (intros; eexists _, _; reflexivity).
  assert (NL : forall n a b x, ~ leads (nlnk n [a; b; x])) by (intros n a b x (? & ? & H); discriminate H).
  assert (PS : forall links, (forall l, In l links -> ~ splits_char l /\ link_cid X l <> None) ->
     (forall pre1 l1 pre2 l post, links = (pre1 ++ l1 :: pre2) ++ l :: post -> carries [x63] l1 -> carries [x63] l -> False) -> passes X [x63] links).
  { intros links G U pre l post r E S. destruct (G l) as [G1 G2]; [rewrite E; apply in_or_app; right; left; reflexivity|].
    inversion S; subst; try contradiction. eapply U; [reflexivity|eassumption..]. }
  assert (PN : forall links, (forall l, In l links -> ~ splits_char l /\ link_cid X l <> None /\ ~ carries [x63] l) -> passes X [x63] links).
  { intros links G. apply PS.
    - intros l I. destruct (G l I) as (? & ? & _). auto.
    - intros pre1 l1 pre2 l post -> C _. destruct (G l1) as (_ & _ & N); [|exact (N C)]. apply in_or_app. left. apply in_or_app. right. left. reflexivity. }
  assert (CV : forall n nm, link_cid X (nlnk n nm) <> None) by (intros n nm; rewrite (nlnk_cid X n nm HX); discriminate).
  assert (S0 : first_call X [x63] (flat_write s_root) (Ok (Awaits (idc 2) [idc 5]))).
  { eapply fc_shard; [exact P0|apply shardm_ok|]. eapply se_more with (cs := [idc 2; idc 5]); [|reflexivity]. apply sc_none.
    - apply PN. unfold s_root; cbn [f_links shardm s_msg In]. intros l [<-|[<-|[<-|[]]]]; (split; [|split]); auto. all: try (apply NS; vm_compute; reflexivity); try (apply NC'; discriminate).
    - unfold s_root; cbn [f_links shardm s_msg In]. intros l [<-|[<-|[<-|[]]]]; auto. apply NC'; discriminate.
    - unfold s_root; cbn [f_links shardm s_msg]. apply bk_other; [apply NL|]. apply bk_leads; [apply LD|apply nlnk_cid, HX|]. apply bk_leads; [apply LD|apply nlnk_cid, HX|]. constructor. }
  split; [exact S0|]. split; [|split; [|split; [|split]]].
  - eapply (aw_next X _ _ []); [apply aw_first; exact S0|]. eapply nc_search; [apply P; auto|apply shardm_ok|].
    eapply se_more with (cs := [idc 3]); [|reflexivity]. apply sc_none.
    + apply PN. cbn [f_links shardm s_msg In]. intros l [<-|[<-|[]]]; (split; [|split]); auto. all: try (apply NS; vm_compute; reflexivity); try (apply NC'; discriminate).
    + cbn [f_links shardm s_msg In]. intros l [<-|[<-|[]]]; auto. apply NC'; discriminate.
    + cbn [f_links shardm s_msg]. apply bk_other; [apply NL|]. apply bk_leads; [apply LD|apply nlnk_cid, HX|]. constructor.
  - eapply nc_search; [apply P; auto|apply shardm_ok|]. eapply se_found. apply (sc_found X _ _ [] (nlnk 8 [x30; x34; x63]) []); [|reflexivity| | |apply nlnk_cid, HX|].
    + apply PS; cbn [f_links shardm s_msg In].
      * intros l [<-|[]]. split; auto. apply NS; vm_compute; reflexivity.
      * intros [|? [|? ?]] ? ? ? ? E; cbn in E; try discriminate E; injection E as _ E; destruct pre2; discriminate E.
    + split; [discriminate|]. eexists _, _. reflexivity.
    + intros p [[]|[]].
    + cbn [f_links shardm s_msg]. apply bk_other; [apply NL|constructor].
  - eapply nc_search; [apply P; auto|apply shardm_ok|]. apply se_absent; [reflexivity|]. apply sc_none; [|intros l []|constructor].
    apply PN. intros l [].
  - assert (P3 : try_parse (ext_dbg X) (flat_write (leafm File [x78])) = Ok (leafm File [x78])) by (destruct (ext_dbg X); vm_compute; reflexivity).
    apply (nc_type X _ _ _ _ P3). discriminate.
  - intros E.
    assert (P4 : try_parse (ext_dbg X) (flat_write (shardm [badlnk [x30; x30]])) = Ok (shardm [badlnk [x30; x30]])) by (destruct (ext_dbg X); vm_compute; reflexivity).
    eapply nc_search; [exact P4|apply shardm_ok|]. apply se_error. cbn.
    apply (sc_stops X _ _ [] (badlnk [x30; x30]) [] _ eq_refl).
    + intros pre l post r H. destruct pre; discriminate H.
    + apply (st_invalid X [x63] [] (badlnk [x30; x30])); [intros (? & ? & ? & ? & H & _); discriminate H|left; eexists _, _; reflexivity|exact E].
Qed.

(** ** C29: exactly when a lookup panics *)

(** some link of a supported shard splits a character, and no link before it ends
    the search *)
Definition splits_first (X : ext) (needle block : bytes) : Prop :=
  exists f pre l post, try_parse (ext_dbg X) block = Ok f /\ supported_shard (f_data f)
  /\ f_links f = pre ++ l :: post /\ splits_char l /\ passes X needle pre.

(** C29: a call panics exactly if the parser does (C04) or for such a link *)
Theorem C29_exact : forall X needle block k, clean k ->
  (fst (resolve X block needle k) = Panic <-> try_parse (ext_dbg X) block = Panic \/ splits_first X needle block)
  /\ forall bs v b k2, looking X needle block bs v ->
     (fst (lk_continue_walk X v b k2) = Panic <-> try_parse (ext_dbg X) b = Panic \/ splits_first X needle b).
Proof.
  intros X needle block k K.
  assert (SP : forall q links, search X needle q links Panic <-> exists pre l post, links = pre ++ l :: post /\ splits_char l /\ passes X needle pre).
  { intros q links. split.
    - intros H. inversion H as [| | | |S]; subst. inversion S as [pre l post ? E P St| |]; subst. inversion St; subst. eauto 7.
    - intros (pre & l & post & E & S & P). apply se_panic. eapply sc_stops; [exact E|exact P|constructor; exact S]. }
  split.
  - destruct (first_model X needle block k K) as (r & F & ->). transitivity (r = Panic).
    { destruct r as [[]| | |]; cbn; split; congruence. }
    split.
    + intros ->. inversion F as [|P| |links ? L A| | | | | |f P S A]; subst.
      * left. exact P.
      * inversion A.
      * right. apply SP in A as (pre & l & post & E & C & Q). exists f, pre, l, post. auto.
    + intros [P|(f & pre & l & post & P & S & E & C & Q)]; eapply (first_det X); try exact F.
      * apply fc_panic. exact P.
      * eapply fc_shard_panic; [exact P|exact S|]. apply SP. eauto 6.
  - intros bs v b k2 H. destruct (looking_awaits X _ _ _ _ H) as (c & others & -> & _).
    destruct (next_model X needle c others b k2) as (r & F & ->). transitivity (r = Panic).
    { destruct r as [[]| | |]; cbn; split; congruence. }
    split.
    + intros ->. inversion F as [|P| | | |f ? P S A]; subst.
      * left. exact P.
      * right. apply SP in A as (pre & l & post & E & C & Q). exists f, pre, l, post. auto.
    + intros [P|(f & pre & l & post & P & S & E & C & Q)]; eapply (next_det X); try exact F.
      * apply nc_panic. exact P.
      * eapply nc_search; [exact P|exact S|]. apply SP. eauto 6.
Qed.
Print Assumptions C29_exact.
