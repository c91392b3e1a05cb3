(** * Builder_use: consequences of [iterate] for the nodes the iterator returns *)
From Coq Require Import Sorting.Sorted Sorting.Permutation.
From Verif Require Import Base Tac Wire Utf8 Cid Pb Reader SpecWire SpecFile SpecDir Dir Builder SpecBuilder Paths_proofs
  Codec_proofs Visit_thms Dir_proofs Builder_proofs Builder_iter Builder_thms.

(** ** Strings *)
Lemma utf8_slash n : forall a b, (length a <= n)%nat -> utf8_valid (a ++ x2f :: b) = true ->
  utf8_valid a = true /\ utf8_valid b = true.
Proof.
  assert (C : cont x2f = false) by reflexivity.
  assert (R1 : inr 0xa0 0xbf (b2n x2f) = false) by reflexivity.
  assert (R2 : inr 0x80 0x9f (b2n x2f) = false) by reflexivity.
  assert (R3 : inr 0x90 0xbf (b2n x2f) = false) by reflexivity.
  assert (R4 : inr 0x80 0x8f (b2n x2f) = false) by reflexivity.
  induction n as [|n IH]; intros a b L H.
  - destruct a; [|cbn in L; lia]. split; [reflexivity|exact H].
  - destruct a as [|a0 a]; [split; [reflexivity|exact H]|]. cbn [length] in L. cbn [utf8_valid app] in H |- *.
    destruct (b2n a0 <=? 0x7f); [apply IH; [lia|exact H]|].
    destruct a as [|a1 a]; cbn [app length] in *.
    { rewrite C, R1, R2, R3, R4 in H. cbn [andb] in H.
      repeat match type of H with context [match ?x with _ => _ end] => destruct x; try discriminate end. }
    destruct (inr 0xc2 0xdf (b2n a0)); [apply andb_prop in H as [-> H]; apply IH; [lia|exact H]|].
    destruct a as [|a2 a]; cbn [app length] in *.
    { rewrite C in H. rewrite !andb_false_r in H. cbn [andb] in H.
      repeat match type of H with context [match ?x with _ => _ end] => destruct x; try discriminate end. }
    destruct (b2n a0 =? 0xe0); [apply andb_prop in H as [-> H]; apply IH; [lia|exact H]|].
    destruct (inr 0xe1 0xec (b2n a0) || inr 0xee 0xef (b2n a0)); [apply andb_prop in H as [-> H]; apply IH; [lia|exact H]|].
    destruct (b2n a0 =? 0xed); [apply andb_prop in H as [-> H]; apply IH; [lia|exact H]|].
    destruct a as [|a3 a]; cbn [app length] in *.
    { rewrite C in H. rewrite !andb_false_r in H. cbn [andb] in H.
      repeat match type of H with context [match ?x with _ => _ end] => destruct x; try discriminate end. }
    destruct (b2n a0 =? 0xf0); [apply andb_prop in H as [-> H]; apply IH; [lia|exact H]|].
    destruct (inr 0xf1 0xf3 (b2n a0)); [apply andb_prop in H as [-> H]; apply IH; [lia|exact H]|].
    destruct (b2n a0 =? 0xf4); [apply andb_prop in H as [-> H]; apply IH; [lia|exact H]|discriminate].
Qed.

Lemma utf8_join names : utf8_valid (join names) = true -> Forall (fun n => utf8_valid n = true) names.
Proof.
  induction names as [|n names IH]; intros H; [constructor|]. destruct names as [|m names].
  - constructor; [exact H|constructor].
  - cbn [join] in H. apply utf8_slash with (n := length n) in H as [A B]; [|lia]. constructor; [exact A|apply IH, B].
Qed.

(** ** Results by position *)
Lemma nth_until {A} (l : list (outcome construct_error A)) : forall i r,
  nth_error (until_panic l) i = Some r <-> nth_error l i = Some r /\ forall j, (j < i)%nat -> nth_error l j <> Some Panic.
Proof.
  induction l as [|x l IH]; intros i r.
  - cbn. destruct i; cbn; split; [discriminate|intros [? _]; discriminate|discriminate|intros [? _]; discriminate].
  - destruct i as [|i].
    + destruct x; cbn; (split; [intros E; split; [exact E|intros j L; lia]|intros [E _]; exact E]).
    + assert (P : x = Panic \/ (x <> Panic /\ until_panic (x :: l) = x :: until_panic l)) by (destruct x; auto; right; split; solve [discriminate|reflexivity]).
      destruct P as [->|[NP P]].
      * cbn. split; [destruct i; discriminate|]. intros [_ H]. exfalso. apply (H O); [lia|reflexivity].
      * rewrite P. cbn [nth_error]. rewrite IH. split; intros [E H]; (split; [exact E|]).
        -- intros [|j] L; cbn; [|apply H; lia]. intros E'. injection E' as ->. congruence.
        -- intros j L. apply (H (S j)). lia.
Qed.
Lemma nth_firstn {A} n (l : list A) : forall i r, nth_error (firstn n l) i = Some r <-> (i < n)%nat /\ nth_error l i = Some r.
Proof.
  revert l. induction n as [|n IH]; intros l i r; [cbn; split; [destruct i; discriminate|lia]|].
  destruct l as [|x l]; [destruct i; cbn; split; [discriminate|intros [_ ?]; discriminate|discriminate|intros [_ ?]; discriminate]|].
  destruct i as [|i]; cbn; [split; [intros; split; [lia|assumption]|intros [_ ?]; assumption]|].
  rewrite IH. split; intros [L E]; (split; [lia|exact E]).
Qed.
Lemma nth_repeat_tail {A} (l : list A) x n i r : nth_error (l ++ repeat x n) i = Some r -> nth_error l i = Some r \/ ((length l <= i)%nat /\ r = x).
Proof.
  intros H. destruct (Nat.lt_ge_cases i (length l)) as [L|L].
  - rewrite nth_error_app1 in H by exact L. auto.
  - rewrite nth_error_app2 in H by exact L. right. split; [exact L|]. apply nth_error_In in H. eapply repeat_spec. exact H.
Qed.

Section use.
Context (X : ext) (opts : tree_options) (ks : list call) (t : tree).
Notation b := (after (builder_new opts) ks).
Notation H := (accepted (builder_new opts) ks).
Notation wrap := (wrap_with_directory opts).
Notation limit := (block_size_limit opts).
Notation at_ := (rendered_at X limit t).

(** the i-th result is the answer at the i-th directory, if no earlier one is a panic *)
Lemma result_at order (I : forall n, results X n (build b) = firstn n (until_panic (map at_ order ++ repeat (Ok None) n))) :
  forall n i r, nth_error (results X n (build b)) i = Some r <->
    (i < n)%nat /\ (forall j p, (j < i)%nat -> nth_error order j = Some p -> at_ p <> Panic)
    /\ ((exists p, nth_error order i = Some p /\ r = at_ p) \/ ((length order <= i)%nat /\ r = Ok None)).
Proof.
  intros n i r. rewrite I, nth_firstn, nth_until.
  assert (N : forall j q, nth_error (map at_ order ++ repeat (Ok None) n) j = Some q ->
             (exists p, nth_error order j = Some p /\ q = at_ p) \/ ((length order <= j)%nat /\ q = Ok None)).
  { intros j q E. apply nth_repeat_tail in E as [E|[L ->]]; [|rewrite map_length in L; auto].
    rewrite nth_error_map in E. destruct (nth_error order j); [|discriminate]. injection E as <-. eauto. }
  assert (M : forall j p, nth_error order j = Some p -> nth_error (map at_ order ++ repeat (Ok None) n) j = Some (at_ p)).
  { intros j p E. assert ((j < length order)%nat) by (apply nth_error_Some; congruence).
    rewrite nth_error_app1 by (rewrite map_length; assumption). rewrite nth_error_map, E. reflexivity. }
  split.
  - intros (L & E & P). split; [exact L|]. split; [|apply N, E].
    intros j p Lj Ej. specialize (P j Lj). rewrite (M _ _ Ej) in P. congruence.
  - intros (L & P & E). split; [exact L|]. split.
    + destruct E as [(p & E & ->)|[G ->]]; [apply M, E|].
      rewrite nth_error_app2, map_length by (rewrite map_length; exact G). apply nth_error_repeat. lia.
    + intros j Lj E'. destruct (N _ _ E') as [(p & Ep & Q)|[_ Q]]; [|discriminate]. apply (P j p Lj Ep). congruence.
Qed.


Context (Ht : holds t H).

Lemma results_mono m n i r : (m <= n)%nat -> nth_error (results X m (build b)) i = Some r -> nth_error (results X n (build b)) i = Some r.
Proof.
  intros L. destruct (iterate X opts ks t Ht) as (order & _ & I).
  rewrite !(result_at order I). intros (Li & P & E). split; [lia|]. auto.
Qed.

(** every position with the answers before it *)
Lemma emitted_order order (PO : post_order_of t wrap order)
    (I : forall n, results X n (build b) = firstn n (until_panic (map at_ order ++ repeat (Ok None) n))) node :
  emitted X b node ->
  exists i names es, nth_error order i = Some names /\ subtree t names = Some (Dir es) /\ rendered X limit names es = Ok (Some node)
    /\ forall j p, (j < i)%nat -> nth_error order j = Some p -> at_ p <> Panic.
Proof.
  intros (n & E). apply In_nth_error in E as (i & E). apply (result_at order I) in E as (L & P & [(names & En & R)|[_ R]]); [|discriminate].
  exists i, names. pose proof (nth_error_In _ _ En) as In_. apply (proj1 (proj2 PO)) in In_ as ((es & S) & _).
  exists es. unfold rendered_at in R. rewrite S in R. auto.
Qed.

Lemma rendered_ok names es node : rendered X limit names es = Ok (Some node) ->
  node = node_of X names es /\ existsb (fun e => too_large X limit (snd e)) es = false /\ too_large X limit (Dir es) = false
  /\ (ext_dbg X = true -> dir_total X es < two64).
Proof.
  unfold rendered. destruct (existsb _ es); [discriminate|]. destruct (too_large X limit (Dir es)); [discriminate|].
  destruct (ext_dbg X) eqn:D; cbn [andb].
  - destruct (two64 <=? dir_total X es) eqn:T; [discriminate|]. apply N.leb_gt in T. intros E. injection E as <-. auto.
  - intros E. injection E as <-. split; [|split; [|split]]; auto. discriminate.
Qed.

Lemma emitted_at node : emitted X b node ->
  exists names es, subtree t names = Some (Dir es) /\ (wrap = true \/ names <> []) /\ node = node_of X names es
    /\ existsb (fun e => too_large X limit (snd e)) es = false /\ too_large X limit (Dir es) = false
    /\ (ext_dbg X = true -> dir_total X es < two64)
    /\ forall n sub, In (n, Dir sub) es -> emitted X b (node_of X (names ++ [n]) sub).
Proof.
  intros E. destruct (iterate X opts ks t Ht) as (order & PO & I).
  destruct (emitted_order order PO I node E) as (i & names & es & En & S & R & P).
  apply rendered_ok in R as (-> & C & T & D). exists names, es. split; [exact S|].
  split; [apply (proj1 (proj2 PO) names), (nth_error_In _ _ En)|].
  split; [reflexivity|]. split; [exact C|]. split; [exact T|]. split; [exact D|].
  intros n sub In_. assert (S' : subtree t (names ++ [n]) = Some (Dir sub)).
  { rewrite subtree_app, S. cbn. rewrite (find_sorted n es (Dir sub)); [reflexivity|apply (proj1 Ht names), S|exact In_]. }
  assert (J : In (names ++ [n]) order).
  { apply (proj1 (proj2 PO)). split; [exists sub; exact S'|]. right. destruct names; discriminate. }
  apply In_nth_error in J as (j & J). pose proof (proj2 (proj2 PO) _ _ _ _ J En ltac:(discriminate)) as L.
  exists (Datatypes.S j). apply nth_error_In with (n := j). apply (result_at order I).
  split; [lia|]. split; [intros; apply P with j0; [lia|assumption]|]. left. exists (names ++ [n]). split; [exact J|].
  pose proof (P _ _ L J) as NP. unfold rendered_at in *. rewrite S' in *.
  assert (TL : too_large X limit (Dir sub) = false).
  { destruct (too_large X limit (Dir sub)) eqn:Q; [|reflexivity]. rewrite <- C. symmetry. apply existsb_exists. exists (n, Dir sub). auto. }
  unfold rendered in *. destruct (existsb _ sub); [congruence|]. rewrite TL in *.
  destruct (ext_dbg X && (two64 <=? dir_total X sub)); [congruence|reflexivity].
Qed.

Lemma succeeds_emits names es : succeeds X b -> subtree t names = Some (Dir es) -> wrap = true \/ names <> [] ->
  emitted X b (node_of X names es).
Proof.
  intros Su S W. destruct (iterate X opts ks t Ht) as (order & PO & I).
  assert (J : In names order) by (apply (proj1 (proj2 PO)); split; [exists es; exact S|exact W]).
  apply In_nth_error in J as (j & J).
  assert (P : forall k p, (k <= j)%nat -> nth_error order k = Some p -> exists o, at_ p = Ok o).
  { induction k as [k IH] using lt_wf_ind. intros p L E. apply (Su (Datatypes.S k)). apply nth_error_In with (n := k).
    apply (result_at order I). split; [lia|]. split; [|left; eauto].
    intros k' p' Lk Ek. destruct (IH k' Lk p' ltac:(lia) Ek) as (o & ->). discriminate. }
  destruct (P j names ltac:(lia) J) as (o & Eo).
  exists (Datatypes.S j). apply nth_error_In with (n := j). apply (result_at order I). split; [lia|].
  split; [intros k p L E; destruct (P k p ltac:(lia) E) as (o' & ->); discriminate|].
  left. exists names. split; [exact J|]. unfold rendered_at in *. rewrite S in *.
  destruct o as [node|].
  - rewrite Eo. f_equal. f_equal. symmetry. apply rendered_ok, Eo.
  - exfalso. unfold rendered in Eo. repeat match type of Eo with context [if ?x then _ else _] => destruct x end; discriminate.
Qed.

Lemma at_none p : at_ p <> Ok None.
Proof.
  unfold rendered_at, rendered. destruct (subtree t p) as [[|es]|]; [discriminate| |discriminate].
  repeat match goal with |- context [if ?x then _ else _] => destruct x end; discriminate.
Qed.

(** finitely many results tell whether all are fine *)
Lemma succeeds_by n : In (Ok None) (results X n (build b)) -> (forall r, In r (results X n (build b)) -> exists o, r = Ok o) ->
  succeeds X b.
Proof.
  destruct (iterate X opts ks t Ht) as (order & _ & I). intros E F m r J.
  apply In_nth_error in E as (k & E). apply (result_at order I) in E as (Lk & _ & [(p & _ & E)|[G _]]);
    [exfalso; exact (at_none p (eq_sym E))|].
  apply In_nth_error in J as (i & J). apply (result_at order I) in J as (Li & P & [(p & Ei & ->)|[_ ->]]); [|eauto].
  apply F. apply nth_error_In with (n := i). apply (result_at order I).
  assert ((i < length order)%nat) by (apply nth_error_Some; congruence).
  split; [lia|]. split; [exact P|]. left. eauto.
Qed.

(** ** What the types of the API guarantee *)
Context (HX : ext_ok X) (A : Forall api_call ks).

Lemma accepted_in (bb : builder) l k : In k (accepted bb l) -> In k l.
Proof.
  revert bb. induction l as [|k0 l IH]; intros bb I; [exact I|]. cbn [accepted] in I. apply in_app_iff in I as [I|I].
  - destruct (fst (do_call bb k0)); [destruct I as [<-|[]]; left; reflexivity|destruct I..].
  - right. apply (IH _ I).
Qed.

Lemma entry_ok names es n sub : subtree t names = Some (Dir es) -> In (n, sub) es ->
  subtree t (names ++ [n]) = Some sub /\ utf8_valid n = true /\ slash_free n
  /\ match sub with Leaf c s => cid_wf c = true /\ s < two64 | Dir _ => True end.
Proof.
  intros S In_. assert (S' : subtree t (names ++ [n]) = Some sub).
  { rewrite subtree_app, S. cbn. rewrite (find_sorted n es sub); [reflexivity|apply (proj1 Ht names), S|exact In_]. }
  split; [exact S'|].
  assert (G : forall k rest, In k H -> segments (call_path k) ((names ++ [n]) ++ rest) -> api_call k /\ utf8_valid n = true /\ slash_free n).
  { intros k rest I (_ & F & E). assert (AK : api_call k) by (rewrite Forall_forall in A; apply A, (accepted_in _ _ _ I)).
    split; [exact AK|]. split.
    - destruct AK as [U _]. rewrite E in U. apply utf8_join in U. rewrite <- app_assoc in U.
      apply Forall_app in U as [_ U]. apply Forall_cons_iff in U as [U _]. exact U.
    - rewrite <- app_assoc in F. apply Forall_app in F as [_ F]. apply Forall_cons_iff in F as [F _]. exact F. }
  destruct sub as [c s|sub].
  - apply (proj1 (proj2 Ht)) in S' as (p & I & Sg). destruct (G (Put p c s) []) as (AK & U & SF); [exact I|rewrite app_nil_r; exact Sg|].
    split; [exact U|]. split; [exact SF|]. apply AK.
  - assert (D : is_dir t (names ++ [n])) by (exists sub; exact S'). apply (proj2 (proj2 Ht)) in D as [D|(_ & [(p & md & I & Sg)|(k & m & rest & I & Sg)])].
    + destruct names; discriminate.
    + destruct (G (SetMetadata p md) []) as (_ & U & SF); [exact I|rewrite app_nil_r; exact Sg|]. auto.
    + destruct (G k (m :: rest)) as (_ & U & SF); [exact I|exact Sg|]. auto.
Qed.

Lemma link_wf sub : match sub with Leaf c s => cid_wf c = true /\ s < two64 | Dir _ => True end ->
  cid_wf (fst (link_of X sub)) = true /\ snd (link_of X sub) < two64.
Proof.
  destruct sub as [c s|es]; [auto|]. intros _. cbn [link_of fst snd]. split; [apply block_cid_wf; exact HX|].
  apply N.mod_lt. discriminate.
Qed.

Lemma links_fit names es : subtree t names = Some (Dir es) -> Forall link_fits (dir_links X es).
Proof.
  intros S. apply Forall_forall. intros l I. unfold dir_links in I. apply in_map_iff in I as ([n sub] & <- & I).
  destruct (entry_ok names es n sub S I) as (_ & U & _ & W). apply link_wf in W as [_ W].
  split; cbn; assumption.
Qed.

Lemma block_parses names es : subtree t names = Some (Dir es) -> blen (dir_block X es) < two32 ->
  try_parse (ext_dbg X) (dir_block X es) = Ok (directory_message (dir_links X es)).
Proof.
  intros S L. apply round_trip; [apply (links_fit names), S| |exact L]. repeat split; constructor.
Qed.

Lemma sorted_links es : sorted_entries es -> StronglySorted (fun a b => name_lt (name_of a) (name_of b)) (dir_links X es).
Proof.
  induction 1 as [|e es S IH F]; [constructor|]. cbn [dir_links map]. constructor; [exact IH|].
  apply Forall_forall. intros l I. apply in_map_iff in I as (e' & <- & I). rewrite Forall_forall in F. apply F, I.
Qed.

Lemma named_sorted es n sub : sorted_entries es -> In (n, sub) es ->
  named (dir_links X es) n = [entry_link n (link_of X sub)].
Proof.
  induction 1 as [|[m u] es S IH F]; intros I; [destruct I|]. rewrite Forall_forall in F. cbn [dir_links map named filter].
  change (name_of (entry_link (fst (m, u)) (link_of X (snd (m, u))))) with m. destruct I as [E|I].
  - injection E as -> ->. rewrite bytes_eqb_refl. cbn [fst snd]. f_equal. clear IH S.
    fold (dir_links X es). induction es as [|[k v] es IH]; [reflexivity|]. cbn [dir_links map filter].
    change (name_of (entry_link (fst (k, v)) (link_of X (snd (k, v))))) with k.
    destruct (bytes_eqb k n) eqn:B.
    + apply bytes_eqb_eq in B as ->. exfalso. apply (name_lt_irrefl n). apply (F (n, v)). left. reflexivity.
    + apply IH. intros x Ix. apply F. right. exact Ix.
  - destruct (bytes_eqb m n) eqn:B.
    + apply bytes_eqb_eq in B as ->. exfalso. apply (name_lt_irrefl n). apply (F (n, sub)). exact I.
    + apply IH, I.
Qed.
End use.

(** ** Acceptance does not depend on the order when wrapping *)
Definition is_put (k : call) : Prop := match k with Put _ _ _ => True | SetMetadata _ _ => False end.
Definition below (a b : list bytes) : Prop := exists rest, b = a ++ rest.
Definition compatible (k1 k2 : call) : Prop :=
  let n1 := split_slash (call_path k1) in let n2 := split_slash (call_path k2) in
  (is_put k1 -> ~ below n1 n2) /\ (is_put k2 -> ~ below n2 n1).

Lemma compatible_sym k1 k2 : compatible k1 k2 -> compatible k2 k1.
Proof. intros [A B]. split; assumption. Qed.

Lemma acceptable_wrap H k :
  acceptable true H k <-> well_formed (call_path k) /\ Forall (fun h => compatible h k) H.
Proof.
  unfold acceptable. set (names := split_slash (call_path k)).
  assert (SG : segments (call_path k) names) by apply split_segments.
  split.
  - intros (W & names' & S & _ & T & E). split; [exact W|]. rewrite (segments_fun _ _ _ S SG) in *. clear S names'.
    apply Forall_forall. intros h I. pose proof (split_segments (call_path h)) as Sh. split; fold names.
    + intros P (rest & B). destruct h as [p c s|]; [|destruct P]. cbn [call_path] in *.
      assert (L : leaf_in H (split_slash p) c s) by (exists p; auto).
      destruct rest as [|r rest].
      * rewrite app_nil_r in B. rewrite B in E. destruct k; apply E; [right|]; eauto.
      * apply T. exists (split_slash p), r, rest, c, s. auto.
    + intros P (rest & B). destruct k as [p c s|]; [|destruct P]. apply E. destruct rest as [|r rest].
      * rewrite app_nil_r in B. destruct h as [p2 c2 s2|p2 md]; cbn [call_path] in *.
        -- right. exists c2, s2, p2. rewrite <- B. auto.
        -- left. split; [apply SG|]. left. exists p2, md. rewrite <- B. auto.
      * left. split; [apply SG|]. right. exists h, r, rest. rewrite <- B. auto.
  - intros (W & F). split; [exact W|]. exists names. split; [exact SG|]. split; [left; reflexivity|].
    rewrite Forall_forall in F.
    assert (NL : forall c s, ~ leaf_in H names c s).
    { intros c s (p & I & S). destruct (F _ I) as [C _]. cbn [call_path is_put] in C. apply C; [exact Logic.I|].
      exists []. rewrite app_nil_r. apply segments_split in S. unfold names in *. cbn [call_path] in *. congruence. }
    split.
    + intros (pre & n & rest & c & s & E & (p & I & S)). destruct (F _ I) as [C _]. cbn [call_path is_put] in C.
      apply C; [exact Logic.I|]. exists (n :: rest). apply segments_split in S. unfold names in *. cbn [call_path] in *. congruence.
    + destruct k as [p c s|p md]; [|intros (c & s & L); exact (NL c s L)].
      intros [(_ & D)|(c' & s' & L)]; [|exact (NL _ _ L)].
      destruct D as [(p2 & md & I & S)|(h & n & rest & I & S)]; destruct (F _ I) as [_ C]; cbn [call_path is_put] in C; apply C; try exact Logic.I.
      * exists []. rewrite app_nil_r. apply segments_split in S. unfold names in *. cbn [call_path] in *. congruence.
      * exists (n :: rest). apply segments_split in S. unfold names in *. cbn [call_path] in *. congruence.
Qed.

Lemma call_ok opts ks k :
  fst (do_call (after (builder_new opts) ks) k) = Ok tt <-> acceptable (wrap_with_directory opts) (accepted (builder_new opts) ks) k.
Proof.
  destruct (run_new opts ks) as [I O]. destruct (call_step _ _ k I) as [(A & E & _)|(e & R & E & _)]; rewrite O in *.
  - split; auto.
  - split; [congruence|]. intros A. exfalso. exact (refusal_excl _ _ _ _ R A).
Qed.

Lemma all_accepted b ks : Forall (eq (Ok tt)) (returns b ks) -> accepted b ks = ks.
Proof.
  revert b. induction ks as [|k ks IH]; intros b F; [reflexivity|]. cbn in *. apply Forall_cons_iff in F as [<- F].
  cbn. f_equal. apply IH, F.
Qed.

Lemma fop_snoc {A} (R : A -> A -> Prop) l x : ForallOrdPairs R (l ++ [x]) <-> ForallOrdPairs R l /\ Forall (fun y => R y x) l.
Proof.
  induction l as [|a l IH]; cbn [app].
  - split; [intros _; split; constructor|]. intros _. repeat constructor.
  - split.
    + intros F. inversion F as [|? ? F1 F2]; subst. apply Forall_app in F1 as [F1 F3]. apply Forall_cons_iff in F3 as [F3 _].
      apply IH in F2 as [F2 F4]. split; constructor; assumption.
    + intros [F G]. inversion F as [|? ? F1 F2]; subst. apply Forall_cons_iff in G as [G1 G2]. constructor.
      * apply Forall_app. split; [exact F1|]. constructor; [exact G1|constructor].
      * apply IH. auto.
Qed.
Lemma fop_perm {A} (R : A -> A -> Prop) (S : forall x y, R x y -> R y x) l l' :
  Permutation l l' -> ForallOrdPairs R l -> ForallOrdPairs R l'.
Proof.
  induction 1 as [|x l l' P IH|x y l|l l' l'' P1 IH1 P2 IH2]; intros F; [constructor| | |auto].
  - inversion F as [|? ? F1 F2]; subst. constructor; [|auto]. rewrite <- P. exact F1.
  - inversion F as [|? ? F1 F2]; subst. inversion F2 as [|? ? F3 F4]; subst. apply Forall_cons_iff in F1 as [F0 F1].
    constructor; [constructor; [apply S, F0|exact F3]|]. constructor; assumption.
Qed.

Lemma wrapped_history opts (W : wrap_with_directory opts = true) ks :
  Forall (eq (Ok tt)) (returns (builder_new opts) ks) <->
  Forall (fun k => well_formed (call_path k)) ks /\ ForallOrdPairs compatible ks.
Proof.
  induction ks as [|k ks IH] using rev_ind; [cbn; split; [intros _; split; constructor|constructor]|].
  rewrite returns_app, fop_snoc, !Forall_app, IH. cbn [returns].
  assert (E : forall P : call -> Prop, Forall P [k] <-> P k).
  { intros P. split; [intros F; apply Forall_cons_iff in F; tauto|intros; constructor; [assumption|constructor]]. }
  rewrite E. split.
  - intros [[A B] C]. apply Forall_cons_iff in C as [C _]. symmetry in C. apply call_ok in C.
    rewrite W, (all_accepted _ ks (proj2 IH (conj A B))), acceptable_wrap in C. tauto.
  - intros [[A B] [C D]]. split; [tauto|]. constructor; [|constructor]. symmetry. apply call_ok.
    rewrite W, (all_accepted _ ks (proj2 IH (conj A C))), acceptable_wrap. auto.
Qed.
