(** * Cumulative_proofs: the total size of the last node counts everything below it *)
From Coq Require Import Sorting.Sorted Sorting.Permutation.
From Verif Require Import Base Tac Wire Utf8 Cid Pb Reader Builder SpecBuilder Paths_proofs Builder_proofs Builder_iter Builder_thms Builder_use.

Lemma sumN_perm (l l' : list N) : Permutation l l' -> sumN l = sumN l'.
Proof. induction 1; rewrite ?sumN_cons; lia. Qed.
Lemma sumN_concat (l : list (list N)) : sumN (concat l) = sumN (map sumN l).
Proof. induction l as [|x l IH]; [reflexivity|]. cbn [concat map]. rewrite sumN_app, sumN_cons, IH. reflexivity. Qed.
Lemma sumN_rev (l : list N) : sumN (rev l) = sumN l.
Proof. apply sumN_perm, Permutation_sym, Permutation_rev. Qed.
Lemma sumN_plus {A} (f g : A -> N) l : sumN (map (fun x => f x + g x) l) = sumN (map f l) + sumN (map g l).
Proof. induction l as [|x l IH]; [reflexivity|]. cbn [map]. rewrite !sumN_cons, IH. lia. Qed.
Lemma NoDup_map_on {A B} (f : A -> B) l : NoDup l -> (forall x y, In x l -> In y l -> f x = f y -> x = y) -> NoDup (map f l).
Proof.
  induction 1 as [|x l N ND IH]; intros H; [constructor|]. cbn [map]. constructor.
  - intros I. apply in_map_iff in I as (y & E & I). apply N. rewrite <- (H y x); [exact I|right; exact I|left; reflexivity|exact E].
  - apply IH. intros y z Iy Iz. apply H; right; assumption.
Qed.

Section cumulative.
Context (X : ext).

(** everything at and below an entry *)
Fixpoint weight (t : tree) : N :=
  match t with
  | Leaf _ s => s
  | Dir es => blen (dir_block X es) + sumN (map (fun e => weight (snd e)) es)
  end.

Lemma sum_mod {A} (f g : A -> N) l : (forall x, In x l -> f x mod two64 = g x mod two64) ->
  sumN (map f l) mod two64 = sumN (map g l) mod two64.
Proof.
  intros H. induction l as [|x l IH]; [reflexivity|]. cbn [map]. rewrite !sumN_cons.
  rewrite (N.add_mod (f x)), (N.add_mod (g x)) by (unfold two64; lia).
  rewrite (H x) by (left; reflexivity). rewrite IH; [reflexivity|]. intros y I. apply H. right. exact I.
Qed.
Lemma weight_mod t : snd (link_of X t) mod two64 = weight t mod two64.
Proof.
  induction t as [c s|es IH] using tree_ind'; [reflexivity|].
  cbn [weight]. change (snd (link_of X (Dir es))) with (dir_total X es mod two64). rewrite N.mod_mod by (unfold two64; lia).
  unfold dir_total. rewrite (N.add_mod (blen _)), (N.add_mod (blen (dir_block X es)) (sumN (map (fun e => weight _) es))) by (unfold two64; lia).
  rewrite (sum_mod _ (fun e => weight (snd e))); [reflexivity|]. intros [n t] I. apply (IH n t I).
Qed.
Lemma weight_exact t : (forall r es, subtree t r = Some (Dir es) -> dir_total X es < two64) -> ordered t ->
  match t with Leaf _ _ => True | Dir es => dir_total X es = weight t end /\ snd (link_of X t) = weight t.
Proof.
  induction t as [c s|es IH] using tree_ind'; intros H O; [split; [exact I|reflexivity]|].
  assert (E : dir_total X es = weight (Dir es)).
  { unfold dir_total. cbn [weight]. f_equal. f_equal. apply map_ext_in. intros [n t] I. cbn [snd].
    pose proof (find_sorted n es t (O [] es eq_refl) I) as F. apply (IH n t I).
    - intros r es' S. apply (H (n :: r)). cbn. rewrite F. exact S.
    - eapply ordered_entry; eassumption. }
  split; [exact E|]. change (snd (link_of X (Dir es))) with (dir_total X es mod two64). rewrite N.mod_small; [exact E|apply (H []); reflexivity].
Qed.

(** the block of the directory at a path *)
Definition block_at (T : tree) (p : list bytes) : N :=
  match subtree T p with Some (Dir es) => blen (dir_block X es) | _ => 0 end.
Fixpoint leafs (ps : list bytes) (t : tree) : list (list bytes * cid * N) :=
  match t with
  | Leaf c s => [(ps, c, s)]
  | Dir es => concat (map (fun e => leafs (ps ++ [fst e]) (snd e)) es)
  end.
Definition leaf_size (x : list bytes * cid * N) : N := snd x.

Lemma weight_paths T t : forall ps, ordered t -> subtree T ps = Some t ->
  weight t = sumN (map (block_at T) (paths ps t)) + sumN (map leaf_size (leafs ps t)).
Proof.
  induction t as [c s|es IH] using tree_ind'; intros ps O HT; [cbn; lia|].
  cbn [weight paths leafs]. rewrite map_app, sumN_app. cbn [map]. rewrite sumN_cons. change (sumN []) with 0.
  unfold block_at at 2. rewrite HT. rewrite !concat_map, !sumN_concat. rewrite !map_rev, sumN_rev, !map_map.
  assert (E : sumN (map (fun e => weight (snd e)) es) =
    sumN (map (fun e => sumN (map (block_at T) (paths (ps ++ [fst e]) (snd e)))) es) + sumN (map (fun e => sumN (map leaf_size (leafs (ps ++ [fst e]) (snd e)))) es)).
  { rewrite <- sumN_plus. f_equal. apply map_ext_in. intros [n t] I. cbn [fst snd]. apply (IH n t I).
    - eapply ordered_entry; eassumption.
    - rewrite subtree_app, HT. cbn. rewrite (find_sorted n es t); [reflexivity|apply (O []); reflexivity|exact I]. }
  rewrite E. lia.
Qed.

Lemma leafs_in t : forall ps q c s, ordered t -> (In (q, c, s) (leafs ps t) <-> exists r, q = ps ++ r /\ subtree t r = Some (Leaf c s)).
Proof.
  induction t as [c0 s0|es IH] using tree_ind'; intros ps q c s O.
  - cbn. split.
    + intros [[= <- <- <-]|[]]. exists []. rewrite app_nil_r. auto.
    + intros (r & -> & E). destruct r; [|discriminate]. injection E as <- <-. rewrite app_nil_r. left. reflexivity.
  - pose proof (O [] es eq_refl) as S. cbn [leafs]. rewrite in_concat. split.
    + intros (l & I & Iq). apply in_map_iff in I as ((n & t) & <- & I). cbn [fst snd] in Iq. pose proof (find_sorted n es t S I) as F.
      apply (IH n t I) in Iq as (r & -> & E); [|eapply ordered_entry; eassumption]. exists (n :: r). rewrite <- app_assoc. split; [reflexivity|]. cbn. rewrite F. exact E.
    + intros (r & -> & E). destruct r as [|n r]; [discriminate|]. cbn in E. destruct (find_name n es) as [t|] eqn:F; [|discriminate].
      pose proof (find_in _ _ _ F) as I. exists (leafs (ps ++ [n]) t). split; [apply in_map_iff; exists (n, t); auto|].
      apply (IH n t I); [eapply ordered_entry; eassumption|]. exists r. rewrite <- app_assoc. auto.
Qed.
Lemma name_lt_irrefl n : ~ name_lt n n.
Proof.
  intros [(y & rest & E)|(p & x & y & a & b & E1 & E2 & L)].
  - apply (f_equal (@length _)) in E. rewrite app_length in E. cbn in E. lia.
  - rewrite E1 in E2. apply app_inv_head in E2. injection E2 as -> _. lia.
Qed.
Lemma leafs_nodup t : forall ps, ordered t -> NoDup (leafs ps t).
Proof.
  induction t as [c s|es IH] using tree_ind'; intros ps O; [constructor; [intros []|constructor]|].
  pose proof (O [] es eq_refl) as S. cbn [leafs].
  assert (OE : forall n t, In (n, t) es -> ordered t) by (intros n t I; eapply ordered_entry; eassumption).
  clear O. induction S as [|[n t] es S IHs F]; [constructor|]. cbn [map concat fst snd].
  assert (D : forall x, In x (leafs (ps ++ [n]) t) -> ~ In x (concat (map (fun e => leafs (ps ++ [fst e]) (snd e)) es))).
  { intros [[q c] s] I J. apply in_concat in J as (l & J & Jq). apply in_map_iff in J as ((m & u) & <- & J). cbn [fst snd] in Jq.
    apply leafs_in in I as (r & -> & _); [|apply (OE n t); left; reflexivity].
    apply leafs_in in Jq as (r' & E & _); [|apply (OE m u); right; exact J].
    rewrite <- !app_assoc in E. apply app_inv_head in E. injection E as -> _.
    rewrite Forall_forall in F. apply (name_lt_irrefl m). apply (F (m, u) J). }
  assert (N1 : NoDup (leafs (ps ++ [n]) t)) by (apply (IH n t); [left; reflexivity|apply (OE n t); left; reflexivity]).
  assert (N2 : NoDup (concat (map (fun e => leafs (ps ++ [fst e]) (snd e)) es))).
  { apply IHs; [intros m u I; apply (IH m u); right; exact I|intros m u I; apply (OE m u); right; exact I]. }
  revert N1 N2 D. generalize (leafs (ps ++ [n]) t) as a, (concat (map (fun e => leafs (ps ++ [fst e]) (snd e)) es)) as b. clear. intros a b N1 N2 D.
  induction N1 as [|x a Nx N1 IH]; [exact N2|]. cbn [app]. constructor.
  - rewrite in_app_iff. intros [I|I]; [tauto|]. apply (D x); [left; reflexivity|exact I].
  - apply IH. intros y I. apply D. right. exact I.
Qed.

(** ** The accepted calls *)
Definition puts_of (H : list call) : list (bytes * cid * N) :=
  flat_map (fun k => match k with Put p c s => [(p, c, s)] | SetMetadata _ _ => [] end) H.
Lemma puts_in H p c s : In (p, c, s) (puts_of H) <-> In (Put p c s) H.
Proof.
  unfold puts_of. rewrite in_flat_map. split.
  - intros ([p' c' s'|p' md] & I & J); [|destruct J]. destruct J as [[= -> -> ->]|[]]. exact I.
  - intros I. exists (Put p c s). split; [exact I|left; reflexivity].
Qed.
Lemma puts_app a b : puts_of (a ++ b) = puts_of a ++ puts_of b.
Proof. apply flat_map_app. Qed.
Lemma puts_size H : sumN (map put_size H) = sumN (map snd (puts_of H)).
Proof. induction H as [|[p c s|p md] H IH]; [reflexivity|..]; cbn [map puts_of flat_map app put_size snd] in *; rewrite ?sumN_cons, IH; reflexivity. Qed.

Lemma accepted_snoc opts ks k : accepted (builder_new opts) (ks ++ [k]) = accepted (builder_new opts) ks
  \/ (accepted (builder_new opts) (ks ++ [k]) = accepted (builder_new opts) ks ++ [k]
      /\ acceptable (wrap_with_directory opts) (accepted (builder_new opts) ks) k).
Proof.
  rewrite accepted_app. cbn [accepted]. rewrite app_nil_r.
  destruct (fst (do_call (after (builder_new opts) ks) k)) as [[]| | |] eqn:E; [right|left; apply app_nil_r..].
  split; [reflexivity|]. apply call_ok, E.
Qed.

Lemma puts_nodup opts ks : NoDup (puts_of (accepted (builder_new opts) ks)).
Proof.
  induction ks as [|k ks IH] using rev_ind; [constructor|]. destruct (accepted_snoc opts ks k) as [->|[-> A]]; [exact IH|].
  rewrite puts_app. destruct k as [p c s|p md]; [|cbn; rewrite app_nil_r; exact IH].
  cbn [puts_of flat_map app]. apply Permutation_NoDup with (l := (p, c, s) :: puts_of (accepted (builder_new opts) ks)); [apply Permutation_cons_append|constructor; [|exact IH]].
  intros I. apply puts_in in I. destruct A as (_ & names & Sg & _ & _ & NE). apply NE. right. exists c, s, p. auto.
Qed.

(** without wrapping all paths start with the same name *)
Definition top_of (H : list call) (n : bytes) : Prop := exists k rest, In k H /\ segments (call_path k) (n :: rest).
Lemma entry_top H n : entry_in H [n] -> top_of H n.
Proof.
  intros [(_ & [(p & md & I & S)|(k & m & rest & I & S)])|(c & s & p & I & S)].
  - exists (SetMetadata p md), []. auto.
  - exists k, (m :: rest). auto.
  - exists (Put p c s), []. auto.
Qed.
Lemma top_entry H n : top_of H n -> entry_in H [n].
Proof.
  intros (k & rest & I & S). destruct rest as [|m rest].
  - destruct k as [p c s|p md]; [right; exists c, s, p; auto|left; split; [discriminate|left; exists p, md; auto]].
  - left. split; [discriminate|]. right. exists k, m, rest. auto.
Qed.
Lemma one_top opts ks : wrap_with_directory opts = false -> forall n m,
  top_of (accepted (builder_new opts) ks) n -> top_of (accepted (builder_new opts) ks) m -> n = m.
Proof.
  intros W. induction ks as [|k ks IH] using rev_ind; [intros n m (k & rest & [] & _)|].
  destruct (accepted_snoc opts ks k) as [->|[-> A]]; [exact IH|]. rewrite W in A.
  destruct A as (_ & names & Sg & [?|[Z|(n0 & n1 & rest & -> & E)]] & _); [discriminate| |].
  - rewrite Z. cbn [app]. intros n m (k1 & r1 & [<-|[]] & S1) (k2 & r2 & [<-|[]] & S2).
    pose proof (segments_fun _ _ _ S1 S2) as Q. congruence.
  - apply entry_top in E. assert (K : forall n, top_of (accepted (builder_new opts) ks ++ [k]) n -> n = n0).
    { intros n (k1 & r1 & I & S1). apply in_app_iff in I as [I|[<-|[]]].
      - apply IH; [exists k1, r1; auto|exact E].
      - pose proof (segments_fun _ _ _ S1 Sg) as Q. congruence. }
    intros n m Hn Hm. rewrite (K n Hn), (K m Hm). reflexivity.
Qed.

(** ** The sums *)
Section sums.
Context (opts : tree_options) (ks : list call) (t : tree) (Ht : holds t (accepted (builder_new opts) ks)).
Notation H := (accepted (builder_new opts) ks).

Lemma leafs_sum : sumN (map leaf_size (leafs [] t)) = sumN (map put_size H).
Proof.
  rewrite puts_size. destruct Ht as (O & Hl & Hd).
  assert (Dt : exists es, t = Dir es).
  { destruct (proj2 (Hd []) (or_introl eq_refl)) as (es & E). cbn in E. injection E as ->. eauto. }
  set (f := fun x : list bytes * cid * N => (join (fst (fst x)), snd (fst x), snd x)).
  assert (Seg : forall q c s, In (q, c, s) (leafs [] t) -> exists p, In (Put p c s) H /\ segments p q).
  { intros q c s I. apply leafs_in in I as (r & -> & E); [|exact O]. cbn [app]. apply Hl, E. }
  assert (P : Permutation (map f (leafs [] t)) (puts_of H)).
  { apply NoDup_Permutation.
    - apply NoDup_map_on; [apply leafs_nodup, O|]. intros [[q c] s] [[q' c'] s'] I I' E. unfold f in E. cbn [fst snd] in E.
      destruct (Seg q c s I) as (p & _ & (NE & F & _)). destruct (Seg q' c' s' I') as (p' & _ & (NE' & F' & _)).
      injection E as E -> ->. rewrite (join_inj q q' NE NE' F F' E). reflexivity.
    - apply puts_nodup.
    - intros [[p c] s]. rewrite puts_in, in_map_iff. split.
      + intros ([[q c'] s'] & E & I). unfold f in E. cbn [fst snd] in E. injection E as <- -> ->.
        destruct (Seg q c s I) as (p & Ip & (_ & _ & <-)). exact Ip.
      + intros I. exists (split_slash p, c, s). pose proof (split_segments p) as S. split.
        * unfold f. cbn [fst snd]. destruct S as (_ & _ & <-). reflexivity.
        * apply leafs_in; [exact O|]. exists (split_slash p). split; [reflexivity|]. apply Hl. exists p. auto. }
  rewrite <- (sumN_perm _ _ (Permutation_map snd P)), map_map. reflexivity.
Qed.

Theorem cumulative nodes node n :
  results X n (build (after (builder_new opts) ks)) = map (fun x => Ok (Some x)) (nodes ++ [node]) ++ [Ok None] ->
  let total := sumN (map (fun x => blen (n_block x)) (nodes ++ [node])) + sumN (map put_size H) in
  n_total_size node = total mod two64 /\ (ext_dbg X = true -> total < two64).
Proof.
  intros R total. destruct (iterate X opts ks t Ht) as (order & PO & It).
  pose proof Ht as (O & Hl & Hd). destruct PO as (ND & In_ & Po).
  set (at_ := rendered_at X (block_size_limit opts) t) in *.
  (* the results are the answers at the directories in order *)
  assert (Len : length order = length (nodes ++ [node]) /\ map at_ order = map (fun x => Ok (Some x)) (nodes ++ [node])).
  { pose proof (result_at X opts ks t order It n) as RA. rewrite R in RA.
    assert (N : forall i x, nth_error (nodes ++ [node]) i = Some x -> exists p, nth_error order i = Some p /\ at_ p = Ok (Some x)).
    { intros i x E. assert (L : (i < length (nodes ++ [node]))%nat) by (apply nth_error_Some; congruence).
      destruct (proj1 (RA i (Ok (Some x)))) as (_ & _ & [(p & Ep & Q)|[_ Q]]); [|exists p; auto|discriminate].
      rewrite nth_error_app1 by (rewrite map_length; exact L). rewrite nth_error_map, E. reflexivity. }
    assert (L : length order = length (nodes ++ [node])).
    { apply Nat.le_antisymm.
      - destruct (le_lt_dec (length order) (length (nodes ++ [node]))) as [?|G]; [assumption|exfalso].
        destruct (proj1 (RA (length (nodes ++ [node])) (Ok None))) as (_ & _ & [(p & Ep & Q)|[Q _]]); [|exact (at_none X opts t p (eq_sym Q))|lia].
        rewrite nth_error_app2, map_length, Nat.sub_diag by (rewrite map_length; lia). reflexivity.
      - destruct (le_lt_dec (length (nodes ++ [node])) (length order)) as [?|G]; [assumption|exfalso].
        destruct (nth_error (nodes ++ [node]) (length order)) as [x|] eqn:E; [|apply nth_error_None in E; lia].
        destruct (N _ _ E) as (p & Ep & _). assert (length order < length order)%nat by (apply nth_error_Some; congruence). lia. }
    split; [exact L|]. clear - N L. revert N L. generalize (nodes ++ [node]) as xs. induction order as [|p order IH]; intros [|x xs] N L; try discriminate; [reflexivity|].
    cbn [map]. destruct (N O x eq_refl) as (p' & [= <-] & ->). f_equal. apply IH; [|cbn in L; lia]. intros i y E. apply (N (Datatypes.S i) y E). }
  destruct Len as [Len Ans].
  assert (Nodes : forall p x, In (p, x) (combine order (nodes ++ [node])) -> exists es, subtree t p = Some (Dir es) /\ x = node_of X p es /\ (ext_dbg X = true -> dir_total X es < two64)).
  { clear - Ans In_. revert Ans. assert (J : forall p, In p order -> is_dir t p) by (intros p I; apply In_, I). clear In_. revert J.
    generalize (nodes ++ [node]) as xs. induction order as [|q order IH]; intros [|y xs] J Ans p x I; try destruct I as [[= <- <-]|I]; try discriminate; try contradiction.
    - destruct (J q (or_introl eq_refl)) as (es & S). injection Ans as A _. exists es. split; [exact S|]. unfold at_, rendered_at in A. rewrite S in A.
      apply rendered_ok in A as (-> & _ & _ & D). auto.
    - injection Ans as _ A. apply (IH xs); [intros p' I'; apply J; right; exact I'|exact A|exact I]. }
  assert (Blocks : sumN (map (fun x => blen (n_block x)) (nodes ++ [node])) = sumN (map (block_at t) order)).
  { clear - Nodes Len. revert Nodes Len. generalize (nodes ++ [node]) as xs. induction order as [|q order IH]; intros [|y xs] J L; try discriminate; [reflexivity|].
    cbn [map]. rewrite !sumN_cons. destruct (J q y (or_introl eq_refl)) as (es & S & -> & _). unfold block_at at 1. rewrite S. cbn [node_of n_block].
    rewrite (IH xs); [reflexivity|intros p x I; apply J; right; exact I|cbn in L; lia]. }
  (* the last directory *)
  destruct (exists_last (l := order)) as (order' & top & Eo); [intros ->; rewrite app_length in Len; cbn in Len; lia|].
  assert (Last : In (top, node) (combine order (nodes ++ [node]))).
  { rewrite Eo. assert (LO : length order' = length nodes) by (rewrite Eo, !app_length in Len; cbn in Len; lia).
    clear - LO. revert nodes LO. induction order' as [|q order' IH]; intros [|y nodes] L; try discriminate; [left; reflexivity|right; apply IH; cbn in L; lia]. }
  destruct (Nodes _ _ Last) as (es & S & -> & _).
  assert (Top : forall q, In q order -> exists r, q = top ++ r).
  { assert (W : forall p, In p order -> (forall q, In q order -> exists r, q = p ++ r) -> top = p).
    { intros p Ip Pp. assert (It' : In top order) by (rewrite Eo; apply in_app_iff; right; left; reflexivity).
      destruct (Pp top It') as (r & E). destruct r as [|x r]; [rewrite app_nil_r in E; exact E|exfalso].
      apply In_nth_error in Ip as (j & Ej). assert (Ei : nth_error order (length order') = Some (p ++ x :: r)) by (rewrite Eo, nth_error_app2, Nat.sub_diag by lia; cbn; congruence).
      pose proof (Po _ _ _ _ Ei Ej ltac:(discriminate)) as L. assert (Lj : (j < length order)%nat) by (apply nth_error_Some; congruence).
      rewrite Eo, app_length in Lj. cbn in Lj. lia. }
    destruct (wrap_with_directory opts) eqn:Wr.
    - assert (I0 : In [] order); [|intros q Iq; rewrite (W [] I0); [exists q; reflexivity|intros q0 _; exists q0; reflexivity]]. apply In_. split; [|left; reflexivity]. apply Hd. left. reflexivity.
    - assert (It' : In top order) by (rewrite Eo; apply in_app_iff; right; left; reflexivity).
      assert (Sh : forall q, In q order -> exists n0 r, q = n0 :: r /\ top_of H n0 /\ is_dir t [n0]).
      { intros q Iq. apply In_ in Iq as (Dq & [?|Nq]); [discriminate|]. destruct q as [|n0 r]; [contradiction|]. exists n0, r. split; [reflexivity|].
        destruct Dq as (es' & Sq). assert (D0 : is_dir t [n0]).
        { destruct r as [|n1 r]; [exists es'; exact Sq|]. change (n0 :: n1 :: r) with ([n0] ++ n1 :: r) in Sq. rewrite subtree_app in Sq.
          destruct (subtree t [n0]) as [[c s|es0]|] eqn:Z; [cbn in Sq; discriminate| |discriminate]. exists es0. exact Z. }
        split; [|exact D0]. apply Hd in D0 as [?|D0]; [discriminate|]. apply entry_top. left. exact D0. }
      destruct (Sh top It') as (n0 & r0 & -> & T0 & D0).
      assert (P0 : forall q, In q order -> exists r, q = [n0] ++ r).
      { intros q Iq. destruct (Sh q Iq) as (n1 & r & -> & T1 & _). rewrite (one_top opts ks Wr n1 n0 T1 T0). exists r. reflexivity. }
      rewrite (W [n0]); [exact P0| |exact P0]. apply In_. split; [exact D0|right; discriminate]. }
  assert (Perm : Permutation order (paths top (Dir es))).
  { assert (OD : ordered (Dir es)) by (intros names es' E; apply (O (top ++ names)); rewrite subtree_app, S; exact E).
    apply NoDup_Permutation; [exact ND|apply (fop_nodup not_prefix); [intros x Q; apply (Q []); rewrite app_nil_r; reflexivity|apply paths_ordered, OD]|].
    intros q. rewrite (paths_in (Dir es) top q OD). split.
    - intros Iq. destruct (Top q Iq) as (r & ->). exists r. split; [reflexivity|]. apply In_ in Iq as ((es' & E) & _). rewrite subtree_app, S in E. exists es'. exact E.
    - intros (r & -> & (es' & E)). apply In_. split; [exists es'; rewrite subtree_app, S; exact E|].
      assert (It' : In top order) by (rewrite Eo; apply in_app_iff; right; left; reflexivity). apply In_ in It' as (_ & [?|N]); [left; assumption|right].
      destruct top; [contradiction|discriminate]. }
  assert (OD : ordered (Dir es)) by (intros names es' E; apply (O (top ++ names)); rewrite subtree_app, S; exact E).
  (* no leaf elsewhere *)
  assert (Lf : sumN (map leaf_size (leafs top (Dir es))) = sumN (map put_size H)).
  { rewrite <- leafs_sum. apply sumN_perm, Permutation_map. apply NoDup_Permutation; [apply leafs_nodup, OD|apply leafs_nodup, O|].
    intros [[q c] s]. rewrite (leafs_in (Dir es)), (leafs_in t) by assumption. split.
    - intros (r & -> & E). exists (top ++ r). split; [reflexivity|]. rewrite subtree_app, S. exact E.
    - intros (r & -> & E). cbn [app].
      assert (exists r', r = top ++ r') as (r' & ->).
      { destruct top as [|n0 top']; [exists r; reflexivity|].
        (* without wrapping: the top is the only root entry *)
        destruct (wrap_with_directory opts) eqn:Wr.
        - exfalso. assert (I0 : In [] order) by (apply In_; split; [apply Hd; left; reflexivity|left; reflexivity]). destruct (Top [] I0) as (z & Z). discriminate.
        - assert (It' : In (n0 :: top') order) by (rewrite Eo; apply in_app_iff; right; left; reflexivity).
          assert (D0 : is_dir t [n0]).
          { destruct top' as [|n1 r1]; [exists es; exact S|]. change (n0 :: n1 :: r1) with ([n0] ++ n1 :: r1) in S. rewrite subtree_app in S.
            destruct (subtree t [n0]) as [[c0 s0|es0]|] eqn:Z; [cbn in S; discriminate| |discriminate]. exists es0. exact Z. }
          assert (I0 : In [n0] order) by (apply In_; split; [exact D0|right; discriminate]).
          destruct (Top [n0] I0) as (z & Z). injection Z as Z. destruct top'; [|discriminate]. clear z Z.
          apply Hd in D0 as [?|D0]; [discriminate|]. assert (T0 : top_of H n0) by (apply entry_top; left; exact D0).
          pose proof (proj1 (Hl r c s) E) as (p & Ip & Sp). destruct r as [|m r]; [destruct Sp as (? & _); contradiction|].
          rewrite (one_top opts ks Wr m n0); [exists r; reflexivity|exists (Put p c s), r; auto|exact T0]. }
      exists r'. split; [reflexivity|]. rewrite subtree_app, S in E. exact E. }
  assert (Tot : total = weight (Dir es)).
  { unfold total. rewrite Blocks, (weight_paths t (Dir es) top OD S), Lf. f_equal. apply sumN_perm, Permutation_map, Perm. }
  rewrite Tot. cbn [node_of n_total_size]. split.
  - rewrite <- weight_mod. symmetry. apply N.mod_small. change (snd (link_of X (Dir es))) with (dir_total X es mod two64). apply N.mod_lt. unfold two64. lia.
  - intros D. assert (All : forall r es', subtree (Dir es) r = Some (Dir es') -> dir_total X es' < two64).
    { intros r es' E. assert (Iq : In (top ++ r) order).
      { apply (Permutation_in _ (Permutation_sym Perm)). apply (paths_in (Dir es) top _ OD). exists r. split; [reflexivity|]. exists es'. exact E. }
      assert (exists x, In (top ++ r, x) (combine order (nodes ++ [node_of X top es]))) as (x & Ix).
      { clear - Iq Len. revert Iq Len. generalize (nodes ++ [node_of X top es]) as xs. generalize (top ++ r) as q. clear.
        induction order as [|p order IH]; intros q [|x xs] I L; try discriminate; [destruct I|]. destruct I as [->|I]; [exists x; left; reflexivity|].
        destruct (IH q xs I ltac:(cbn in L; lia)) as (y & Iy). exists y. right. exact Iy. }
      destruct (Nodes _ _ Ix) as (es2 & S2 & _ & D2). rewrite subtree_app, S, E in S2. injection S2 as <-. apply D2, D. }
    destruct (weight_exact (Dir es) All OD) as [E _]. rewrite <- E. apply (All []). reflexivity.
Qed.
End sums.
End cumulative.
