(** * Paths_proofs: splitting and joining paths, the order of names, BTreeMap *)
From Coq Require Import Sorting.Sorted.
From Verif Require Import Base Tac Wire Utf8 Cid Pb Reader Builder SpecBuilder.

(** ** Splitting *)
Lemma split_nonempty p : split_slash p <> [].
Proof. destruct p as [|x p]; cbn; [discriminate|]. destruct (byte_eqb x slash); [discriminate|]. destruct (split_slash p); discriminate. Qed.

Lemma join_cons n rest : rest <> [] -> join (n :: rest) = n ++ x2f :: join rest.
Proof. destruct rest; [congruence|reflexivity]. Qed.

Lemma slash_free_nil : slash_free [].
Proof. intros []. Qed.
Lemma slash_free_cons x s : slash_free (x :: s) <-> x <> x2f /\ slash_free s.
Proof. unfold slash_free. cbn [In]. intuition congruence. Qed.

Lemma split_segments p : segments p (split_slash p).
Proof.
  split; [apply split_nonempty|]. induction p as [|x p [HF HJ]]; [split; [repeat constructor; apply slash_free_nil|reflexivity]|].
  cbn [split_slash]. unfold slash. destruct (byte_eqb x x2f) eqn:E.
  - apply byte_eqb_eq in E. subst x. split; [constructor; [apply slash_free_nil|exact HF]|].
    rewrite join_cons by apply split_nonempty. cbn [app]. f_equal. exact HJ.
  - assert (Hx : x <> x2f) by (intros ->; rewrite byte_eqb_refl in E; discriminate).
    pose proof (split_nonempty p) as NE. destruct (split_slash p) as [|s r]; [congruence|].
    apply Forall_cons_iff in HF as [HF1 HF2]. split; [constructor; [apply slash_free_cons; auto|assumption]|].
    rewrite HJ. destruct r; [reflexivity|]. rewrite !join_cons by discriminate. reflexivity.
Qed.

Lemma app_slash_inj a : forall b u v,
  slash_free a -> slash_free b -> a ++ x2f :: u = b ++ x2f :: v -> a = b /\ u = v.
Proof.
  induction a as [|x a IH]; intros [|y b] u v A B E.
  - injection E as ->. auto.
  - injection E as <- _. apply slash_free_cons in B. tauto.
  - injection E as -> _. apply slash_free_cons in A. tauto.
  - injection E as -> E. apply slash_free_cons in A, B. destruct (IH b u v) as [-> ->]; tauto.
Qed.

Lemma join_inj a : forall b, a <> [] -> b <> [] -> Forall slash_free a -> Forall slash_free b -> join a = join b -> a = b.
Proof.
  induction a as [|x a IH]; intros [|y b] NA NB FA FB E; try congruence.
  inv FA. inv FB.
  destruct a as [|x2 a], b as [|y2 b].
  - cbn in E. congruence.
  - rewrite (join_cons y) in E by discriminate. cbn [join] in E. exfalso. apply H1. rewrite E. apply in_or_app. right. left. reflexivity.
  - rewrite (join_cons x) in E by discriminate. cbn [join] in E. exfalso. apply H3. rewrite <- E. apply in_or_app. right. left. reflexivity.
  - rewrite !join_cons in E by discriminate. apply app_slash_inj in E as [-> E]; [|assumption|assumption].
    f_equal. apply IH; [discriminate|discriminate|assumption|assumption|exact E].
Qed.

Lemma segments_split p names : segments p names <-> names = split_slash p.
Proof.
  split; [|intros ->; apply split_segments].
  intros (N & F & E). destruct (split_segments p) as (N' & F' & E').
  apply join_inj; [assumption..|congruence].
Qed.
Lemma segments_fun p a b : segments p a -> segments p b -> a = b.
Proof. rewrite !segments_split. congruence. Qed.
Lemma segments_inj p q a : segments p a -> segments q a -> p = q.
Proof. intros (_ & _ & ->) (_ & _ & ->). reflexivity. Qed.

Lemma ends_with_slash_iff p : ends_with_slash p = true <-> ends_in_slash p.
Proof.
  unfold ends_in_slash. induction p as [|x p IH].
  - split; [discriminate|]. intros (q & E). destruct q; discriminate.
  - destruct p as [|y p].
    + cbn. rewrite byte_eqb_eq. unfold slash. split; [intros ->; exists []; reflexivity|].
      intros ([|z [|w q]] & E); cbn in E; congruence.
    + change (ends_with_slash (x :: y :: p)) with (ends_with_slash (y :: p)). rewrite IH.
      split; intros (q & E); [exists (x :: q); cbn; congruence|].
      destruct q as [|z q]; cbn in E; [destruct p; discriminate|]. injection E as -> E. eauto.
Qed.

Lemma contains_slashes_iff p : contains_slashes p = true <-> repeats_slash p.
Proof.
  unfold repeats_slash. induction p as [|x p IH].
  - split; [discriminate|]. intros (a & b & E). destruct a; discriminate.
  - destruct p as [|y p].
    + split; [discriminate|]. intros ([|z [|w q]] & b & E); cbn in E; discriminate.
    + change (contains_slashes (x :: y :: p)) with ((byte_eqb x slash && byte_eqb y slash) || contains_slashes (y :: p)).
      rewrite orb_true_iff, andb_true_iff, !byte_eqb_eq, IH. unfold slash. split.
      * intros [[-> ->]|(a & b & E)]; [exists [], p; reflexivity|exists (x :: a), b; cbn; congruence].
      * intros ([|z a] & b & E); cbn in E; [left; split; congruence|right; injection E as -> E; eauto].
Qed.

Lemma join_app a b : a <> [] -> b <> [] -> join (a ++ b) = join a ++ x2f :: join b.
Proof.
  intros A B. induction a as [|x a IH]; [congruence|]. destruct a as [|x2 a].
  - cbn [app]. rewrite join_cons by assumption. reflexivity.
  - change ((x :: x2 :: a) ++ b) with (x :: ((x2 :: a) ++ b)). rewrite (join_cons x ((x2 :: a) ++ b)) by discriminate.
    rewrite IH by discriminate. rewrite (join_cons x (x2 :: a)) by discriminate. rewrite <- app_assoc. reflexivity.
Qed.

(** the segments of a well formed path: a single one, possibly empty, or
    several non-empty ones *)
Lemma well_formed_segments p names :
  segments p names -> well_formed p -> names = [[]] \/ Forall (fun n => n <> []) names.
Proof.
  intros (N & F & ->) (E & R & G).
  destruct names as [|n rest]; [congruence|]. destruct rest as [|n2 rest].
  - destruct n; [left; reflexivity|right; repeat constructor; discriminate].
  - right. apply Forall_forall. intros m I ->. apply in_split in I as (a & b & EQ).
    destruct a as [|a1 a].
    + cbn [app] in EQ. injection EQ as -> <-. apply G. rewrite join_cons by discriminate. eexists; reflexivity.
    + rewrite EQ in *. destruct b as [|b1 b].
      * apply E. rewrite join_app by discriminate. exists (join (a1 :: a)). reflexivity.
      * apply R. rewrite join_app by discriminate.
        exists (join (a1 :: a)), (join (b1 :: b)). reflexivity.
Qed.

Lemma rooted_segments p : is_rooted p -> exists rest, split_slash p = [] :: rest /\ rest <> [].
Proof. intros (q & ->). exists (split_slash q). split; [reflexivity|apply split_nonempty]. Qed.

(** ** Taking the last segment off *)
Lemma rsplit_free s : slash_free s -> rsplit_slash s = None.
Proof.
  induction s as [|x s IH]; [reflexivity|]. intros F. apply slash_free_cons in F as [Hx F]. cbn.
  rewrite (IH F). destruct (byte_eqb x slash) eqn:E; [apply byte_eqb_eq in E; unfold slash in E; congruence|reflexivity].
Qed.
Lemma rsplit_app a b : slash_free b -> rsplit_slash (a ++ x2f :: b) = Some (a, b).
Proof.
  intros F. induction a as [|x a IH]; cbn [app rsplit_slash].
  - rewrite (rsplit_free b F). reflexivity.
  - rewrite IH. reflexivity.
Qed.
Lemma rsplit_join a n : a <> [] -> slash_free n -> rsplit_slash (join (a ++ [n])) = Some (join a, n).
Proof. intros A F. rewrite join_app by (assumption || discriminate). cbn [join]. apply rsplit_app, F. Qed.

(** ** The order of names *)
Lemma compare_refl a : bytes_compare a a = Eq.
Proof. induction a as [|x a IH]; cbn; [reflexivity|]. rewrite N.compare_refl. exact IH. Qed.
Lemma compare_eq a : forall b, bytes_compare a b = Eq <-> a = b.
Proof.
  induction a as [|x a IH]; intros [|y b]; cbn; split; intros H; try congruence.
  - destruct (N.compare_spec (b2n x) (b2n y)) as [E|E|E]; try discriminate.
    apply b2n_inj in E. apply IH in H. congruence.
  - injection H as -> ->. rewrite N.compare_refl. apply IH. reflexivity.
Qed.
Lemma compare_antisym a : forall b, bytes_compare b a = CompOpp (bytes_compare a b).
Proof.
  induction a as [|x a IH]; intros [|y b]; cbn; try reflexivity.
  rewrite (N.compare_antisym (b2n x) (b2n y)). destruct (b2n x ?= b2n y); cbn; [apply IH|reflexivity..].
Qed.
Lemma compare_trans a : forall b c, bytes_compare a b = Lt -> bytes_compare b c = Lt -> bytes_compare a c = Lt.
Proof.
  induction a as [|x a IH]; intros [|y b] [|z c]; cbn; try congruence.
  destruct (N.compare_spec (b2n x) (b2n y)); destruct (N.compare_spec (b2n y) (b2n z));
    destruct (N.compare_spec (b2n x) (b2n z)); intros; try lia; try congruence.
  eapply IH; eassumption.
Qed.
Lemma compare_lt a : forall b, bytes_compare a b = Lt <-> name_lt a b.
Proof.
  unfold name_lt. induction a as [|x a IH]; intros [|y b].
  - cbn. split; [discriminate|]. intros [(u & v & E)|(p & u & v & a' & b' & E & _)]; [discriminate|destruct p; discriminate].
  - cbn. split; [intros _; left; eauto|reflexivity].
  - cbn. split; [discriminate|]. intros [(u & v & E)|(p & u & v & a' & b' & _ & E & _)]; [discriminate|destruct p; discriminate].
  - cbn. destruct (N.compare_spec (b2n x) (b2n y)) as [E|E|E].
    + apply b2n_inj in E. subst y. rewrite IH. split.
      * intros [(u & v & ->)|(p & u & v & a' & b' & -> & -> & L)]; [left; eauto|right; exists (x :: p), u, v, a', b'; auto].
      * intros [(u & v & Eq)|([|w p] & u & v & a' & b' & E1 & E2 & L)].
        -- injection Eq as ->. left; eauto.
        -- injection E1 as -> _. injection E2 as -> _. lia.
        -- injection E1 as -> ->. injection E2 as ->. right. exists p, u, v, a', b'. auto.
    + split; [intros _; right; exists [], x, y, a, b; auto|reflexivity].
    + split; [discriminate|].
      intros [(u & v & Eq)|([|w p] & u & v & a' & b' & E1 & E2 & L)].
      * injection Eq as -> _. lia.
      * injection E1 as -> _. injection E2 as -> _. lia.
      * injection E1 as -> ->. injection E2 as -> _. lia.
Qed.
Lemma compare_gt a b : bytes_compare a b = Gt <-> name_lt b a.
Proof. rewrite <- compare_lt, (compare_antisym a b). destruct (bytes_compare a b); cbn; split; congruence. Qed.
Lemma name_lt_irrefl a : ~ name_lt a a.
Proof. intros H. apply compare_lt in H. rewrite compare_refl in H. discriminate. Qed.
Lemma name_lt_trans a b c : name_lt a b -> name_lt b c -> name_lt a c.
Proof. rewrite <- !compare_lt. apply compare_trans. Qed.

(** ** BTreeMap *)
Section btree.
Context {V : Type}.
Implicit Type m : list (bytes * V).

Lemma bt_get_some k v m : bt_get k m = Some v ->
  exists pre post, m = pre ++ (k, v) :: post /\ forall v', bt_insert k v' m = pre ++ (k, v') :: post.
Proof.
  induction m as [|[k1 v1] m IH]; cbn; [discriminate|]. destruct (bytes_compare k k1) eqn:C; [|discriminate|].
  - intros E. injection E as ->. apply compare_eq in C. subst. exists [], m. auto.
  - intros E. destruct (IH E) as (pre & post & -> & I). exists ((k1, v1) :: pre), post. split; [reflexivity|].
    intros v'. cbn. rewrite I. reflexivity.
Qed.
Lemma bt_get_none k m : bt_get k m = None ->
  exists pre post, m = pre ++ post /\ forall v', bt_insert k v' m = pre ++ (k, v') :: post.
Proof.
  induction m as [|[k1 v1] m IH]; cbn; [exists [], []; auto|]. destruct (bytes_compare k k1) eqn:C; [discriminate| |].
  - intros _. exists [], ((k1, v1) :: m). auto.
  - intros E. destruct (IH E) as (pre & post & -> & I). exists ((k1, v1) :: pre), post. split; [reflexivity|].
    intros v'. cbn. rewrite I. reflexivity.
Qed.
Lemma bt_get_insert k v m k' :
  bt_get k' (bt_insert k v m) = if bytes_eqb k' k then Some v else bt_get k' m.
Proof.
  destruct (bytes_eqb k' k) eqn:E.
  - apply bytes_eqb_eq in E. subst k'. induction m as [|[k1 v1] m IH]; cbn; [rewrite compare_refl; reflexivity|].
    destruct (bytes_compare k k1) eqn:C; cbn; [rewrite C; reflexivity|rewrite compare_refl; reflexivity|].
    rewrite C. exact IH.
  - apply bytes_eqb_neq in E. induction m as [|[k1 v1] m IH]; cbn.
    + destruct (bytes_compare k' k) eqn:C; [apply compare_eq in C; congruence|reflexivity..].
    + destruct (bytes_compare k k1) eqn:C; cbn.
      * apply compare_eq in C. subst k1. destruct (bytes_compare k' k) eqn:C'; [apply compare_eq in C'; congruence|reflexivity..].
      * destruct (bytes_compare k' k) eqn:C'; [apply compare_eq in C'; congruence| |reflexivity].
        rewrite (compare_trans _ _ _ C' C). reflexivity.
      * destruct (bytes_compare k' k1); [reflexivity..|]. exact IH.
Qed.

Definition sorted_keys m : Prop := StronglySorted (fun a b => name_lt (fst a) (fst b)) m.

Lemma bt_insert_in k v m e : In e (bt_insert k v m) -> e = (k, v) \/ In e m.
Proof.
  induction m as [|[k1 v1] m IH]; cbn; [intros [<-|[]]; auto|].
  destruct (bytes_compare k k1) eqn:C; cbn.
  - apply compare_eq in C. subst. intros [<-|I]; auto.
  - intros [<-|I]; auto.
  - intros [<-|I]; auto. destruct (IH I); auto.
Qed.

Lemma bt_insert_sorted k v m : sorted_keys m -> sorted_keys (bt_insert k v m).
Proof.
  induction 1 as [|[k1 v1] m S IH F]; cbn; [repeat constructor|].
  destruct (bytes_compare k k1) eqn:C.
  - constructor; [exact S|exact F].
  - constructor; [constructor; assumption|]. apply compare_lt in C. constructor; [exact C|].
    eapply Forall_impl; [|exact F]. cbn. intros e L. eapply name_lt_trans; eassumption.
  - apply compare_gt in C. constructor; [exact IH|]. apply Forall_forall. intros e I. apply bt_insert_in in I as [->|I]; [exact C|].
    rewrite Forall_forall in F. apply F, I.
Qed.

Lemma bt_get_in k v m : sorted_keys m -> In (k, v) m -> bt_get k m = Some v.
Proof.
  induction 1 as [|[k1 v1] m S IH F]; cbn; [intros []|]. intros [E|I].
  - injection E as -> ->. rewrite compare_refl. reflexivity.
  - rewrite Forall_forall in F. specialize (F _ I). cbn in F. apply compare_gt in F. rewrite F. auto.
Qed.
Lemma sorted_split (pre post : list (bytes * V)) k v e : sorted_keys (pre ++ (k, v) :: post) ->
  In e (pre ++ post) -> fst e <> k.
Proof.
  intros S I. induction pre as [|p pre IH]; cbn [app] in *.
  - inv S. rewrite Forall_forall in H2. specialize (H2 _ I). cbn in H2. intros E. rewrite E in H2. apply (name_lt_irrefl _ H2).
  - inv S. destruct I as [->|I]; [|auto]. rewrite Forall_forall in H2.
    specialize (H2 (k, v) (in_elt _ _ _)). cbn in H2. intros E. rewrite E in H2. apply (name_lt_irrefl _ H2).
Qed.
End btree.
