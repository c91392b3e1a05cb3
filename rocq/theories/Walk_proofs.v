(** * Walk_proofs: the walker against SpecWalk *)
From Verif Require Import Base Tac Wire Utf8 Cid Pb Reader Visit Dir Walk SpecFile SpecDir SpecWalk
  Visit_proofs Visit_thms Dir_proofs.

(** ** Paths *)

Lemma existsb_slash s : has_slash s = false <-> ~ In x2f s.
Proof.
  unfold has_slash. induction s as [|x s IH]; cbn [existsb In]; [tauto|].
  rewrite orb_false_iff, IH. unfold sep.
  destruct (byte_eqb x2f x) eqn:E.
  - apply byte_eqb_eq in E. subst. split; [intros [H _]; discriminate|intros H; exfalso; apply H; auto].
  - split; [|tauto]. intros [_ H] [H2|H2]; [|tauto]. subst. rewrite byte_eqb_refl in E. discriminate.
Qed.

Lemma parts_plain s : ~ In x2f s -> parts s = [s].
Proof.
  induction s as [|x s IH]; intros H; [reflexivity|]. cbn [parts].
  destruct (byte_eqb x sep) eqn:E; [apply byte_eqb_eq in E; subst; exfalso; apply H; left; reflexivity|].
  rewrite IH by (intros H2; apply H; right; exact H2). reflexivity.
Qed.
Lemma parts_app s p : ~ In x2f s -> parts (s ++ sep :: p) = s :: parts p.
Proof.
  induction s as [|x s IH]; intros H; cbn [app parts].
  - change (byte_eqb sep sep) with true. reflexivity.
  - destruct (byte_eqb x sep) eqn:E; [apply byte_eqb_eq in E; subst; exfalso; apply H; left; reflexivity|].
    rewrite IH by (intros H2; apply H; right; exact H2). reflexivity.
Qed.
Lemma plain_loose n : plain_name n -> loose_name n.
Proof. intros (A & _ & B). split; assumption. Qed.
Lemma path_loose cs : path_names cs -> Forall loose_name cs.
Proof. destruct cs as [|n cs]; [constructor|]. intros [H F]. constructor; [exact H|]. eapply Forall_impl; [exact plain_loose|exact F]. Qed.
Lemma path_plain cs : Forall plain_name cs -> path_names cs.
Proof. intros H. destruct H as [|n cs Hn H]; [exact I|]. split; [apply plain_loose, Hn|exact H]. Qed.
Lemma path_app pc e : path_names (pc ++ e) -> path_names pc.
Proof. destruct pc as [|n pc]; [intros _; exact I|]. cbn [app path_names]. intros [H F]. apply Forall_app in F as [F _]. split; assumption. Qed.
Lemma path_snoc pc name : path_names pc -> plain_name name -> path_names (pc ++ [name]).
Proof.
  destruct pc as [|n pc]; cbn [app path_names]; [intros _ H; split; [apply plain_loose, H|constructor]|].
  intros [H F] N. split; [exact H|]. apply Forall_app. split; [exact F|]. constructor; [exact N|constructor].
Qed.
Lemma path_one name : loose_name name -> path_names [name].
Proof. intros H. split; [exact H|constructor]. Qed.
Lemma path_last cs n : path_names (cs ++ [n]) -> loose_name n.
Proof. intros H. apply path_loose, Forall_app in H as [_ H]. inv H. assumption. Qed.
Lemma path_last_plain m cs n : path_names ((m :: cs) ++ [n]) -> plain_name n.
Proof. intros [_ H]. apply Forall_app in H as [_ H]. inv H. assumption. Qed.

Lemma parts_unparts cs : cs <> [] -> Forall loose_name cs -> parts (unparts cs) = cs.
Proof.
  induction cs as [|n cs IH]; intros Hn H; [congruence|]. inv H. destruct cs as [|m cs].
  - apply parts_plain. apply H2.
  - change (unparts (n :: m :: cs)) with (n ++ sep :: unparts (m :: cs)).
    rewrite parts_app by apply H2. rewrite IH; [reflexivity|discriminate|assumption].
Qed.
Lemma unparts_cons n cs : cs <> [] -> unparts (n :: cs) = n ++ sep :: unparts cs.
Proof. destruct cs; [congruence|reflexivity]. Qed.
Lemma unparts_nil cs : path_names cs -> (unparts cs = [] <-> cs = []).
Proof.
  intros H. destruct cs as [|n cs]; [tauto|]. split; [|discriminate]. destruct H as [[H2 _] _]. intros E. exfalso.
  destruct cs; cbn in E; [exact (H2 E)|]. destruct n; discriminate.
Qed.
Lemma unparts_snoc cs n : unparts (cs ++ [n]) = match cs with [] => n | _ => unparts cs ++ sep :: n end.
Proof.
  induction cs as [|m cs IH]; [reflexivity|]. cbn [app]. rewrite (unparts_cons m (cs ++ [n])) by (destruct cs; discriminate).
  rewrite IH. destruct cs as [|m2 cs]; [reflexivity|].
  rewrite (unparts_cons m (m2 :: cs)) by discriminate. rewrite <- app_assoc. reflexivity.
Qed.
Lemma child_snoc cs n : path_names cs -> child (unparts cs) n = unparts (cs ++ [n]).
Proof.
  intros H. rewrite unparts_snoc. unfold child. pose proof (unparts_nil cs H) as E.
  destruct cs as [|m cs]; [reflexivity|]. destruct (unparts (m :: cs)); [|reflexivity].
  destruct E as [E _]. discriminate (E eq_refl).
Qed.

Lemma unparts_head n cs : loose_name n -> n <> dot -> is_absolute (unparts (n :: cs)) = false /\ cur_dir (unparts (n :: cs)) = false.
Proof.
  intros (N1 & N3) N2. unfold dot in N2.
  destruct n as [|x n]; [congruence|].
  assert (Hx : byte_eqb x sep = false).
  { destruct (byte_eqb x sep) eqn:E; [|reflexivity]. apply byte_eqb_eq in E. subst. exfalso. apply N3. left. reflexivity. }
  split; [destruct cs; exact Hx|].
  destruct n as [|y n].
  - assert (Hd : byte_eqb x x2e = false).
    { destruct (byte_eqb x x2e) eqn:E; [|reflexivity]. apply byte_eqb_eq in E. subst. congruence. }
    destruct cs; cbn; rewrite Hd; reflexivity.
  - assert (Hy : byte_eqb y sep = false).
    { destruct (byte_eqb y sep) eqn:E; [|reflexivity]. apply byte_eqb_eq in E. subst. exfalso. apply N3. right. left. reflexivity. }
    destruct cs; cbn; rewrite Hy, andb_false_r; reflexivity.
Qed.

Lemma plain_component n : plain_name n -> is_component n = true.
Proof.
  intros (N1 & N2 & _). unfold is_component, dot. rewrite (proj2 (bytes_eqb_neq n []) N1), (proj2 (bytes_eqb_neq n [x2e]) N2).
  reflexivity.
Qed.
Lemma trim_plain l : Forall plain_name l -> trim l = l.
Proof. intros H. destruct l as [|n l]; [reflexivity|]. inv H. cbn [trim]. rewrite plain_component by assumption. reflexivity. Qed.

Lemma parent_plain cs n : Forall plain_name (cs ++ [n]) -> parent (unparts (cs ++ [n])) = Some (unparts cs).
Proof.
  intros H. unfold parent.
  assert (HD : is_absolute (unparts (cs ++ [n])) = false /\ cur_dir (unparts (cs ++ [n])) = false).
  { destruct (cs ++ [n]) as [|m l]; [split; reflexivity|]. inv H. apply unparts_head; [apply plain_loose; assumption|]. apply H2. }
  destruct HD as [-> ->]. cbn [orb skipn firstn app].
  rewrite parts_unparts; [|destruct cs; discriminate|apply path_loose, path_plain, H]. rewrite rev_app_distr. cbn [rev app].
  apply Forall_app in H as [H1 H2]. inv H2.
  rewrite trim_plain by (constructor; [assumption|apply Forall_rev, H1]).
  rewrite trim_plain by (apply Forall_rev, H1). rewrite rev_involutive. reflexivity.
Qed.
(** "./a/b" *)
Lemma trim_dotted l : Forall plain_name l -> trim (l ++ [[]]) = match l with [] => [] | _ => l ++ [[]] end.
Proof. intros H. destruct H as [|n l Hn H]; [reflexivity|]. cbn [app trim]. rewrite plain_component by assumption. reflexivity. Qed.
Lemma parent_dotted cs n : Forall plain_name (cs ++ [n]) -> parent (unparts (dot :: cs ++ [n])) = Some (unparts (dot :: cs)).
Proof.
  intros H. rewrite unparts_cons by (destruct cs; discriminate). unfold parent.
  change (cur_dir (dot ++ sep :: unparts (cs ++ [n]))) with true. rewrite orb_true_r.
  change (skipn 1 (dot ++ sep :: unparts (cs ++ [n]))) with ([] ++ sep :: unparts (cs ++ [n])).
  change (firstn 1 (dot ++ sep :: unparts (cs ++ [n]))) with dot.
  rewrite parts_app by (intros []). rewrite parts_unparts; [|destruct cs; discriminate|apply path_loose, path_plain, H].
  apply Forall_app in H as [H1 H2]. inv H2. cbn [rev]. rewrite rev_app_distr. cbn [rev app trim].
  rewrite plain_component by assumption. rewrite trim_dotted by (apply Forall_rev, H1).
  destruct (rev cs) as [|z l] eqn:E.
  - apply (f_equal (@rev _)) in E. rewrite rev_involutive in E. cbn in E. subst cs. reflexivity.
  - rewrite <- E, rev_app_distr, rev_involutive. cbn [rev app]. rewrite unparts_cons; [|destruct cs; [discriminate|discriminate]].
    rewrite unparts_cons; [reflexivity|]. destruct cs; discriminate.
Qed.
Lemma parent_snoc cs n : path_names (cs ++ [n]) -> parent (unparts (cs ++ [n])) = Some (unparts cs).
Proof.
  intros H. destruct cs as [|m cs].
  - destruct H as [H _]. destruct (bytes_eqb n dot) eqn:E.
    + apply bytes_eqb_eq in E. subst. reflexivity.
    + apply bytes_eqb_neq in E. apply (parent_plain [] n). constructor; [|constructor]. destruct H. split; [assumption|split; assumption].
  - destruct H as [H F]. destruct (bytes_eqb m dot) eqn:E.
    + apply bytes_eqb_eq in E. subst. apply (parent_dotted cs n F).
    + apply bytes_eqb_neq in E. apply (parent_plain (m :: cs) n). constructor; [|exact F]. destruct H. split; [assumption|split; assumption].
Qed.

Lemma push_snoc cs n : path_names (cs ++ [n]) -> path_push (unparts cs) n = unparts (cs ++ [n]).
Proof.
  intros H. pose proof (path_last _ _ H) as Hn. unfold path_push.
  assert (A : is_absolute n = false).
  { destruct Hn as [N1 N3]. destruct n as [|x n]; [congruence|]. cbn. destruct (byte_eqb x sep) eqn:E; [|reflexivity].
    apply byte_eqb_eq in E. subst. exfalso. apply N3. left. reflexivity. }
  rewrite A, unparts_snoc. destruct cs as [|m cs]; [reflexivity|].
  apply path_app in H.
  destruct (exists_last (l := m :: cs) ltac:(discriminate)) as (cs' & z & E). rewrite E in *.
  destruct (path_last _ _ H) as (Z1 & Z3).
  rewrite unparts_snoc.
  assert (L : forall p, exists y r, rev (p ++ z) = y :: r /\ byte_eqb y sep = false).
  { intros p. rewrite rev_app_distr. destruct (exists_last Z1) as (z' & y & ->). rewrite rev_app_distr. cbn [rev app].
    eexists y, _. split; [reflexivity|]. destruct (byte_eqb y sep) eqn:E2; [|reflexivity]. apply byte_eqb_eq in E2. subst.
    exfalso. apply Z3. apply in_or_app. right. left. reflexivity. }
  destruct cs' as [|q cs'].
  - destruct (L []) as (y & r & E2 & E3). cbn [app] in E2. rewrite E2, E3. reflexivity.
  - destruct (L (unparts (q :: cs') ++ [sep])) as (y & r & E2 & E3). rewrite <- app_assoc in E2. cbn [app] in E2.
    rewrite E2, E3. destruct ((q :: cs') ++ [z]) eqn:E4; [discriminate|]. reflexivity.
Qed.

Lemma unparts_length cs : Forall loose_name cs -> (length cs <= length (unparts cs))%nat.
Proof.
  induction cs as [|n cs IH]; intros H; [reflexivity|]. inv H. destruct H2 as (N1 & _).
  destruct n as [|x n]; [congruence|]. destruct cs as [|m cs]; [cbn; lia|].
  rewrite unparts_cons by discriminate. rewrite app_length. specialize (IH H3). cbn [length] in *. lia.
Qed.
Lemma count_plain fuel : forall cs, path_names cs -> (length cs <= fuel)%nat ->
  count_ancestors fuel (unparts cs) = Datatypes.S (length cs).
Proof.
  induction fuel as [|fuel IH]; intros cs H L.
  - destruct cs; [reflexivity|cbn in L; lia].
  - cbn [count_ancestors]. destruct cs as [|m cs0]; [reflexivity|].
    destruct (exists_last (l := m :: cs0) ltac:(discriminate)) as (cs & n & E). rewrite E in *.
    rewrite parent_snoc by exact H. rewrite app_length in *. cbn [length] in *. apply path_app in H.
    rewrite IH by (auto || lia). lia.
Qed.
Lemma ancestors_plain cs : path_names cs -> ancestors_count (unparts cs) = Datatypes.S (length cs).
Proof. intros H. apply count_plain; [exact H|]. pose proof (unparts_length cs (path_loose _ H)). lia. Qed.

(** popping back to a prefix *)
Lemma pop_to_plain d pc e : path_names (pc ++ e) -> d = Datatypes.S (length (pc ++ e)) ->
  pop_to d (Datatypes.S (Datatypes.S (length pc))) (unparts (pc ++ e)) = Ok (unparts pc).
Proof.
  revert d. induction e as [|n e IH] using rev_ind; intros d H ->.
  - rewrite app_nil_r. cbn [pop_to]. destruct (Nat.leb_spec (Datatypes.S (Datatypes.S (length pc))) (Datatypes.S (length pc))); [lia|reflexivity].
  - rewrite app_assoc in *. cbn [pop_to]. rewrite app_length at 1. cbn [length].
    destruct (Nat.leb_spec (Datatypes.S (Datatypes.S (length pc))) (Datatypes.S (length (pc ++ e) + 1))) as [L|L];
      [|rewrite app_length in L; lia].
    unfold path_pop. rewrite parent_snoc by exact H. cbn [unwrap bind]. apply path_app in H.
    apply IH; [exact H|]. rewrite !app_length. cbn [length]. lia.
Qed.
Lemma pop_bucket_plain d pc e : path_names (pc ++ e) -> d = Datatypes.S (length (pc ++ e)) ->
  pop_bucket d (Datatypes.S (length pc)) (unparts (pc ++ e)) = Ok (unparts pc, Datatypes.S (length pc)).
Proof.
  revert d. induction e as [|n e IH] using rev_ind; intros d H ->.
  - rewrite app_nil_r. cbn [pop_bucket]. destruct (Nat.ltb_spec (Datatypes.S (length pc)) (Datatypes.S (length pc))); [lia|reflexivity].
  - rewrite app_assoc in *. cbn [pop_bucket].
    destruct (Nat.ltb_spec (Datatypes.S (length pc)) (Datatypes.S (length ((pc ++ e) ++ [n])))) as [L|L];
      [|rewrite !app_length in L; cbn [length] in L; lia].
    unfold path_pop. rewrite parent_snoc by exact H. cbn [unwrap bind]. apply path_app in H.
    apply IH; [exact H|]. rewrite !app_length. cbn [length]. lia.
Qed.
