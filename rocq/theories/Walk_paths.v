(** * Walk_paths: paths made of arbitrary names, for Walk_exact.v *)
From Verif Require Import Base Tac Wire Utf8 Cid Pb Reader Visit Dir Walk SpecFile SpecDir SpecWalk Walk_proofs.

Definition seg (n : bytes) : Prop := n <> [] /\ ~ In x2f n.
(** names that make up a path; only the first one may be "." *)
Definition proper (cs : list bytes) : Prop := Forall seg cs /\ Forall (fun n => n <> dot) (tl cs).

Lemma parts_noslash cs : cs <> [] -> Forall (fun n => ~ In x2f n) cs -> parts (unparts cs) = cs.
Proof.
  induction cs as [|n cs IH]; intros Hn H; [congruence|]. inv H. destruct cs as [|m cs].
  - apply parts_plain. assumption.
  - change (unparts (n :: m :: cs)) with (n ++ sep :: unparts (m :: cs)).
    rewrite parts_app by assumption. rewrite IH; [reflexivity|discriminate|assumption].
Qed.

(** the parent, when the first name is not "." *)
Lemma parent_first n r : seg n -> n <> dot -> Forall (fun n => ~ In x2f n) r ->
  parent (unparts (n :: r)) = match trim (rev (n :: r)) with _ :: t => Some (unparts (rev (trim t))) | [] => None end.
Proof.
  intros (N1 & N3) N2 R. unfold parent.
  assert (A : is_absolute (unparts (n :: r)) = false /\ cur_dir (unparts (n :: r)) = false).
  { destruct n as [|x n]; [congruence|].
    assert (Hx : byte_eqb x sep = false).
    { destruct (byte_eqb x sep) eqn:E; [|reflexivity]. apply byte_eqb_eq in E. subst. exfalso. apply N3. left. reflexivity. }
    split; [destruct r; exact Hx|].
    destruct n as [|y n].
    - assert (Hd : byte_eqb x x2e = false).
      { destruct (byte_eqb x x2e) eqn:E; [|reflexivity]. apply byte_eqb_eq in E. subst. exfalso. apply N2. reflexivity. }
      destruct r; cbn; rewrite Hd; reflexivity.
    - assert (Hy : byte_eqb y sep = false).
      { destruct (byte_eqb y sep) eqn:E; [|reflexivity]. apply byte_eqb_eq in E. subst. exfalso. apply N3. right. left. reflexivity. }
      destruct r; cbn; rewrite Hy, andb_false_r; reflexivity. }
  destruct A as [-> ->]. cbn [orb skipn firstn app]. rewrite parts_noslash; [|discriminate|constructor; assumption]. reflexivity.
Qed.
Lemma parent_dot r : Forall (fun n => ~ In x2f n) r ->
  parent (unparts (dot :: r)) = match trim (rev ([] :: r)) with _ :: t => Some (dot ++ unparts (rev (trim t))) | [] => Some [] end.
Proof.
  intros R. assert (E : unparts (dot :: r) = x2e :: unparts ([] :: r)) by (destruct r; reflexivity).
  unfold parent. rewrite E.
  assert (C : cur_dir (x2e :: unparts ([] :: r)) = true) by (destruct r; reflexivity).
  rewrite C. rewrite orb_true_r. cbn [skipn firstn]. rewrite parts_noslash; [|discriminate|constructor; [intros []|assumption]]. reflexivity.
Qed.

Lemma trim_skip s l : is_component s = false -> trim (s :: l) = trim l.
Proof. intros H. cbn [trim]. rewrite H. reflexivity. Qed.
Lemma trim_stop s l : seg s -> s <> dot -> trim (s :: l) = s :: l.
Proof.
  intros [H _] D. cbn [trim]. unfold is_component. rewrite (proj2 (bytes_eqb_neq s []) H), (proj2 (bytes_eqb_neq s dot) D). reflexivity.
Qed.
Lemma is_dot n : n = dot \/ n <> dot.
Proof. destruct (bytes_eqb n dot) eqn:E; [left; apply bytes_eqb_eq, E|right; apply bytes_eqb_neq, E]. Qed.

Lemma segs_noslash cs : Forall seg cs -> Forall (fun n => ~ In x2f n) cs.
Proof. apply Forall_impl. intros n []. assumption. Qed.
Lemma trim_rev r : Forall seg r -> Forall (fun n => n <> dot) r -> trim (rev r) = rev r.
Proof.
  intros S D. destruct r as [|n r _] using rev_ind; [reflexivity|]. apply Forall_app in S as [_ S], D as [_ D]. inv S. inv D.
  rewrite rev_app_distr. cbn [rev app]. apply trim_stop; assumption.
Qed.
Lemma trim_rev_nil r : r <> [] -> Forall seg r -> Forall (fun n => n <> dot) r -> trim (rev ([] :: r)) = rev ([] :: r).
Proof.
  intros NE S D. destruct r as [|n r _] using rev_ind; [congruence|]. apply Forall_app in S as [_ S], D as [_ D]. inv S. inv D.
  cbn [rev]. rewrite rev_app_distr. cbn [rev app]. apply trim_stop; assumption.
Qed.
Lemma dot_unparts r : dot ++ unparts ([] :: r) = unparts (dot :: r).
Proof. destruct r; reflexivity. Qed.

Lemma parent_proper cs n : proper (cs ++ [n]) -> parent (unparts (cs ++ [n])) = Some (unparts cs).
Proof.
  intros [S D]. destruct cs as [|m r].
  - cbn [app] in *. inv S. destruct (is_dot n) as [-> |E]; [reflexivity|].
    rewrite parent_first by (assumption || constructor). cbn [rev app]. rewrite trim_stop by assumption. reflexivity.
  - cbn [app tl] in *. inv S. assert (Hr := H2). apply Forall_app in H2 as [Sr Sn]. assert (Dall := D). apply Forall_app in D as [Dr Dn]. inv Sn. inv Dn.
    destruct (is_dot m) as [-> |E].
    + rewrite parent_dot by (apply segs_noslash; assumption). cbn [rev]. rewrite rev_app_distr. cbn [rev app]. rewrite trim_stop by assumption.
      destruct r as [|m' r]; [reflexivity|]. change (rev (m' :: r) ++ [[]]) with (rev ([] :: m' :: r)).
      rewrite trim_rev_nil by (discriminate || assumption). rewrite rev_involutive, dot_unparts. reflexivity.
    + rewrite parent_first by (apply segs_noslash in Hr; assumption). cbn [rev]. rewrite rev_app_distr. cbn [rev app]. rewrite trim_stop by assumption.
      change (rev r ++ [m]) with (rev (m :: r)). rewrite trim_rev by (constructor; assumption). rewrite rev_involutive. reflexivity.
Qed.

(** "." and the empty name do not count *)
Lemma parent_trailing cs s : cs <> [] -> proper cs -> s = [] \/ s = dot -> parent (unparts (cs ++ [s])) = parent (unparts cs).
Proof.
  intros NE [S D] Hs. assert (C : is_component s = false) by (destruct Hs as [-> | ->]; reflexivity).
  assert (Ns : ~ In x2f s) by (destruct Hs as [-> | ->]; cbn; intuition congruence).
  destruct cs as [|m r]; [congruence|]. cbn [app tl] in *. inv S.
  assert (R : Forall (fun n => ~ In x2f n) (r ++ [s])) by (apply Forall_app; split; [apply segs_noslash; assumption|constructor; [assumption|constructor]]).
  destruct (is_dot m) as [-> |E].
  - rewrite !parent_dot by (assumption || apply segs_noslash; assumption). cbn [rev]. rewrite rev_app_distr. cbn [rev app].
    rewrite trim_skip by assumption. reflexivity.
  - rewrite !parent_first by (assumption || apply segs_noslash; assumption). cbn [rev]. rewrite rev_app_distr. cbn [rev app].
    rewrite trim_skip by assumption. reflexivity.
Qed.

Lemma proper_prefix cs e : proper (cs ++ e) -> proper cs.
Proof.
  intros [S D]. apply Forall_app in S as [S _]. split; [exact S|]. destruct cs as [|m r]; [constructor|]. cbn [app tl] in *.
  apply Forall_app in D as [D _]. exact D.
Qed.
Lemma proper_snoc cs n : proper cs -> seg n -> cs = [] \/ n <> dot -> proper (cs ++ [n]).
Proof.
  intros [S D] Hn H. split; [apply Forall_app; auto|]. destruct cs as [|m r]; [constructor|]. cbn [app tl] in *.
  apply Forall_app. split; [exact D|]. constructor; [|constructor]. destruct H; [discriminate|assumption].
Qed.
Lemma proper_nil : proper []. Proof. split; constructor. Qed.

Lemma push_seg cs n : Forall seg cs -> (n = [] \/ seg n) -> path_push (unparts cs) n = unparts (cs ++ match cs, n with [], [] => [] | _, _ => [n] end).
Proof.
  intros S Hn. unfold path_push.
  assert (A : is_absolute n = false).
  { destruct n as [|x n]; [reflexivity|]. destruct Hn as [?|[_ Hn]]; [discriminate|]. cbn. destruct (byte_eqb x sep) eqn:E; [|reflexivity].
    apply byte_eqb_eq in E. subst. exfalso. apply Hn. left. reflexivity. }
  rewrite A. destruct cs as [|m cs]; [destruct n; reflexivity|].
  assert (L : exists y t, rev (unparts (m :: cs)) = y :: t /\ byte_eqb y sep = false).
  { destruct (exists_last (l := m :: cs) ltac:(discriminate)) as (cs' & z & E). rewrite E in *.
    apply Forall_app in S as [_ Hz]. inv Hz. destruct H1 as (Z1 & Z3).
    assert (L : forall p, exists y r, rev (p ++ z) = y :: r /\ byte_eqb y sep = false).
    { intros p. rewrite rev_app_distr. destruct (exists_last Z1) as (z' & y & ->). rewrite rev_app_distr. cbn [rev app].
      eexists y, _. split; [reflexivity|]. destruct (byte_eqb y sep) eqn:E2; [|reflexivity]. apply byte_eqb_eq in E2. subst.
      exfalso. apply Z3. apply in_or_app. right. left. reflexivity. }
    rewrite unparts_snoc. destruct cs' as [|q cs']; [apply (L [])|].
    destruct (L (unparts (q :: cs') ++ [sep])) as (y & r & E2 & E3). rewrite <- app_assoc in E2. cbn [app] in E2. eauto. }
  destruct L as (y & t & -> & ->). rewrite unparts_snoc. reflexivity.
Qed.

Lemma unparts_segs cs : Forall seg cs -> (length cs <= length (unparts cs))%nat.
Proof.
  induction cs as [|n cs IH]; intros H; [reflexivity|]. inv H. destruct H2 as (N1 & _).
  destruct n as [|x n]; [congruence|]. destruct cs as [|m cs]; [cbn; lia|].
  rewrite unparts_cons by discriminate. rewrite app_length. specialize (IH H3). cbn [length] in *. lia.
Qed.
Lemma count_proper fuel : forall cs, proper cs -> (length cs <= fuel)%nat ->
  count_ancestors fuel (unparts cs) = Datatypes.S (length cs).
Proof.
  induction fuel as [|fuel IH]; intros cs H L.
  - destruct cs; [reflexivity|cbn in L; lia].
  - cbn [count_ancestors]. destruct cs as [|m cs0]; [reflexivity|].
    destruct (exists_last (l := m :: cs0) ltac:(discriminate)) as (cs & n & E). rewrite E in *.
    rewrite parent_proper by exact H. rewrite app_length in *. cbn [length] in *. apply proper_prefix in H.
    rewrite IH by (auto || lia). lia.
Qed.
Lemma ancestors_proper cs : proper cs -> ancestors_count (unparts cs) = Datatypes.S (length cs).
Proof. intros H. apply count_proper; [exact H|]. destruct H as [H _]. pose proof (unparts_segs cs H). lia. Qed.

(** so with them the count is one less than the number of names suggests *)
Lemma ancestors_trailing cs (s : bytes) : cs <> [] -> proper cs -> s = [] \/ s = dot ->
  ancestors_count (unparts (cs ++ [s])) = Datatypes.S (length cs).
Proof.
  intros NE P Hs. unfold ancestors_count. cbn [count_ancestors]. rewrite parent_trailing by assumption.
  destruct (exists_last NE) as (cs' & z & E). subst cs. rewrite parent_proper by assumption.
  rewrite count_proper; [rewrite app_length; cbn; lia|eapply proper_prefix; eassumption|].
  rewrite unparts_snoc. destruct P as [P _]. pose proof (unparts_segs _ P) as L. destruct (cs' ++ [z]) eqn:E; [destruct cs'; discriminate|].
  rewrite <- E in *. rewrite !app_length in *. cbn [length] in *. lia.
Qed.

Lemma pop_to_proper d pc e : proper (pc ++ e) -> d = Datatypes.S (length (pc ++ e)) ->
  pop_to d (Datatypes.S (Datatypes.S (length pc))) (unparts (pc ++ e)) = Ok (unparts pc).
Proof.
  revert d. induction e as [|n e IH] using rev_ind; intros d H ->.
  - rewrite app_nil_r. cbn [pop_to]. destruct (Nat.leb_spec (Datatypes.S (Datatypes.S (length pc))) (Datatypes.S (length pc))); [lia|reflexivity].
  - rewrite app_assoc in *. cbn [pop_to]. rewrite app_length at 1. cbn [length].
    destruct (Nat.leb_spec (Datatypes.S (Datatypes.S (length pc))) (Datatypes.S (length (pc ++ e) + 1))) as [L|L];
      [|rewrite app_length in L; lia].
    unfold path_pop. rewrite parent_proper by exact H. cbn [unwrap bind]. apply proper_prefix in H.
    apply IH; [exact H|]. rewrite !app_length. cbn [length]. lia.
Qed.
(** popping past the root *)
Lemma pop_to_root d e : proper e -> d = Datatypes.S (length e) -> pop_to d 1 (unparts e) = Panic.
Proof.
  revert d. induction e as [|n e IH] using rev_ind; intros d H ->; [reflexivity|].
  cbn [pop_to Nat.leb]. unfold path_pop. rewrite parent_proper by exact H. cbn [unwrap bind]. apply proper_prefix in H.
  rewrite app_length. cbn [length]. rewrite Nat.add_1_r. apply IH; [exact H|reflexivity].
Qed.
Lemma pop_bucket_proper d pc e : proper (pc ++ e) -> d = Datatypes.S (length (pc ++ e)) ->
  pop_bucket d (Datatypes.S (length pc)) (unparts (pc ++ e)) = Ok (unparts pc, Datatypes.S (length pc)).
Proof.
  revert d. induction e as [|n e IH] using rev_ind; intros d H ->.
  - rewrite app_nil_r. cbn [pop_bucket]. destruct (Nat.ltb_spec (Datatypes.S (length pc)) (Datatypes.S (length pc))); [lia|reflexivity].
  - rewrite app_assoc in *. cbn [pop_bucket].
    destruct (Nat.ltb_spec (Datatypes.S (length pc)) (Datatypes.S (length ((pc ++ e) ++ [n])))) as [L|L];
      [|rewrite !app_length in L; cbn [length] in L; lia].
    unfold path_pop. rewrite parent_proper by exact H. cbn [unwrap bind]. apply proper_prefix in H.
    apply IH; [exact H|]. rewrite !app_length. cbn [length]. lia.
Qed.
Lemma push_seg1 cs n : Forall seg cs -> seg n -> path_push (unparts cs) n = unparts (cs ++ [n]).
Proof. intros H S. rewrite push_seg by auto. destruct cs, n; try reflexivity. Qed.
Lemma push_none cs : cs <> [] -> Forall seg cs -> path_push (unparts cs) [] = unparts (cs ++ [[]]).
Proof. intros NE H. rewrite push_seg by auto. destruct cs; [congruence|reflexivity]. Qed.
Lemma seg_dot : seg dot.
Proof. split; [discriminate|cbn; intuition congruence]. Qed.

(** ** Paths with a "." inside *)

Lemma proper_path cs : path_names cs -> proper cs.
Proof.
  destruct cs as [|n cs]; [intros _; apply proper_nil|]. intros [H F]. split.
  - constructor; [exact H|]. eapply Forall_impl; [|exact F]. intros a (A & _ & B). split; assumption.
  - eapply Forall_impl; [|exact F]. intros a (_ & A & _). exact A.
Qed.
Lemma parts_dot a b : parts (a ++ sep :: b) = parts a ++ parts b.
Proof.
  induction a as [|x a IH]; [reflexivity|]. cbn [app parts]. rewrite IH. destruct (byte_eqb x sep); [reflexivity|].
  destruct (parts a) as [|p r] eqn:E; [|reflexivity]. exfalso. clear -E. destruct a; cbn in E; [discriminate|].
  destruct (byte_eqb b sep); [discriminate|]. destruct (parts a); discriminate.
Qed.
Lemma parts_ne a : parts a <> [].
Proof. destruct a as [|x a]; cbn; [discriminate|]. destruct (byte_eqb x sep); [discriminate|]. destruct (parts a); discriminate. Qed.
Lemma dotted_parts p : dotted p -> In dot (tl (parts p)).
Proof.
  intros (a & b & -> & H). change x2f with sep. rewrite parts_dot. pose proof (parts_ne a) as NE. destruct (parts a) as [|x r]; [congruence|].
  cbn [app tl]. apply in_or_app. right. destruct H as [-> |[b' ->]]; left; reflexivity.
Qed.
Lemma undotted cs : path_names cs -> ~ dotted (unparts cs).
Proof.
  intros H D. apply dotted_parts in D. destruct cs as [|n cs]; [exact D|].
  rewrite parts_unparts in D; [|discriminate|apply path_loose, H]. cbn [tl] in D. destruct H as [_ F].
  rewrite Forall_forall in F. destruct (F _ D) as (_ & A & _). apply A. reflexivity.
Qed.
Lemma dotted_end cs : cs <> [] -> dotted (unparts (cs ++ [dot])).
Proof. intros H. rewrite unparts_snoc. destruct cs; [congruence|]. exists (unparts (b :: cs)), []. split; [reflexivity|auto]. Qed.
Lemma snoc_cases pc name : path_names pc -> loose_name name ->
  path_names (pc ++ [name]) \/ pc <> [] /\ name = dot /\ dotted (unparts (pc ++ [name])).
Proof.
  intros P L. destruct pc as [|n pc]; [left; apply path_one, L|]. destruct (is_dot name) as [-> |N].
  - right. split; [discriminate|]. split; [reflexivity|apply dotted_end; discriminate].
  - left. apply path_snoc; [exact P|]. destruct L. split; [assumption|]. split; assumption.
Qed.
Lemma dotted_app p x : dotted p -> dotted (p ++ x2f :: x).
Proof.
  intros (a & b & -> & H). exists a, (b ++ x2f :: x). split; [rewrite <- app_assoc; reflexivity|].
  right. destruct H as [-> |[b' ->]]; eexists; reflexivity.
Qed.

Lemma dotted_dec p : dotted p \/ ~ dotted p.
Proof.
  induction p as [|x p [D|N]].
  - right. intros (a & b & E & _). destruct a; discriminate.
  - left. destruct D as (a & b & -> & H). exists (x :: a), b. auto.
  - assert (Q : (x = x2f /\ exists b, p = x2e :: b /\ (b = [] \/ exists b', b = x2f :: b')) \/ ~ (x = x2f /\ exists b, p = x2e :: b /\ (b = [] \/ exists b', b = x2f :: b'))).
    { destruct (Byte.byte_eq_dec x x2f) as [->|Hx]; [|right; tauto]. destruct p as [|y p]; [right; intros (_ & b & E & _); discriminate|].
      destruct (Byte.byte_eq_dec y x2e) as [->|Hy]; [|right; intros (_ & b & E & _); congruence].
      destruct p as [|z p]; [left; eauto 6|]. destruct (Byte.byte_eq_dec z x2f) as [->|Hz]; [left; eauto 8|].
      right. intros (_ & b & E & [->|(b' & ->)]); congruence. }
    destruct Q as [(-> & b & -> & H)|Q]; [left; exists [], b; auto|]. right. intros (a & b & E & H). destruct a as [|a0 a].
    + injection E as -> ->. apply Q. eauto.
    + injection E as -> ->. apply N. exists a, b. auto.
Qed.
