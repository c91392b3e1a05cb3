(** * Names_text_proofs: the paths of walks are text *)
From Coq Require Import Init.Byte.
From Verif Require Import Base Tac Wire Utf8 Cid Pb Reader Visit Dir Builder Walk Programs SpecText Text_proofs PropertiesText Programs_proofs.

Lemma text_nil : text [].
Proof. exists []. split; [constructor|reflexivity]. Qed.
Lemma text_ascii x l : b2n x < 128 -> (text (x :: l) <-> text l).
Proof.
  intros L. assert (E : encode_char (b2n x) = [x]).
  { unfold encode_char. destruct (N.ltb_spec (b2n x) 128); [|lia]. rewrite n2b_b2n. reflexivity. }
  split.
  - intros ([|c cs] & S & Q); [discriminate Q|]. inversion_clear S as [|? ? S1 S2].
    assert (S0 : scalar (b2n x)) by (unfold scalar; lia).
    change (encode_text (c :: cs)) with (encode_char c ++ encode_text cs) in Q.
    assert (C : b2n x = c).
    { destruct (encode_first c S1) as (y & r & Ec & _). pose proof Ec as Ec'. rewrite Ec in Q. injection Q as -> _.
      unfold encode_char, scalar in *. destruct (N.ltb_spec c 128); [injection Ec as <- _; rewrite b2n_n2b; lia|].
      exfalso. destruct (N.ltb_spec c 2048); [|destruct (N.ltb_spec c 65536)]; injection Ec as <- _; rewrite b2n_n2b in L.
      - assert (c / 64 < 32) by (apply N.div_lt_upper_bound; lia). lia.
      - assert (c / 4096 < 16) by (apply N.div_lt_upper_bound; lia). lia.
      - assert (c / 262144 < 5) by (apply N.div_lt_upper_bound; lia). lia. }
    subst c. rewrite E in Q. injection Q as ->. exists cs. auto.
  - intros (cs & S & ->). exists (b2n x :: cs). split; [constructor; [unfold scalar; lia|exact S]|].
    change (encode_text (b2n x :: cs)) with (encode_char (b2n x) ++ encode_text cs). rewrite E. reflexivity.
Qed.
Lemma text_split a x b : b2n x < 128 -> text (a ++ x :: b) -> text a /\ text b.
Proof.
  intros L T. pose proof (boundary_text (a ++ x :: b) (length a) T) as B.
  assert (C : is_char_boundary (a ++ x :: b) (length a) = true).
  { unfold is_char_boundary. destruct (length a) eqn:La; [reflexivity|]. rewrite <- La, nth_error_app2, Nat.sub_diag by lia. cbn [nth_error].
    unfold cont, inr. destruct (N.leb_spec 128 (b2n x)); [lia|reflexivity]. }
  apply B in C as (_ & C1 & C2). rewrite firstn_app, firstn_all, Nat.sub_diag in C1. cbn [firstn] in C1. rewrite app_nil_r in C1.
  rewrite skipn_app, skipn_all, Nat.sub_diag in C2. cbn [skipn app] in C2. split; [exact C1|]. apply (text_ascii x b L), C2.
Qed.
Lemma sep_ascii : b2n sep < 128.
Proof. reflexivity. Qed.

Lemma parts_some p : parts p <> [].
Proof. destruct p as [|x p]; cbn [parts]; [discriminate|]. destruct (byte_eqb x sep); [discriminate|]. destruct (parts p); discriminate. Qed.
Lemma unparts_parts p : unparts (parts p) = p.
Proof.
  induction p as [|x p IH]; [reflexivity|]. cbn [parts]. pose proof (parts_some p) as N.
  destruct (byte_eqb x sep) eqn:E.
  - apply byte_eqb_eq in E as ->. destruct (parts p) as [|s r] eqn:P; [contradiction|]. cbn [unparts app]. cbn [unparts] in IH. rewrite IH. reflexivity.
  - destruct (parts p) as [|s r]; [contradiction|]. destruct r as [|s2 r]; cbn [unparts app] in *; rewrite IH; reflexivity.
Qed.
Lemma unparts_text l : Forall text l -> text (unparts l).
Proof.
  induction 1 as [|s l T F IH]; [exact text_nil|]. destruct l as [|s2 l]; [exact T|].
  change (unparts (s :: s2 :: l)) with (s ++ sep :: unparts (s2 :: l)). apply text_app; [exact T|]. apply (text_ascii sep _ sep_ascii), IH.
Qed.
Lemma text_unparts l : text (unparts l) -> Forall text l.
Proof.
  induction l as [|s l IH]; [constructor|]. destruct l as [|s2 l]; [repeat constructor; assumption|].
  change (unparts (s :: s2 :: l)) with (s ++ sep :: unparts (s2 :: l)). intros T. apply text_split in T as [T1 T2]; [|exact sep_ascii].
  constructor; [exact T1|]. apply IH, T2.
Qed.
Lemma parts_text p : text p -> Forall text (parts p).
Proof. intros T. apply text_unparts. rewrite unparts_parts. exact T. Qed.
Lemma trim_incl l : Forall text l -> Forall text (trim l).
Proof. induction 1 as [|s l T F IH]; [constructor|]. cbn [trim]. destruct (is_component s); [constructor; assumption|exact IH]. Qed.
Lemma start_text p : text p -> forall n, (n = if is_absolute p || cur_dir p then 1%nat else 0%nat) -> text (firstn n p) /\ text (skipn n p).
Proof.
  intros T n ->. destruct (is_absolute p || cur_dir p) eqn:E; [|split; [exact text_nil|exact T]].
  destruct p as [|x p]; [discriminate E|]. assert (L : b2n x < 128).
  { unfold is_absolute, cur_dir in E. destruct (byte_eqb x sep) eqn:E1; [apply byte_eqb_eq in E1 as ->; reflexivity|].
    destruct (byte_eqb x x2e) eqn:E2; [apply byte_eqb_eq in E2 as ->; reflexivity|]. destruct p; discriminate E. }
  cbn [firstn skipn]. apply (text_ascii x p L) in T. split; [apply (text_ascii x [] L), text_nil|exact T].
Qed.
Lemma parent_text p q : text p -> parent p = Some q -> text q.
Proof.
  intros T. unfold parent. set (n := if is_absolute p || cur_dir p then 1%nat else 0%nat).
  destruct (start_text p T n eq_refl) as [T1 T2]. apply parts_text, Forall_rev, trim_incl in T2.
  destruct (trim (rev (parts (skipn n p)))) as [|s r]; [destruct (cur_dir p); intros [= <-]; exact text_nil|].
  intros [= <-]. apply text_app; [exact T1|]. apply unparts_text, Forall_rev, trim_incl. inversion T2; assumption.
Qed.
Lemma push_text p name : text p -> text name -> text (path_push p name).
Proof.
  intros T N. unfold path_push. destruct (is_absolute name); [exact N|]. destruct (rev p) as [|x r]; [exact N|].
  destruct (byte_eqb x sep); apply text_app; auto. apply (text_ascii sep _ sep_ascii), N.
Qed.

Section walk.
Context (X : ext).

Definition ltext (l : walk_link) : Prop := text (snd (fst l)).
Definition wtext (w : walker) : Prop :=
  match w_current w with Some ie => text (ie_path ie) | None => True end
  /\ match w_next w with Some l => ltext l | None => True end
  /\ Forall ltext (w_pending w).
Definition itext (it : continued) : Prop :=
  match it with
  | WBucket _ p | WDirectory _ p _ | WFile _ _ p _ _ | WRootDirectory _ p _ | WSymlink _ _ p _ => text p
  end.

Lemma pop_to_text d depth : forall p q, text p -> pop_to d depth p = Ok q -> text q.
Proof.
  induction d as [|d IH]; intros p q T E; cbn [pop_to] in E; [injection E as <-; exact T|].
  destruct (depth <=? S d)%nat; [|injection E as <-; exact T]. unfold path_pop in E. destruct (parent p) as [p'|] eqn:P; [|discriminate E].
  cbn [unwrap bind] in E. exact (IH p' q (parent_text p p' T P) E).
Qed.
Lemma set_path_text ie name depth p : text (ie_path ie) -> text name -> set_path X ie name depth = Ok p -> text p.
Proof.
  intros T N E. unfold set_path in E. apply bind_ok in E as (? & _ & E). apply bind_ok in E as (q & E1 & E).
  apply bind_ok in E as (? & _ & E). injection E as <-. apply push_text; [exact (pop_to_text _ _ _ _ T E1)|exact N].
Qed.
Lemma as_entry_text ie k c name depth md ie' : text (ie_path ie) -> text name -> as_entry X ie k c name depth md = Ok ie' -> text (ie_path ie').
Proof.
  intros T N E. unfold as_entry in E. destruct (in_file (ie_kind ie)); [discriminate E|]. apply bind_ok in E as (p & E1 & E).
  injection E as <-. exact (set_path_text _ _ _ _ T N E1).
Qed.
Lemma pop_bucket_text d depth : forall p q, text p -> pop_bucket d depth p = Ok q -> text (fst q).
Proof.
  induction d as [|d IH]; intros p q T E; cbn [pop_bucket] in E; (destruct (depth <? _)%nat; [|injection E as <-; exact T]); [discriminate E|].
  unfold path_pop in E. destruct (parent p) as [p'|] eqn:P; [|discriminate E]. cbn [unwrap bind] in E. exact (IH p' q (parent_text p p' T P) E).
Qed.
Lemma as_bucket_text ie c name depth ie' : text (ie_path ie) -> as_bucket ie c name depth = Ok ie' -> text (ie_path ie').
Proof.
  intros T E. unfold as_bucket in E.
  assert (G : (do _ <- assert (is_nil name); do pd <- pop_bucket (ie_depth ie) depth (ie_path ie); do _ <- assert (snd pd =? depth)%nat;
    Ok (InnerEntry c KBucket (fst pd) (ie_metadata ie) (snd pd))) = Ok ie' -> text (ie_path ie')).
  { intros G. apply bind_ok in G as (? & _ & G). apply bind_ok in G as (pd & G1 & G). apply bind_ok in G as (? & _ & G). injection G as <-. exact (pop_bucket_text _ _ _ _ T G1). }
  destruct (ie_kind ie) as [| | | | |[v|] size|]; try discriminate E; try (exact (G E)).
  apply bind_ok in E as (? & _ & E). injection E as <-. exact T.
Qed.

Definition lnames (l : pblink) : Prop := forall name, l_name l = Some name -> text name.
Lemma convert_text depth nth l e : lnames l -> convert_link X depth nth l = Ok e -> ltext e.
Proof.
  intros T E. unfold convert_link in E. apply bind_ok in E as (c & _ & E). destruct (l_name l) as [[|x s]|] eqn:Q; try discriminate E.
  cbn [bind] in E. apply bind_ok in E as (? & _ & E). injection E as <-. exact (T _ Q).
Qed.
Lemma convert_sharded_text d1 d2 nth l e : lnames l -> convert_sharded_link X d1 d2 nth l = Ok e -> ltext e.
Proof.
  intros T E. unfold convert_sharded_link in E. apply bind_ok in E as (c & _ & E). apply bind_ok in E as (dn & E1 & E).
  apply bind_ok in E as (? & _ & E). injection E as <-. unfold ltext. cbn [fst snd]. destruct (l_name l) as [s|] eqn:Q; [|discriminate E1].
  destruct (2 <? blen s); [|destruct (blen s =? 2); [injection E1 as <-; exact text_nil|discriminate E1]].
  apply bind_ok in E1 as (n & E2 & E1). injection E1 as <-. cbn [snd].
  specialize (T _ Q). unfold str_from in E2. destruct (is_char_boundary s 2) eqn:B; [|discriminate E2]. injection E2 as <-.
  apply (boundary_text _ _ T) in B. apply B.
Qed.
Lemma push_links_text convert ls : (forall nth l e, In (nth, l) ls -> convert nth l = Ok e -> ltext e) -> forall pending,
  Forall ltext pending -> forall r p, @push_links convert ls pending = (r, p) -> Forall ltext p.
Proof.
  induction ls as [|[nth l] ls IH]; intros H pending F r p E; cbn [push_links] in E; [injection E as <- <-; exact F|].
  destruct (convert nth l) as [e| | |] eqn:C; try (injection E as <- <-; exact F).
  refine (IH _ (e :: pending) _ r p E); [intros; eapply H; [right; eassumption|eassumption]|]. constructor; [|exact F]. exact (H nth l e (or_introl eq_refl) C).
Qed.
Lemma finish_text w ls convert entry k it w' k' :
  (forall nth l e, In l ls -> convert nth l = Ok e -> ltext e) -> wtext w ->
  (forall ie it, entry = Ok (ie, it) -> text (ie_path ie) /\ itext it) ->
  finish_dir w ls convert entry k = (Ok it, w', k') -> wtext w' /\ itext it.
Proof.
  intros C (_ & _ & F) He E. unfold finish_dir in E. destruct (push_links convert (enumerate_rev ls) (w_pending w)) as [r p] eqn:P.
  assert (F' : Forall ltext p).
  { refine (push_links_text convert _ _ _ F r p P). intros nth l e I. apply C. unfold enumerate_rev in I. rewrite <- in_rev in I. exact (in_combine_r _ _ _ _ I). }
  destruct r; [|destruct p; discriminate E..]. destruct entry as [[ie it0]| | |]; [|destruct p; discriminate E..].
  destruct (He ie it0 eq_refl) as [H1 H2]. destruct p as [|n p]; injection E as <- <- _; (split; [|exact H2]); (split; [exact H1|]); cbn; [auto|]. inversion F'; auto.
Qed.

Lemma next_text w b k it w' k' : wtext w -> walk_next X w b k = (Ok it, w', k') -> wtext w' /\ itext it.
Proof.
  intros T E. pose proof T as (Tc & Tn & Tp).
  assert (In_file : forall ie v size, w_current w = Some ie -> next_in_file X w ie v size b k = (Ok it, w', k') -> wtext w' /\ itext it).
  { clear E. intros ie v size C E. unfold next_in_file in E. destruct (continue_walk X v b k) as [r k0]. rewrite C in Tc.
    destruct (walk_read r) as [[bs step]| | |]; try discriminate E. injection E as <- <- _. repeat split; assumption. }
  assert (Parsed : match try_parse (ext_dbg X) b with
     | Ok f => forall l, In l (f_links f) -> lnames l | _ => True end).
  { destruct (try_parse (ext_dbg X) b) as [f| | |] eqn:P; auto. intros l I name Q. exact (C64_names _ _ _ P l name I Q). }
  evar (R : walk_result).
  assert (Ew : walk_next X w b k = match w_current w with Some (InnerEntry _ (KFile (Some v) size) _ _ _ as ie) => next_in_file X w ie v size b k | _ => R end)
    by (unfold R; reflexivity). rewrite Ew in E. clear Ew.
  assert (E' : R = (Ok it, w', k') -> wtext w' /\ itext it).
  2: { destruct (w_current w) as [[c0 kd p0 md0 d0]|]; [|exact (E' E)]. destruct kd as [| | | | |[v|] size|]; try exact (E' E). exact (In_file _ _ _ eq_refl E). }
  clear E In_file. intros E. unfold R in E. clear R. destruct (try_parse (ext_dbg X) b) as [f| | |]; try discriminate E.
  assert (Root : forall name, text name -> text (path_push [] name)) by (intros; apply push_text; [exact text_nil|assumption]).
  assert (Entry : forall kd c name depth md ie, w_next w = Some (c, name, depth) ->
    match w_current w with None => Ok (new_root kd c md name depth) | Some ie => as_entry X ie kd c name depth md end = Ok ie -> text (ie_path ie)).
  { intros kd c name depth md ie N Q. rewrite N in Tn. destruct (w_current w) as [ie0|]; [exact (as_entry_text _ _ _ _ _ _ _ Tc Tn Q)|]. injection Q as <-. exact (Root _ Tn). }
  assert (Leaf : forall ie n, text (ie_path ie) ->
    wtext (Walker (Some ie) (match w_pending w with [] => None | n :: _ => Some n end) (match w_pending w with [] => [] | _ :: p => p end) n)).
  { intros ie n Q. split; [exact Q|]. cbn. destruct Tp; auto. }
  assert (Supp : forall f', check_directory_supported f = Ok f' -> f' = f).
  { intros f'. unfold check_directory_supported. match goal with |- (if ?b then _ else _) = _ -> _ => destruct b end; congruence. }
  destruct (u_type (f_data f)); try discriminate E.
  - destruct (start_from_parsed X idle_default f k) as [r k0]. destruct (walk_read r) as [[[[bs size] md] step]| | |]; try discriminate E.
    destruct (w_next w) as [[[c name] depth]|] eqn:N; [|discriminate E].
    match type of E with (match ?m with Ok _ => _ | _ => _ end) = _ => destruct m as [ie| | |] eqn:Q; try discriminate E end.
    specialize (Entry _ _ _ _ _ _ eq_refl Q). specialize (Leaf ie (w_continue w') Entry). destruct (w_pending w); injection E as <- <- _; (split; [exact Leaf|exact Entry]).
  - destruct (check_directory_supported f) as [f'| | |]; try discriminate E. rewrite (Supp f' eq_refl) in E.
    destruct (w_next w) as [[[c name] depth]|] eqn:N; [|discriminate E].
    refine (finish_text w _ _ _ k it w' k' _ T _ E).
    + intros nth l e I. apply convert_text, Parsed, I.
    + intros ie it0 Q. destruct (w_current w) as [ie0|]; [|injection Q as <- <-; split; exact (Root _ Tn)].
      apply bind_ok in Q as (ie1 & Q1 & Q). injection Q as <- <-. pose proof (as_entry_text _ _ _ _ _ _ _ Tc Tn Q1). split; assumption.
  - destruct (start_from_parsed X idle_default f k) as [r k0]. destruct (walk_read r) as [[[[bs size] md] step]| | |]; try discriminate E.
    destruct (w_next w) as [[[c name] depth]|] eqn:N; [|discriminate E].
    match type of E with (match ?m with Ok _ => _ | _ => _ end) = _ => destruct m as [ie| | |] eqn:Q; try discriminate E end.
    specialize (Entry _ _ _ _ _ _ eq_refl Q). specialize (Leaf ie (w_continue w') Entry). destruct (w_pending w); injection E as <- <- _; (split; [exact Leaf|exact Entry]).
  - destruct (w_next w) as [[[c name] depth]|] eqn:N; [|discriminate E].
    match type of E with (match ?m with Ok _ => _ | _ => _ end) = _ => destruct m as [ie| | |] eqn:Q; try discriminate E end.
    specialize (Entry _ _ _ _ _ _ eq_refl Q). specialize (Leaf ie (w_continue w') Entry). destruct (w_pending w); injection E as <- <- _; (split; [exact Leaf|exact Entry]).
  - destruct (check_supported f) as [?| | |]; try discriminate E.
    destruct (w_next w) as [[[c name] depth]|] eqn:N; [|discriminate E].
    refine (finish_text w _ _ _ k it w' k' _ T _ E).
    + intros nth l e I. apply convert_sharded_text, Parsed, I.
    + intros ie it0 Q. destruct (w_current w) as [ie0|]; [|injection Q as <- <-; split; exact (Root _ Tn)].
      destruct (is_nil name); apply bind_ok in Q as (ie1 & Q1 & Q); injection Q as <- <-.
      * pose proof (as_bucket_text _ _ _ _ _ Tc Q1). split; assumption.
      * pose proof (as_entry_text _ _ _ _ _ _ _ Tc Tn Q1). split; assumption.
Qed.
Lemma new_text c name : text name -> wtext (walker_new c name).
Proof. intros T. repeat split; [exact T|constructor]. Qed.
End walk.

(** ** The segments of a path *)
Lemma split_text p : text p -> Forall text (split_slash p).
Proof. exact (parts_text p). Qed.
Lemma splitn2_eq pat s : forall a b, splitn2 pat s = (a, b) -> s = a ++ match b with Some r => pat ++ r | None => [] end.
Proof.
  induction s as [|x s IH]; intros a b E; cbn [splitn2] in E.
  - pose proof (prefix_of_spec pat []) as H. destruct (prefix_of pat []); injection E as <- <-; [exact H|reflexivity].
  - pose proof (prefix_of_spec pat (x :: s)) as H. destruct (prefix_of pat (x :: s)) as [r|]; [injection E as <- <-; exact H|].
    destruct (splitn2 pat s) as [a' b'] eqn:Q. injection E as <- <-. cbn [app]. f_equal. exact (IH a' b' eq_refl).
Qed.
Lemma text_prefix pat s : Forall (fun x => b2n x < 128) pat -> text (pat ++ s) -> text s.
Proof. induction 1 as [|x pat L F IH]; [auto|]. intros T. apply IH. apply (text_ascii x _ L), T. Qed.
Lemma path_text cid_of_str a c segments : text a -> path_try_from cid_of_str a = Ok (c, segments) -> Forall text segments.
Proof.
  intros T E. unfold path_try_from in E. apply bind_ok in E as (p & E1 & E).
  assert (Tp : text p).
  { destruct (splitn2 slash_ipfs a) as [x b] eqn:S. apply splitn2_eq in S. destruct x as [|x0 x]; destruct b as [r|]; try discriminate E1; injection E1 as <-.
    - subst a. cbn [app] in T. apply (text_prefix slash_ipfs) in T; [exact T|]. repeat constructor.
    - rewrite app_nil_r in S. subst a. exact T. }
  destruct (splitn2 [x2f] p) as [root more] eqn:S. apply splitn2_eq in S. apply bind_ok in E as (c0 & _ & E). injection E as <- <-.
  destruct more as [r|]; [|constructor]. subst p. apply text_split in Tp as [_ Tr]; [|reflexivity].
  apply Forall_forall. intros s I. apply filter_In in I as [I _]. apply split_text in Tr. rewrite Forall_forall in Tr. exact (Tr s I).
Qed.
