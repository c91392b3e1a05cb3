(** * Base: the vocabulary shared by every model file.

    Not a model of any file of the repository; it fixes how Rust results,
    panics, integers and byte strings are represented. *)
From Coq Require Export List NArith ZArith Lia Bool.
From Coq Require Export Init.Byte.
From Coq Require Import Strings.Byte.
Export ListNotations.
Open Scope N_scope.

(** Result of running a piece of Rust code.
    [Panic]   : unwinding (unwrap/expect/assert/unreachable/todo/slice index/
                arithmetic overflow in a build with overflow checks)
    [Diverge] : the code loops forever (fuel of the model's loop exhausted). *)
Inductive outcome (E A : Type) : Type :=
| Ok (a : A)
| Err (e : E)
| Panic
| Diverge.
Arguments Ok {E A} a.
Arguments Err {E A} e.
Arguments Panic {E A}.
Arguments Diverge {E A}.

Definition bind {E A B} (x : outcome E A) (f : A -> outcome E B) : outcome E B :=
  match x with
  | Ok a => f a
  | Err e => Err e
  | Panic => Panic
  | Diverge => Diverge
  end.

Notation "'do' x <- e ; k" := (bind e (fun x => k))
  (at level 200, x pattern, e at level 100, k at level 200, right associativity).

Definition map_err {E E' A} (f : E -> E') (x : outcome E A) : outcome E' A :=
  match x with
  | Ok a => Ok a
  | Err e => Err (f e)
  | Panic => Panic
  | Diverge => Diverge
  end.

(** [.ok_or(e)?] *)
Definition ok_or {E A} (o : option A) (e : E) : outcome E A :=
  match o with Some a => Ok a | None => Err e end.

(** [.unwrap()] / [.expect(..)] on an option *)
Definition unwrap {E A} (o : option A) : outcome E A :=
  match o with Some a => Ok a | None => Panic end.

(** [assert!(b)] *)
Definition assert {E} (b : bool) : outcome E unit := if b then Ok tt else Panic.
(** [debug_assert!(b)] : only checked when [dbg] *)
Definition dassert {E} (dbg b : bool) : outcome E unit :=
  if dbg then assert b else Ok tt.

(** ** Machine integers *)
Definition two64 : N := 18446744073709551616.
Definition two63 : N := 9223372036854775808.
Definition two32 : N := 4294967296.

(** u64/usize [+]: with overflow checks ([dbg = true]) a panic, otherwise wrap.
    usize is taken to be 64 bits wide. *)
Definition add64 {E} (dbg : bool) (a b : N) : outcome E N :=
  if a + b <? two64 then Ok (a + b)
  else if dbg then Panic else Ok ((a + b) mod two64).

(** u64/usize [-] *)
Definition sub64 {E} (dbg : bool) (a b : N) : outcome E N :=
  if b <=? a then Ok (a - b)
  else if dbg then Panic else Ok ((a + two64 - b) mod two64).

(** ** Bytes *)
Definition bytes := list byte.
Definition b2n (b : byte) : N := Byte.to_N b.
Definition n2b (n : N) : byte :=
  match Byte.of_N (n mod 256) with Some b => b | None => x00 end.
Definition blen (l : bytes) : N := N.of_nat (length l).

Definition byte_eqb (a b : byte) : bool := b2n a =? b2n b.
Fixpoint bytes_eqb (a b : bytes) : bool :=
  match a, b with
  | [], [] => true
  | x :: a', y :: b' => byte_eqb x y && bytes_eqb a' b'
  | _, _ => false
  end.

(** [slice.get(i)] *)
Definition get_at (l : bytes) (i : N) : option byte :=
  if i <? blen l then nth_error l (N.to_nat i) else None.

(** [slice.get(s..e)] : [None] when [s > e] or [e > len] *)
Definition get_range {A} (l : list A) (s e : N) : option (list A) :=
  if (s <=? e) && (e <=? N.of_nat (length l))
  then Some (firstn (N.to_nat (e - s)) (skipn (N.to_nat s) l))
  else None.

Definition option_map2 {A B} (f : A -> B) (o : option A) : option B :=
  match o with Some a => Some (f a) | None => None end.

Definition sumN (l : list N) : N := fold_right N.add 0 l.

(** ** Facts *)
Lemma b2n_lt b : b2n b < 256.
Proof. destruct b; cbv; reflexivity. Qed.

Lemma n2b_b2n b : n2b (b2n b) = b.
Proof. destruct b; reflexivity. Qed.

Lemma b2n_n2b n : b2n (n2b n) = n mod 256.
Proof.
  unfold b2n, n2b.
  assert (H : n mod 256 < 256) by (apply N.mod_lt; lia).
  destruct (Byte.of_N (n mod 256)) as [b|] eqn:E.
  - apply Byte.to_of_N. exact E.
  - apply Byte.of_N_None_iff in E. lia.
Qed.

Lemma b2n_inj a b : b2n a = b2n b -> a = b.
Proof. intros H. rewrite <- (n2b_b2n a), <- (n2b_b2n b), H. reflexivity. Qed.

Lemma byte_eqb_eq a b : byte_eqb a b = true <-> a = b.
Proof.
  unfold byte_eqb. rewrite N.eqb_eq. split; [apply b2n_inj | intros ->; reflexivity].
Qed.

Lemma byte_eqb_refl a : byte_eqb a a = true.
Proof. apply byte_eqb_eq. reflexivity. Qed.

Lemma bytes_eqb_eq a : forall b, bytes_eqb a b = true <-> a = b.
Proof.
  induction a as [|x a IH]; intros [|y b]; cbn [bytes_eqb]; split; intros H;
    try reflexivity; try discriminate.
  - apply andb_true_iff in H as [H1 H2]. apply byte_eqb_eq in H1. apply IH in H2. congruence.
  - injection H as -> ->. apply andb_true_iff; split; [apply byte_eqb_refl | apply IH; reflexivity].
Qed.

Lemma bytes_eqb_refl a : bytes_eqb a a = true.
Proof. apply bytes_eqb_eq. reflexivity. Qed.

Lemma bytes_eqb_neq a b : bytes_eqb a b = false <-> a <> b.
Proof.
  rewrite <- bytes_eqb_eq. destruct (bytes_eqb a b); split; congruence.
Qed.

Lemma bytes_eqb_sym a b : bytes_eqb a b = bytes_eqb b a.
Proof.
  destruct (bytes_eqb a b) eqn:E.
  - apply bytes_eqb_eq in E. subst. symmetry. apply bytes_eqb_refl.
  - symmetry. apply bytes_eqb_neq. apply bytes_eqb_neq in E. congruence.
Qed.

Lemma byte_eq_dec (a b : byte) : {a = b} + {a <> b}.
Proof.
  destruct (byte_eqb a b) eqn:E.
  - left. apply byte_eqb_eq. exact E.
  - right. intros H. apply byte_eqb_eq in H. congruence.
Defined.

Lemma bytes_eq_dec (a b : bytes) : {a = b} + {a <> b}.
Proof. apply list_eq_dec. apply byte_eq_dec. Defined.

Lemma blen_app a b : blen (a ++ b) = blen a + blen b.
Proof. unfold blen. rewrite app_length. lia. Qed.

Lemma blen_cons x a : blen (x :: a) = 1 + blen a.
Proof. unfold blen. cbn [length]. lia. Qed.

Lemma blen_nil : blen [] = 0.
Proof. reflexivity. Qed.

Lemma blen_0 a : blen a = 0 -> a = [].
Proof. destruct a; [reflexivity | rewrite blen_cons; lia]. Qed.

Lemma get_at_app pre x post : get_at (pre ++ x :: post) (blen pre) = Some x.
Proof.
  unfold get_at. rewrite blen_app, blen_cons.
  destruct (N.ltb_spec (blen pre) (blen pre + (1 + blen post))); [|lia].
  unfold blen. rewrite Nat2N.id.
  rewrite nth_error_app2, Nat.sub_diag by lia. reflexivity.
Qed.

Lemma get_range_app {A} (pre mid post : list A) :
  get_range (pre ++ mid ++ post) (N.of_nat (length pre))
            (N.of_nat (length pre) + N.of_nat (length mid)) = Some mid.
Proof.
  unfold get_range. rewrite !app_length.
  destruct (N.leb_spec (N.of_nat (length pre)) (N.of_nat (length pre) + N.of_nat (length mid))); [|lia].
  destruct (N.leb_spec (N.of_nat (length pre) + N.of_nat (length mid))
              (N.of_nat (length pre + (length mid + length post)))); [|lia].
  cbn [andb]. f_equal.
  replace (N.to_nat (N.of_nat (length pre) + N.of_nat (length mid) - N.of_nat (length pre)))
    with (length mid) by lia.
  rewrite Nat2N.id, skipn_app, skipn_all, Nat.sub_diag. cbn [skipn app].
  rewrite firstn_app, firstn_all, Nat.sub_diag. cbn [firstn]. apply app_nil_r.
Qed.

Lemma sumN_app a b : sumN (a ++ b) = sumN a + sumN b.
Proof.
  induction a as [|x a IH]; cbn [app sumN fold_right]; [reflexivity|].
  fold (sumN (a ++ b)). fold (sumN a). rewrite IH. lia.
Qed.

Lemma sumN_cons x l : sumN (x :: l) = x + sumN l.
Proof. reflexivity. Qed.

Lemma bind_ok {E A B} (x : outcome E A) (f : A -> outcome E B) b :
  bind x f = Ok b -> exists a, x = Ok a /\ f a = Ok b.
Proof. destruct x; cbn; intros H; try discriminate. eauto. Qed.

Lemma map_err_ok {E E' A} (f : E -> E') (x : outcome E A) a :
  map_err f x = Ok a -> x = Ok a.
Proof. destruct x; cbn; intros H; congruence. Qed.

Lemma add64_ok {E} dbg a b : a + b < two64 -> @add64 E dbg a b = Ok (a + b).
Proof. intros H. unfold add64. destruct (N.ltb_spec (a + b) two64); [reflexivity | lia]. Qed.

Lemma sub64_ok {E} dbg a b : b <= a -> @sub64 E dbg a b = Ok (a - b).
Proof. intros H. unfold sub64. destruct (N.leb_spec b a); [reflexivity | lia]. Qed.

Arguments N.add : simpl never.
Arguments N.sub : simpl never.
Arguments N.mul : simpl never.
Arguments N.div : simpl never.
Arguments N.modulo : simpl never.
Arguments N.pow : simpl never.
Arguments N.eqb : simpl never.
Arguments N.ltb : simpl never.
Arguments N.leb : simpl never.
Arguments b2n : simpl never.
Arguments n2b : simpl never.
