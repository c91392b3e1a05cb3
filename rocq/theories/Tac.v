(** * Tac: proof automation shared by the proof files *)
From Coq Require Export ZifyBool ZifyNat ZifyN.
From Verif Require Import Base.
Ltac Zify.zify_post_hook ::= Z.div_mod_to_equations.

(** break the innermost match/if that the goal is stuck on *)
Ltac brk :=
  match goal with
  | |- context [match ?x with _ => _ end] => destruct x eqn:?
  end.
Ltac brk_in H :=
  match type of H with
  | context [match ?x with _ => _ end] => destruct x eqn:?
  end.

Ltac inv H := inversion H; subst; clear H.

(** list equality modulo associativity *)
Ltac app_assoc := repeat rewrite <- app_assoc; cbn [app]; reflexivity.
