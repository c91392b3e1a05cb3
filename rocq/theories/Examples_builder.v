(** * Examples_builder: concrete histories used as witnesses and counterexamples *)
From Coq Require Import Sorting.Sorted.
From Verif Require Import Base Tac Wire Utf8 Cid Sha256 Pb Reader Dir Builder SpecBuilder Paths_proofs Builder_proofs Examples_file.

(** a cheap function instead of SHA-256, so that whole iterations can be computed *)
Definition toy_digest (b : bytes) : bytes := firstn 32 ([n2b (blen b); n2b (sumN (map b2n b))] ++ rev b ++ repeat x00 32).
Definition toy (dbg : bool) : ext := Ext toy_digest cid_decode dbg.
Lemma toy_ok dbg : ext_ok (toy dbg).
Proof.
  constructor; cbn [toy ext_sha256 ext_cid_decode].
  - intros b. unfold toy_digest. rewrite firstn_length, !app_length, repeat_length, rev_length. cbn [length]. lia.
  - apply cid_decode_bytes.
  - apply cid_decode_wf.
Qed.

Definition wrapped : tree_options := TreeOptions (Some (512 * 1024)) true.
Definition unwrapped : tree_options := default_options.

(** "a/b", "a/c/d", the directory "e", and refused calls in between *)
Definition pa : bytes := [x61].
Definition pab : bytes := [x61; x2f; x62].
Definition pacd : bytes := [x61; x2f; x63; x2f; x64].
Definition pe : bytes := [x65].
Definition md1 : metadata := MData (Some 493) (Some (5%Z, 7)).
Definition ex_calls : list call :=
  [Put pab (idc 1) 10; Put pa (idc 9) 9; Put pacd (idc 2) 20; SetMetadata pe md1;
   Put [x61; x2f; x62; x2f; x63] (idc 9) 9; Put [x2f; x61] (idc 9) 9].
Definition ex_tree : tree :=
  Dir [(pa, Dir [([x62], Leaf (idc 1) 10); ([x63], Dir [([x64], Leaf (idc 2) 20)])]); (pe, Dir [])].
Definition ex_H : list call := [Put pab (idc 1) 10; Put pacd (idc 2) 20; SetMetadata pe md1].
Lemma ex_accepted : accepted (builder_new wrapped) ex_calls = ex_H.
Proof. vm_compute. reflexivity. Qed.
Lemma ex_holds : holds ex_tree (accepted (builder_new wrapped) ex_calls).
Proof.
  pose proof (inv_holds _ _ (proj1 (run_new wrapped ex_calls))) as H.
  replace ex_tree with (erase (b_root (after (builder_new wrapped) ex_calls))); [exact H|vm_compute; reflexivity].
Qed.
Lemma ex_api : Forall api_call ex_calls.
Proof. repeat constructor. Qed.

Definition ok_result (r : outcome construct_error (option tree_node)) : bool := match r with Ok _ => true | _ => false end.
