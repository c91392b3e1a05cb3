(** * Examples_dir: small directories used as witnesses and counterexamples *)
From Verif Require Import Base Tac Wire Utf8 Cid Pb Reader Dir SpecFile SpecDir Dir_proofs Examples_file.

Definition nlnk (n : N) (name : bytes) : pblink := PBLink (Some (cid_bytes (idc n))) (Some name) (Some 10).
Lemma nlnk_cid X n name : ext_ok X -> link_cid X (nlnk n name) = Some (idc n).
Proof. intros HX. unfold link_cid, nlnk. cbn [l_hash]. apply (decode_bytes X HX). reflexivity. Qed.
Definition badlnk (name : bytes) : pblink := PBLink None (Some name) None.

Definition dirm (ls : list pblink) : flat := Flat ls (UnixFs Directory None None [] None None None None).
Definition shardm (ls : list pblink) : flat := Flat ls (UnixFs HAMTShard (Some [x01]) None [] (Some 34) (Some 256) None None).

(** a plain directory: "a", "b", "a" again, and an empty name *)
Definition d_plain := dirm [nlnk 1 [x61]; nlnk 2 [x62]; nlnk 3 [x61]; nlnk 4 []].
Lemma d_plain_lists X : lists X (flat_write d_plain) (f_links d_plain).
Proof.
  apply lists_dir; [destruct (ext_dbg X); vm_compute; reflexivity|].
  repeat split. left. reflexivity.
Qed.

(** a sharded directory: root = 00a, bucket 01 = { 02b, bucket 03 = { 04c } }, bucket 05 = {} *)
Definition s_root := shardm [nlnk 1 [x30; x30; x61]; nlnk 2 [x30; x31]; nlnk 5 [x30; x35]].
Definition s_msg (n : N) : flat :=
  match n with
  | 2 => shardm [nlnk 7 [x30; x32; x62]; nlnk 3 [x30; x33]]
  | 3 => shardm [nlnk 8 [x30; x34; x63]]
  | _ => shardm []
  end.
Definition s_get (c : cid) : option bytes :=
  match cid_digest c with [x] => Some (flat_write (s_msg (b2n x))) | _ => None end.
Definition s_items : shard :=
  [Entry [x61] (idc 1); Bucket (idc 2) [Entry [x62] (idc 7); Bucket (idc 3) [Entry [x63] (idc 8)]]; Bucket (idc 5) []].
Lemma shardm_ok ls : supported_shard (f_data (shardm ls)).
Proof. repeat split. Qed.
Lemma s_sharded X : ext_ok X -> sharded X s_get (flat_write s_root) s_items.
Proof.
  intros HX. exists s_root. split; [destruct (ext_dbg X); vm_compute; reflexivity|]. split; [apply shardm_ok|].
  assert (P : forall n, n = 2 \/ n = 3 \/ n = 5 -> try_parse (ext_dbg X) (flat_write (s_msg n)) = Ok (s_msg n)).
  { intros n [->|[->| ->]]; destruct (ext_dbg X); vm_compute; reflexivity. }
  unfold s_items, s_root. cbn [f_links shardm].
  eapply shard_entry with (prefix := [x30; x30]); [reflexivity|reflexivity|discriminate|reflexivity|apply nlnk_cid, HX|].
  eapply shard_bucket; [reflexivity|apply nlnk_cid, HX|reflexivity|apply P; auto|apply shardm_ok| |].
  - eapply shard_entry with (prefix := [x30; x32]); [reflexivity|reflexivity|discriminate|reflexivity|apply nlnk_cid, HX|].
    eapply shard_bucket; [reflexivity|apply nlnk_cid, HX|reflexivity|apply P; auto|apply shardm_ok| |constructor].
    eapply shard_entry with (prefix := [x30; x34]); [reflexivity|reflexivity|discriminate|reflexivity|apply nlnk_cid, HX|constructor].
  - eapply shard_bucket; [reflexivity|apply nlnk_cid, HX|reflexivity|apply P; auto|apply shardm_ok|constructor|constructor].
Qed.

(** a shard with a link called "aéb" *)
Definition s_evil := shardm [nlnk 1 [x61; xc3; xa9; x62]].
Lemma s_evil_panics X needle k : fst (resolve X (flat_write s_evil) needle k) = Panic.
Proof.
  unfold resolve.
  assert (P : try_parse (ext_dbg X) (flat_write s_evil) = Ok s_evil) by (destruct (ext_dbg X); vm_compute; reflexivity).
  rewrite P. unfold s_evil, shardm. cbn [f_data u_type f_links].
  unfold lookup_or_start, check_supported. cbn. reflexivity.
Qed.
