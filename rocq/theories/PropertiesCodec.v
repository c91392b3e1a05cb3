(** * Properties C01-C05, C44, C45: codec and dag-pb accessors.
    Only theorem statements; the proofs are in the *_proofs files. *)
From Verif Require Import Base Wire Utf8 Cid Sha256 Pb Dagpb SpecWire Wire_proofs Pb_proofs Codec_proofs Parse_safety Fuel_proofs Examples_codec.

(** C01: parsing what was serialised gives the value back *)
Theorem C01_round_trip : forall dbg m,
  Forall link_fits (f_links m) -> unixfs_fits (f_data m) -> blen (flat_write m) < two32 ->
  try_parse dbg (flat_write m) = Ok m.
Proof. exact round_trip. Qed.
Print Assumptions C01_round_trip.

Example C01_round_trip_nonvacuous :
  Forall link_fits (f_links ex_flat) /\ unixfs_fits (f_data ex_flat) /\ blen (flat_write ex_flat) < two32.
Proof. exact ex_flat_ok. Qed.

(** C02: announced sizes *)
Theorem C02_sizes_exact :
  (forall l, pblink_size l = blen (pblink_write l))
  /\ (forall n, pbnode_size n = blen (pbnode_write n))
  /\ (forall t, unixtime_size t = blen (unixtime_write t))
  /\ (forall u, unixfs_size u = blen (unixfs_write u))
  /\ (forall f, flat_size f = blen (flat_write f))
  /\ (forall c, wcid_size c = blen (wcid_write c))
  /\ (forall l, leaf_size l = blen (leaf_write l))
  /\ (forall ls u, custom_size ls u = blen (custom_write ls u)).
Proof.
  exact (conj pblink_size_ok (conj pbnode_size_ok (conj unixtime_size_ok (conj unixfs_size_ok
        (conj flat_size_ok (conj wcid_size_ok (conj leaf_size_ok custom_size_ok))))))).
Qed.
Print Assumptions C02_sizes_exact.

(** C02: the builder's directory node is written as the same bytes as the
    ordinary message with the same links *)
Theorem C02_custom_is_flat : forall links u,
  custom_write links u
  = flat_write (Flat (map (fun '(name, c, ts) => PBLink (Some (cid_bytes c)) (Some name) (Some ts)) links) u).
Proof. exact custom_write_flat. Qed.
Print Assumptions C02_custom_is_flat.

(** C03: any field order, any unknown fields, at all nesting levels *)
Theorem C03_node_fields : forall dbg fs block links d,
  encodes fs block -> blen block < two32 -> node_sem encodes [] None fs links d ->
  exists s, pbnode_parse dbg block = Ok (PBNode links s) /\ data_at block d s.
Proof. exact node_parse_fields. Qed.
Print Assumptions C03_node_fields.

Theorem C03_flat_fields : forall dbg fs block links data ufs u,
  encodes fs block -> blen block < two32 -> node_sem encodes [] None fs links (Some data) ->
  data <> [] -> encodes ufs data -> unixfs_sem encodes unixfs_default ufs u ->
  try_parse dbg block = Ok (Flat links u).
Proof. exact try_parse_fields. Qed.
Print Assumptions C03_flat_fields.

Example C03_nonvacuous : exists fs block links data ufs u,
  encodes fs block /\ blen block < two32 /\ node_sem encodes [] None fs links (Some data)
  /\ data <> [] /\ encodes ufs data /\ unixfs_sem encodes unixfs_default ufs u
  /\ length fs = 4%nat /\ length ufs = 4%nat /\ u_type u = File /\ length links = 1%nat.
Proof. exact ex_fields. Qed.

(** C04: with overflow checks parsing always terminates; without, it never
    panics; and whenever the checked build does not overflow both builds give
    the same Ok or Err.  Missing for the full claim: the overflow itself, see
    the refutation. *)
Theorem C04_totality : forall block,
  try_parse true block <> Diverge
  /\ try_parse false block <> Panic
  /\ (try_parse true block <> Panic ->
      ((exists v, try_parse true block = Ok v) \/ (exists e, try_parse true block = Err e))
      /\ try_parse false block = try_parse true block).
Proof.
  exact (fun b => conj (try_parse_terminates b) (conj (try_parse_release_no_panic b) (try_parse_total b))).
Qed.
Print Assumptions C04_totality.

(** C04 refuted: an 11 byte block panics (overflow checks) or is parsed forever
    (no overflow checks), for every number of loop iterations *)
Theorem C04_parse_total_refuted : exists block,
  blen block = 11 /\ try_parse true block = Panic /\ try_parse false block = Diverge
  /\ forall iterations m,
       msg_loop block iterations (pbnode_step false block) (whole block) m = Diverge.
Proof. exact (ex_intro _ evil_block (conj eq_refl (conj evil_debug (conj evil_release evil_loops)))). Qed.
Print Assumptions C04_parse_total_refuted.

(** "Diverge" means just that: the number of iterations the model gives the
    parser's loop, one more than the block has bytes, never cuts a parse short
    that ends *)
Theorem C04_fuel : forall dbg block iterations r, (S (length block) <= iterations)%nat ->
  (forall m, msg_loop block iterations (pblink_step dbg block) r m = from_reader block (pblink_step dbg block) m r)
  /\ (forall m, msg_loop block iterations (pbnode_step dbg block) r m = from_reader block (pbnode_step dbg block) m r)
  /\ (forall m, msg_loop block iterations (unixtime_step dbg block) r m = from_reader block (unixtime_step dbg block) m r)
  /\ (forall m, msg_loop block iterations (unixfs_step dbg block) r m = from_reader block (unixfs_step dbg block) m r).
Proof. exact fuel_adequate. Qed.
Print Assumptions C04_fuel.

(** C05: node_data is the last Data field of the block *)
Theorem C05_node_data : forall dbg fs block links d,
  encodes fs block -> blen block < two32 -> node_sem encodes [] None fs links d ->
  node_data dbg block = Ok d.
Proof. exact node_data_fields. Qed.
Print Assumptions C05_node_data.

(** C05: wrap_node_data agrees with node_data, except that it panics when Data
    is an empty slice at the very end of the block *)
Theorem C05_wrap_node_data : forall dbg block,
  match node_data dbg block with
  | Ok (Some x) =>
      (exists nd, wrap_node_data dbg block = Ok nd /\ nd_node_data (E := perr) nd = Ok x
                  /\ nd_get_ref nd = block /\ nd_into_inner nd = block)
      \/ (x = [] /\ wrap_node_data dbg block = Panic
          /\ node_data_slice dbg block = Ok (Some (blen block, [])))
  | Ok None =>
      exists nd, wrap_node_data dbg block = Ok nd /\ nd_node_data (E := perr) nd = Ok []
                 /\ nd_get_ref nd = block /\ nd_into_inner nd = block
  | Err e => wrap_node_data dbg block = Err e
  | Panic => wrap_node_data dbg block = Panic
  | Diverge => wrap_node_data dbg block = Diverge
  end.
Proof. exact wrap_spec. Qed.
Print Assumptions C05_wrap_node_data.

Theorem C05_wrap_node_data_refuted : exists block,
  forall dbg, node_data dbg block = Ok (Some []) /\ wrap_node_data dbg block = Panic.
Proof. exact ex_wrap_panics. Qed.
Print Assumptions C05_wrap_node_data_refuted.

(** C44: a symlink block is appended to the buffer and parses back *)
Theorem C44_symlink_round_trip : forall dbg target buf,
  blen target < 2 ^ 31 ->
  exists blk, serialize_symlink_block target buf = buf ++ blk
  /\ try_parse dbg blk = Ok (Flat [] (UnixFs Symlink (Some target) None [] None None None None)).
Proof. exact symlink_parse. Qed.
Print Assumptions C44_symlink_round_trip.

(** C45: the type field is decoded to the six known types, and every other
    value to Raw *)
Theorem C45_type_decoding : forall dbg v, v < two64 ->
  unixfs_parse dbg (write_with_tag 8 (write_varint v))
  = Ok (UnixFs (if v mod 2 ^ 32 =? 1 then Directory else if v mod 2 ^ 32 =? 2 then File
                else if v mod 2 ^ 32 =? 3 then Metadata else if v mod 2 ^ 32 =? 4 then Symlink
                else if v mod 2 ^ 32 =? 5 then HAMTShard else Raw)
               None None [] None None None None).
Proof. exact unixfs_type_only. Qed.
Print Assumptions C45_type_decoding.

(** C45 refuted: a block of the undefined type 77 is accepted *)
Theorem C45_unknown_type_refuted : exists block, forall dbg,
  try_parse dbg block = Ok (Flat [] (UnixFs Raw (Some [x61]) (Some 1) [] None None None None))
  /\ block = [x0a; x07; x08; n2b 77; x12; x01; x61; x18; x01].
Proof. exact ex_type_77. Qed.
Print Assumptions C45_unknown_type_refuted.
