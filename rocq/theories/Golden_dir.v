(** * Golden_dir: the unit tests of /repo/src/dir.rs and
    /repo/src/dir/sharded_lookup.rs replayed on the model (tests, not proofs) *)
From Coq Require Import Strings.String.
From Verif Require Import Base Wire Utf8 Cid Sha256 Pb Reader Dir Golden Golden_fixtures.

Definition plain_payload : bytes := hex "12330a2212206aad27d7e2fc815cd15bf679535062565dc927a831547281fc0af9e5d7e67c74120b6166726963616e2e747874180812340a221220fd36ac5279964db0cba8f7fa45f8c4c44ef5e2ff55da85936a378c96c9c63204120c616d6572696361732e747874180812360a2212207564c20415869d77a8a40ca68a9158e397dd48bdff1325cdb23c5bcd181acd17120e6175737472616c69616e2e7478741808".
Definition hamt_dir : bytes := hex "122e0a2212204baf5104fe53d495223f8e2ba95375a31fda6b18e926cb54edd61f30b5f1de6512053641646f6318b535122c0a221220fd9f545068048e647d5d0b275ed171596e0c1c04b8fed09dc13bee7607e75bc7120242391883c00312330a2212208a4a68f6b88594ce373419586c12d24bde2d519ab636b1d2dcc986eb6265b7a3120a43444d616b6566696c65189601122f0a2212201ededc99d23a7ef43a8f17e6dd8b89934993245ef39e18936a37e412e536ed681205463562696e18c5ad030a280805121f200000000020000200000000000000000004000000000000000000000000002822308002".
Definition a_file : bytes := hex "0a130802120d666f6f6261720a666f6f626172180d".
Definition found (s : string) : option (outcome resolve_error maybe_resolved) :=
  option_map (fun c => Ok (Found c)) (cid_v0 s).
Definition r (b : bytes) (n : string) := Some (fst (resolve X b (s2b n) None)).

(** dir.rs 215-299 *)
Goal True.
Proof.
  golden (r plain_payload "african.txt" = found "QmVX54jfjB8eRxLVxyQSod6b1FyDh7mR4mQie9j97i2Qk3").
  golden (r plain_payload "americas.txt" = found "QmfP6D9bRV4FEYDL4EHZtZG58kDwDfnzmyjuyK5d1pvzbM").
  golden (r plain_payload "australian.txt" = found "QmWEuXAjUGyndgr4MKqMBgzMW36XgPgvitt2jsXgtuc7JE").
  golden (r plain_payload "not found" = Some (Ok NotFound)).
  golden (r plain_payload "01african.txt" = Some (Ok NotFound)).
  golden (r a_file "anything" = Some (Err (RUnexpectedType File))).
  golden (match r (get_by_str "QmQXUANxYGpkwMTWQUdZBPx9jqfFP7acNgL4FHRWkndKCe") "non_sharded_dir" with
          | Some (Ok (Found c)) => match get_fixture c with Some b => r b "foobar" | None => None end
          | _ => None end = found "QmRgutAxd8t7oGkSm4wmeuByG6M51wcTso6cubDdQtuEfL").
  exact I.
Qed.

(** sharded_lookup.rs 336-460 *)
Goal True.
Proof.
  golden (r hamt_dir "bin" = found "QmQRA3JX9JNSccQpXjuKzMVCpfTaP4XpHbrrefqaQFWf5Z").
  golden (match r hamt_dir "formal" with
          | Some (Ok (NeedToLoadMore v)) =>
              Some (lk_links v, fst (lk_continue_walk X v a_file None)) | _ => None end
          = option_map (fun c => ([c], Err (LUnexpectedBucketType File)))
              (cid_v0 "QmfQgmYMYmGQP4X6V3JhTELkQmGVP9kpJgv9duejQ8vWez")).
  golden (fst (lookup_or_start X (Flat [] (UnixFs HAMTShard (Some []) None [] (Some 33) (Some 255) None None)) [] None)
          = Err (LShard (UnsupportedProperties (Some 33) (Some 255)))).
  golden (fst (lookup_or_start X (Flat [] (UnixFs HAMTShard (Some []) (Some 1) [1] (Some 34) (Some 256) None None)) [] None)
          = Err (LShard (UnexpectedProperties (Some 1) [1]))).
  exact I.
Qed.
