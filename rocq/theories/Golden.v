(** * Golden: the unit tests of /repo replayed on the model.

    These are tests of the model's fidelity, not proofs of properties.  Each
    [Goal True] below fails to compile unless the stated equation computes to
    true; the equation itself is not kept in the proof term (so that coqchk,
    which has no VM, does not redo the SHA-256 computations). *)
From Coq Require Import Strings.String Strings.Ascii.
From Verif Require Import Base Wire Utf8 Cid Sha256 Pb Dagpb Adder.

Definition s2b (s : string) : bytes := list_byte_of_string s.

(** lower case base32 without padding (multibase prefix "b") *)
Definition b32_digit (x : byte) : N :=
  let n := b2n x in if n <? 0x61 then n - 0x32 + 26 else n - 0x61.
Fixpoint b32_go (l : bytes) (acc : N) (bits : N) : bytes :=
  match l with
  | [] => []
  | x :: l' =>
      let acc := acc * 32 + b32_digit x in
      let bits := bits + 5 in
      if 8 <=? bits
      then n2b (acc / 2 ^ (bits - 8)) :: b32_go l' (acc mod 2 ^ (bits - 8)) (bits - 8)
      else b32_go l' acc bits
  end.
Definition cid_of_string (s : string) : option cid :=
  match s2b s with x :: l => cid_decode (b32_go l 0 0) | [] => None end.

(** base58btc, for CIDv0 strings *)
Definition b58_alphabet : bytes := s2b "123456789ABCDEFGHJKLMNPQRSTUVWXYZabcdefghijkmnopqrstuvwxyz".
Fixpoint index_of (x : byte) (l : bytes) (i : N) : N :=
  match l with [] => 0 | y :: l' => if byte_eqb x y then i else index_of x l' (i + 1) end.
Definition b58_num (s : string) : N :=
  fold_left (fun acc x => acc * 58 + index_of x b58_alphabet 0) (s2b s) 0.
Definition cid_v0 (s : string) : option cid := cid_decode (be_bytes 34 (b58_num s)).

Definition X := real_ext true.

Ltac golden P := assert_succeeds (assert P by (vm_compute; repeat split; reflexivity)).

Definition last_cid (o : aout (list cblock)) : option cid :=
  match o with Ok l => match rev l with x :: _ => Some (fst x) | [] => None end | _ => None end.
Definition count (o : aout (list cblock)) : N :=
  match o with Ok l => N.of_nat (List.length l) | _ => 0 end.

(** FIPS 180-4 test vector *)
Goal True.
Proof.
  golden (sha256 (s2b "abc") =
  [xba;x78;x16;xbf;x8f;x01;xcf;xea;x41;x41;x40;xde;x5d;xae;x22;x23;
   xb0;x03;x61;xa3;x96;x17;x7a;x9c;xb4;x10;xff;x61;xf2;x00;x15;xad]).
  exact I.
Qed.

(** adder.rs, empty_file *)
Goal True. (* golden_empty_file *)
Proof.
  golden (
  add_file X (256 * 1024) 174 [[]]
  = Ok [(match cid_of_string "bafybeif7ztnhq65lumvvtr4ekcwd2ifwgm3awq4zfr3srh462rwyinlb4y" with
         | Some c => c | None => Cid true 0 0 [] end, [x0a; x04; x08; x02; x18; x00])]).
  exact I.
Qed.

(** adder.rs, favourite_multi_block_file: all five Cids *)
Goal True. (* golden_favourite_multi_block *)
Proof.
  golden (
  match add_file X 2 174 [s2b "foobar" ++ [x0a]] with
  | Ok l => map (fun b => Some (fst b)) l
  | _ => []
  end = map cid_of_string
   ["bafybeih67h7bqbeufm26dhqulib7tsovzkojs7o2bkkbn47vcwss6gz44e";
    "bafybeig7xffxllfsbd6uq46yjbzk6wf5mxdtc5ykpvga33vubchiooil7y";
    "bafybeiafisl24tujqewigj3kjdr6m6ibhj4iw7aowatrfxyvbfoafvwnfq";
    "bafybeigmgmwown66u7j5pqancojrc5ry2pwzmnlvqnwg2rfcjfi6irgplu";
    "bafybeicbvfcf3ys43v7u4obvdypbdzdsddiqvagpwldjvlj7kyrkwkpm3u"]%string).
  exact I.
Qed.

Definition lorem : bytes := s2b "Lorem ipsum dolor sit amet, sit enim montes aliquam. Cras non lorem, rhoncus condimentum, irure et ante. Pulvinar suscipit odio ante, et tellus a enim, wisi ipsum, vel rhoncus eget faucibus varius, luctus turpis nibh vel odio nulla pede.".

(** adder.rs, three_layers *)
Goal True. (* golden_three_layers *)
Proof.
  golden (
  let r := add_file X 1 174 [lorem] in
  count r = 240 /\ last_cid r = cid_of_string "bafybeiedgegddvmfxlnikgwgxet6am5xkrhforeqb6wxyga3p7jmmge27u").
  exact I.
Qed.

(** adder.rs, three_layers_all_subchunks, for one slicing *)
Goal True. (* golden_subchunks *)
Proof.
  golden (
  last_cid (add_file X 32 174 [firstn 7 lorem; firstn 100 (skipn 7 lorem); skipn 107 lorem])
  = cid_of_string "bafybeiedxvsh3dwkublmenfbir3li4jf52opwcf5dgpi62h6yv4gd7klku").
  exact I.
Qed.

(** adder.rs, full_link_block *)
Goal True. (* golden_full_link_block *)
Proof.
  golden (
  let r := add_file X 1 174 [repeat x00 174] in
  count r = 175 /\ last_cid r = cid_of_string "bafybeihkyby6yehjk25b3havpq4jxsfqxf54jizpjqodovxiuwav62uzpy").
  exact I.
Qed.

(** adder.rs, full_link_block_and_a_byte *)
Goal True. (* golden_full_link_block_and_a_byte *)
Proof.
  golden (
  let r := add_file X 2 174 [repeat x00 349] in
  count r = 178 /\ last_cid r = cid_of_string "bafybeiai6dvlhomgaargeb677jd7bugp7pscqeakbvtapdlpvsfuedojqa").
  exact I.
Qed.

(** symlink.rs, simple_symlink *)
Goal True. (* golden_symlink *)
Proof.
  golden (
  Some (block_cid X (serialize_symlink_block (s2b "b") []))
  = cid_of_string "bafybeih4p6wgtxnujy4wq3wp2hwmnrjkwzj7iit6km7oosroeohywikd2m").
  exact I.
Qed.
