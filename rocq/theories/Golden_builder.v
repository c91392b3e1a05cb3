(** * Golden_builder: the unit tests of /repo/src/dir/builder/buffered.rs
    replayed on the model (tests, not proofs) *)
From Coq Require Import Strings.String.
From Verif Require Import Base Wire Utf8 Cid Sha256 Pb Reader Builder Golden Golden_fixtures.

Definition wrapped_options : tree_options := TreeOptions (Some (512 * 1024)) true.

Definition put (b : option builder) (p : string) (c : option cid) (ts : N) : option builder :=
  match b, c with
  | Some b, Some c => match put_link b (s2b p) c ts with (Ok _, b) => Some b | _ => None end
  | _, _ => None
  end.
Definition meta (b : option builder) (p : string) : option builder :=
  match b with
  | Some b => match set_metadata b (s2b p) no_metadata_set with (Ok _, b) => Some b | _ => None end
  | None => None
  end.
Fixpoint drain (fuel : nat) (it : post_order) : option (list tree_node) :=
  match fuel with
  | O => None
  | S fuel =>
    match next X it with
    | (Ok (Some n), it) => option_map (cons n) (drain fuel it)
    | (Ok None, _) => Some []
    | _ => None
    end
  end.
Definition nodes (b : option builder) : option (list (bytes * option cid)) :=
  match b with
  | Some b => option_map (map (fun n => (n_path n, Some (n_cid n)))) (drain 20 (build b))
  | None => None
  end.
Definition paths (b : option builder) : option (list bytes) := option_map (map fst) (nodes b).

Definition foobar : option cid := cid_v0 "QmRJHYTNvC3hmd9gJQARxLR1QMEincccBV53bBw524yyq6".
Definition cid1 (n : N) : option cid := Some (Cid true DAG_PB 0x12 (sha256 [n2b n; x00; x00; x00; x00; x00; x00; x00])).
Definition plain := Some (builder_new default_options).
Definition wrapped := Some (builder_new wrapped_options).

(** some_directories *)
Goal True.
Proof.
  golden (nodes (put (put (put plain "a/b/c/d/e/f/g.txt" foobar 221) "a/b/c/d/e/h.txt" foobar 221) "a/b/c/d/e/i.txt" foobar 221)
    = Some [
      (s2b "a/b/c/d/e/f", cid_of_string "bafybeiggi7xxndgcvvn776odlzbyo42os3m2ns7flmd2zoqjdtxhxjj5pm");
      (s2b "a/b/c/d/e", cid_of_string "bafybeienpcl75unpkin7sublc6b4liop2efhscxxlxgipncfvnxydsu6ya");
      (s2b "a/b/c/d", cid_of_string "bafybeigwwu5zfiu7trjhnulcejlpo7ytinr4iyqasetnmw3sko5l36wjqm");
      (s2b "a/b/c", cid_of_string "bafybeig7jp4rbhaejauys6drkl66c7gcsp26gn3hdryezex5j4jng4ppda");
      (s2b "a/b", cid_of_string "bafybeiethbkivdfv6yvvl4ho4tv2ogbyn4uzblvtkjuqksu2acbk32gwf4");
      (s2b "a", cid_of_string "bafybeiaadgmref7r6eqwxv66nmwfoy3qxv57gdwmk4xnierff5bobsvsny")]).
  exact I.
Qed.
(** empty_path, rooted_path, successive_slashes *)
Goal True.
Proof.
  golden (nodes (put plain "" (cid1 0) 1) = Some []).
  golden (put plain "/a" (cid1 0) 1 = None).
  golden (put plain "a//b" (cid1 0) 1 = None).
  exact I.
Qed.
(** multiple_roots, single_wrapped_root *)
Goal True.
Proof.
  golden (nodes (put (put wrapped "a" foobar 221) "b" foobar 221)
    = Some [(s2b "", cid_of_string "bafybeihcvyze4cpjen52osvvcqyhlgtbe456g6lyudqa37tcbctkl4x6kq")]).
  golden (nodes (put wrapped "a" foobar 221)
    = Some [(s2b "", cid_of_string "bafybeia3o7eaqkxuxpdotmu5su3rmdvmuimpo7vpb23ulpzg7od7j3nlte")]).
  exact I.
Qed.
(** denied_multiple_root_dirs, denied_multiple_root_files, using_leaf_as_node *)
Goal True.
Proof.
  golden (put (put plain "a/c.txt" (cid1 0) 1) "b/d.txt" (cid1 1) 1 = None).
  golden (put (put plain "a.txt" (cid1 0) 1) "b.txt" (cid1 1) 1 = None).
  golden (put (put plain "a.txt" (cid1 0) 1) "a.txt/b.txt" (cid1 1) 1 = None).
  exact I.
Qed.
(** set_metadata_before_files, set_metadata_on_file, dir_with_cidv1_link *)
Goal True.
Proof.
  golden (paths (put (put (meta plain "a/b/c/d") "a/b/c/d/e.txt" (cid1 1) 1) "a/b/c/d/f.txt" (cid1 2) 1)
    = Some [s2b "a/b/c/d"; s2b "a/b/c"; s2b "a/b"; s2b "a"]).
  golden (match put plain "a/a.txt" (cid1 0) 1 with
          | Some b => fst (set_metadata b (s2b "a/a.txt") no_metadata_set) | None => Panic end
    = Err (LeafAsDirectory (s2b "a/a.txt"))).
  golden (nodes (put plain "a/b" (cid_of_string "bafyreihakpd7te5nbmlhdk5ntvcvhf2hmfgrvcwna2sddq5zz5342mcbli") 12)
    = Some [(s2b "a", cid_of_string "bafybeiapacmj5oggpmkv7c4d2ujfokpdmnczg2gtr5ddumhz7j4sdy7734")]).
  exact I.
Qed.
