(** * Golden_walk: the unit tests of /repo/src/walk.rs replayed on the model
    (tests, not proofs), and the behaviour of [std::path] its model assumes *)
From Coq Require Import Strings.String.
From Verif Require Import Base Wire Utf8 Cid Sha256 Pb Reader Visit Dir Walk Golden Golden_fixtures.

Definition continued_path (c : continued) : bytes :=
  match c with WBucket _ p | WDirectory _ p _ | WFile _ _ p _ _ | WRootDirectory _ p _ | WSymlink _ _ p _ => p end.
(** walk_everything, walk.rs 928-945 *)
Fixpoint go (fuel : nat) (w : walker) (k : option cache) : option (list continued) :=
  match fuel with
  | O => None
  | Datatypes.S fuel =>
    if should_continue w then
      match w_pending_links w with
      | Ok (c, _) =>
        match get_fixture c with
        | Some b =>
          match walk_next X w b k with
          | (Ok it, w, k) => option_map (cons it) (go fuel w k)
          | _ => None
          end
        | None => None
        end
      | _ => None
      end
    else Some []
  end.
Definition walk_everything (root_name cid : string) : option (list continued) :=
  match cid_v0 cid with Some c => go 100 (walker_new c (s2b root_name)) None | None => None end.
Definition count_path (p : string) (o : option (list continued)) : nat :=
  match o with Some l => List.length (filter (fun it => bytes_eqb (continued_path it) (s2b p)) l) | None => 0%nat end.
Definition total (o : option (list continued)) : nat := match o with Some l => List.length l | None => 0%nat end.

(** walk.rs 737-768 *)
Definition two (root : string) := walk_everything root "QmPTotyhVnnfCu9R4qwR4cdhpi5ENaiP8ZJfdqsm8Dw2jB".
Definition Qm : string := "QmVkvLsSEm2uJx1h5Fqukje8mMPYg393o5C2kMCkF2bBTA".
Goal True.
Proof.
  golden (map (fun p => count_path p (two "")) [""; Qm; Qm ++ "/foobar.balanced"; Qm ++ "/foobar.trickle"]%string = [1; 1; 5; 5]%nat).
  golden (total (two "") = 12%nat).
  golden (map (fun p => count_path p (two "foo")) ["foo"; "foo/" ++ Qm; "foo/" ++ Qm ++ "/foobar.balanced"; "foo/" ++ Qm ++ "/foobar.trickle"]%string = [1; 1; 5; 5]%nat).
  golden (total (two "foo") = 12%nat).
  exact Logic.I.
Qed.

(** walk.rs 769-808 *)
Definition sharded_walk (root : string) := walk_everything root "QmZbFPTnDBMWbQ6iBxQAhuhLz8Nu9XptYS96e7cuf5wvbk".
Definition indices : list string := ["38"; "48"; "50"; "58"; "09"; "33"; "04"; "34"; "17"; "37"; "40"; "16"; "41"; "03"; "25"; "49"]%string.
Goal True.
Proof.
  golden (count_path "" (sharded_walk "") = 9%nat).
  golden (map (fun i => count_path ("long-named-file-0" ++ i) (sharded_walk "")) indices = repeat 1%nat 16).
  golden (total (sharded_walk "") = 25%nat).
  golden (count_path "foo" (sharded_walk "foo") = 9%nat).
  golden (map (fun i => count_path ("foo/long-named-file-0" ++ i) (sharded_walk "foo")) indices = repeat 1%nat 16).
  golden (total (sharded_walk "foo") = 25%nat).
  exact Logic.I.
Qed.

(** walk.rs 810-903 *)
Goal True.
Proof.
  golden (count_path "" (walk_everything "" "QmbFMke1KXqnYyBBWxB74N4c5SBnJMVAiMNRcGu6x1AwQH") = 1%nat).
  golden (count_path "empty.txt" (walk_everything "empty.txt" "QmbFMke1KXqnYyBBWxB74N4c5SBnJMVAiMNRcGu6x1AwQH") = 1%nat).
  golden (count_path "" (walk_everything "" "QmNgQEdXVdLw79nH2bnxLMxnyWMaXrijfqMTiDVat3iyuz") = 1%nat).
  golden (count_path "this_links_to_foobar" (walk_everything "this_links_to_foobar" "QmNgQEdXVdLw79nH2bnxLMxnyWMaXrijfqMTiDVat3iyuz") = 1%nat).
  golden (count_path "" (walk_everything "" "QmWfQ48ChJUj4vWKFsUDe4646xCBmXgdmNfhjz9T7crywd") = 5%nat).
  golden (count_path "foobar_and_newline.txt" (walk_everything "foobar_and_newline.txt" "QmWfQ48ChJUj4vWKFsUDe4646xCBmXgdmNfhjz9T7crywd") = 5%nat).
  golden (match walk_everything "" "QmWfQ48ChJUj4vWKFsUDe4646xCBmXgdmNfhjz9T7crywd" with
          | Some l => map (fun it => match it with WFile s _ _ _ _ => (List.length (as_bytes s), is_first s, is_last s) | _ => (99%nat, false, false) end) l
          | None => [] end
          = [(0%nat, true, false); (2%nat, false, false); (2%nat, false, false); (2%nat, false, false); (1%nat, false, true)]).
  exact Logic.I.
Qed.

(** std::path, as documented: parent, push, ancestors *)
Definition par (s : string) := parent (s2b s).
Goal True.
Proof.
  golden (map par ["/foo/bar"; "/foo"; "/"; "foo/bar"; "foo"; ""; "a//b"; "a/./b"; "./a"; "."; "a/"; "a/b/"; "../x"; ".."]%string
    = [Some (s2b "/foo"); Some (s2b "/"); None; Some (s2b "foo"); Some []; None; Some (s2b "a"); Some (s2b "a"); Some (s2b "."); Some []; Some [];
       Some (s2b "a"); Some (s2b ".."); Some []]).
  golden (map (fun '(a, b) => path_push (s2b a) (s2b b)) [("", "a"); ("a", "b"); ("a/", "b"); ("a", "/b"); ("a", "")]%string
    = map s2b ["a"; "a/b"; "a/b"; "/b"; "a/"]%string).
  golden (map (fun s => ancestors_count (s2b s)) [""; "foo"; "/foo/bar"; "../foo/bar"; "a/b/c"]%string = [1; 2; 3; 4; 4]%nat).
  exact Logic.I.
Qed.
