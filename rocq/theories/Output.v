(** * Output: the text the example programs write to standard output
    (/repo/examples/get.rs 69-99, /repo/examples/resolve.rs 43-63 and 154-223).
    Programs.v has their results as structured values. *)
From Coq Require Import Strings.String.
From Coq Require Import Init.Byte.
From Verif Require Import Base Wire Utf8 Cid Pb Dir Walk Programs AdderDebug.

(** ** core::fmt *)

(** lower case digits, as of [{}], [{:o}] and [{:x}] *)
Definition digit (d : N) : byte := n2b (if d <? 10 then 48 + d else 87 + d).
Fixpoint numeral_go (fuel : nat) (base n : N) (acc : bytes) : bytes :=
  match fuel with
  | O => acc
  | S fuel =>
    let acc := digit (n mod base) :: acc in
    if n / base =? 0 then acc else numeral_go fuel base (n / base) acc
  end.
Definition numeral (base n : N) : bytes := numeral_go (S (N.size_nat n)) base n [].
(** Display of i64 *)
Definition signed (z : Z) : bytes :=
  if (z <? 0)%Z then x2d :: numeral 10 (Z.abs_N z) else numeral 10 (Z.abs_N z).
(** [{:>width}] of ASCII text *)
Definition align_right (width : nat) (w : bytes) : bytes := repeat x20 (width - length w) ++ w.

(** the number of bytes of the character beginning with [x], and the code point
    of a character *)
Definition char_len (x : byte) : nat :=
  if b2n x <? 0x80 then 1 else if b2n x <? 0xe0 then 2 else if b2n x <? 0xf0 then 3 else 4.
Definition char_code (ch : bytes) : N :=
  match ch with
  | [] => 0
  | x :: rest =>
    fold_left (fun a y => a * 64 + (b2n y - 0x80)) rest
      (if b2n x <? 0x80 then b2n x else if b2n x <? 0xe0 then b2n x - 0xc0
       else if b2n x <? 0xf0 then b2n x - 0xe0 else b2n x - 0xf0)
  end.

(** char::escape_debug.  [plain] tells which of the characters without an escape
    of their own are printed as they are: those printable by the tables of core,
    which are left open here (as is the apostrophe, which depends on the version). *)
Definition escape (plain : N -> bool) (ch : bytes) : bytes :=
  let c := char_code ch in
  if c =? 0 then lit "\0"
  else if c =? 9 then lit "\t"
  else if c =? 10 then lit "\n"
  else if c =? 13 then lit "\r"
  else if c =? 34 then [x5c; x22]
  else if c =? 92 then lit "\\"
  else if plain c then ch
  else if c =? 39 then lit "\'"
  else lit "\u{" ++ numeral 16 c ++ lit "}".
Fixpoint escapes (fuel : nat) (plain : N -> bool) (s : bytes) : bytes :=
  match fuel, s with
  | S fuel, x :: _ => escape plain (firstn (char_len x) s) ++ escapes fuel plain (skipn (char_len x) s)
  | _, _ => []
  end.
(** Debug of str, and of Path on Unix.  A Path that is not UTF-8 would show
    further escapes: here paths are made of strings. *)
Definition debug_str (plain : N -> bool) (s : bytes) : bytes :=
  [x22] ++ escapes (length s) plain s ++ [x22].

(** ** get.rs *)

(** println! of get.rs 81, 88 and 94-97, without the newline *)
Definition line_out (plain : N -> bool) (l : line) : bytes :=
  match l with
  | LineFile mode seconds size path =>
    lit "f " ++ numeral 8 mode ++ lit " " ++ align_right 12 (signed seconds) ++ lit " "
    ++ align_right 16 (numeral 10 size) ++ lit " " ++ debug_str plain path
  | LineDir mode seconds path =>
    lit "d " ++ numeral 8 mode ++ lit " " ++ align_right 12 (signed seconds) ++ lit " "
    ++ align_right 16 (lit "-") ++ lit " " ++ debug_str plain path
  | LineLink mode seconds path target =>
    lit "s " ++ numeral 8 mode ++ lit " " ++ align_right 12 (signed seconds) ++ lit " "
    ++ align_right 16 (lit "-") ++ lit " " ++ debug_str plain path ++ lit " -> " ++ debug_str plain target
  end.
Definition println (lines : list bytes) : bytes := concat (map (fun t => t ++ [x0a]) lines).
(** standard output of get, get.rs 7-103 *)
Definition get_out (X : ext) (plain : N -> bool) (cid_of_str : bytes -> option cid) (fuel : nat) (fs : disk)
    (arg var : option bytes) : outcome Empty_set N * bytes :=
  let '(r, ls) := get_main X cid_of_str fuel fs arg var in (r, println (map (line_out plain) ls)).

(** ** resolve.rs *)

(** the println! of walk and main, resolve.rs 163, 174, 175, 204, 221 and 45.
    [OutCache]: whether there is a cache. *)
Inductive out_line := OutCache (some : bool) | OutLucky (c : cid) (segment : bytes) | OutCid (c : cid).
Definition out_cache (k : option dcache) : out_line := OutCache (match k with Some _ => true | None => false end).

Section resolve.
Context (X : ext).

(** walk, resolve.rs 154-223, with what it prints before the Cid *)
Fixpoint resolve_out (fuel : nat) (fs : disk) (root : bytes) (c : cid) (segments : list bytes)
    (k : option dcache) : outcome (program_error resolve_error) (option cid) * list out_line :=
  match segments with
  | [] => (Ok (Some c), [out_cache k])
  | s :: rest =>
    let first := out_cache k in
    match read_block fs root c with
    | Ok buf =>
      let '(r, k) := resolve X buf s k in
      match r with
      | Ok (Found c) =>
        let '(r, out) := resolve_out fuel fs root c rest k in
        (r, first :: OutLucky c s :: out_cache k :: out)
      | Ok NotFound => (Ok None, [first])
      | Ok (NeedToLoadMore v) =>
        let '(r, k) := resolve_buckets X fuel fs root v k in
        match r with
        | Ok (Some c) => let '(r, out) := resolve_out fuel fs root c rest k in (r, first :: out)
        | Ok None => (Ok None, [first; out_cache k])
        | Err e => (Err e, [first])
        | Panic => (Panic, [first])
        | Diverge => (Diverge, [first])
        end
      | Err e => (Err (Traversal_ e), [first])
      | Panic => (Panic, [first])
      | Diverge => (Diverge, [first])
      end
    | Err e => (Err e, [first])
    | Panic => (Panic, [first])
    | Diverge => (Diverge, [first])
    end
  end.

(** main, resolve.rs 8-63: the exit code and the lines on standard output *)
Definition resolve_out_main (cid_of_str : bytes -> option cid) (fuel : nat) (fs : disk) (arg var : option bytes)
    : outcome Empty_set N * list out_line :=
  main [] (path_try_from cid_of_str)
    (fun dir p => let '(r, out) := resolve_out fuel fs dir (fst p) (snd p) None in
                  (r, out ++ match r with Ok (Some c) => [OutCid c] | _ => [] end)) arg var.
End resolve.

(** the text of a line.  [cid_text] is Display of Cid; the capacity of a cache
    ([cap]; Debug of Cache, dir/sharded_lookup.rs 22-26) is up to the
    allocator. *)
Definition out_text (plain : N -> bool) (cid_text : cid -> bytes) (cap : N) (l : out_line) : bytes :=
  match l with
  | OutCache false => lit "cache None"
  | OutCache true => lit "cache Some(Cache { buffer: " ++ numeral 10 cap ++ lit " })"
  | OutLucky c s => lit "got lucky: found " ++ cid_text c ++ lit " for " ++ debug_str plain s
  | OutCid c => cid_text c
  end.

(** the lines; [caps i]: the capacity of the cache when the i-th line is printed *)
Fixpoint out_texts (plain : N -> bool) (cid_text : cid -> bytes) (caps : nat -> N) (ls : list out_line) : list bytes :=
  match ls with
  | [] => []
  | l :: ls => out_text plain cid_text (caps O) l :: out_texts plain cid_text (fun i => caps (S i)) ls
  end.
(** standard output of resolve, resolve.rs 8-63 *)
Definition resolve_stdout (X : ext) (plain : N -> bool) (cid_text : cid -> bytes) (caps : nat -> N)
    (cid_of_str : bytes -> option cid) (fuel : nat) (fs : disk) (arg var : option bytes) : outcome Empty_set N * bytes :=
  let '(r, ls) := resolve_out_main X cid_of_str fuel fs arg var in (r, println (out_texts plain cid_text caps ls)).
