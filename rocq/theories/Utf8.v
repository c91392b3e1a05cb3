(** * Utf8: [core::str::from_utf8] (validity) and [str::is_char_boundary].

    Standard library of Rust, not in /repo: used through
    BytesReader::read_string for link names (/repo/src/pb/merkledag.rs 31) and
    through the slicing [&name[2..]] in /repo/src/dir/sharded_lookup.rs and
    /repo/src/walk.rs. *)
From Verif Require Import Base.

(** [n] in [lo, hi] *)
Definition inr (lo hi n : N) : bool := (lo <=? n) && (n <=? hi).
Definition cont (b : byte) : bool := inr 0x80 0xbf (b2n b).

(** Well-formed UTF-8 byte sequences, Unicode standard table 3-7 (the table
    [core::str::validations::run_utf8_validation] implements). *)
Fixpoint utf8_valid (l : bytes) : bool :=
  match l with
  | [] => true
  | a :: l1 =>
      let na := b2n a in
      if na <=? 0x7f then utf8_valid l1
      else match l1 with
      | [] => false
      | b :: l2 =>
          let nb := b2n b in
          if inr 0xc2 0xdf na then cont b && utf8_valid l2
          else match l2 with
          | [] => false
          | c :: l3 =>
              if na =? 0xe0 then inr 0xa0 0xbf nb && cont c && utf8_valid l3
              else if inr 0xe1 0xec na || inr 0xee 0xef na
                   then cont b && cont c && utf8_valid l3
              else if na =? 0xed then inr 0x80 0x9f nb && cont c && utf8_valid l3
              else match l3 with
              | [] => false
              | d :: l4 =>
                  if na =? 0xf0 then inr 0x90 0xbf nb && cont c && cont d && utf8_valid l4
                  else if inr 0xf1 0xf3 na then cont b && cont c && cont d && utf8_valid l4
                  else if na =? 0xf4 then inr 0x80 0x8f nb && cont c && cont d && utf8_valid l4
                  else false
              end
          end
      end
  end.

(** str::is_char_boundary *)
Definition is_char_boundary (s : bytes) (i : nat) : bool :=
  match i with
  | O => true
  | _ => match nth_error s i with
         | Some x => negb (cont x)
         | None => Nat.eqb i (length s)
         end
  end.

(** [&s[i..]] : panics when [i] is not a char boundary *)
Definition str_from {E} (s : bytes) (i : nat) : outcome E bytes :=
  if is_char_boundary s i then Ok (skipn i s) else Panic.

(** [&s[..i]] *)
Definition str_to {E} (s : bytes) (i : nat) : outcome E bytes :=
  if is_char_boundary s i then Ok (firstn i s) else Panic.
