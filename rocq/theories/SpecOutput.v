(** * SpecOutput: the layout of the lines that get prints, independently of the
    program.  From Programs.v only the type of the lines is used. *)
From Coq Require Import Strings.String.
From Coq Require Import Init.Byte.
From Verif Require Import Base Cid Wire Programs SpecText.

Definition ascii (s : string) : bytes := list_byte_of_string s.
Arguments ascii s%string.

(** [numeral_of base n t]: [t] is [n] in base [base], without leading zeros *)
Definition value (base : N) (ds : list N) : N := fold_left (fun a d => a * base + d) ds 0.
Definition digit_char (d : N) : byte := nth (N.to_nat d) (ascii "0123456789abcdef") x3f.
Definition numeral_of (base n : N) (t : bytes) : Prop :=
  exists ds, Forall (fun d => d < base) ds /\ ds <> [] /\ (hd 0 ds = 0 -> ds = [0]) /\ value base ds = n /\ t = map digit_char ds.
Definition integer_of (z : Z) (t : bytes) : Prop :=
  ((0 <= z)%Z /\ numeral_of 10 (Z.to_N z) t) \/ ((z < 0)%Z /\ exists u, numeral_of 10 (Z.to_N (- z)) u /\ t = x2d :: u).

(** a character within quotes: itself or an escape; the quotes, the backslash
    and control characters only as an escape *)
Inductive shown : N -> bytes -> Prop :=
| shown_itself : forall c, 32 <= c -> c <> 34 -> c <> 92 -> c <> 127 -> shown c (encode_char c)
| shown_nul : shown 0 (ascii "\0")
| shown_tab : shown 9 (ascii "\t")
| shown_newline : shown 10 (ascii "\n")
| shown_return : shown 13 (ascii "\r")
| shown_quote : shown 34 [x5c; x22]
| shown_apostrophe : shown 39 (ascii "\'")
| shown_backslash : shown 92 (ascii "\\")
| shown_code : forall c t, ~ In c [0; 9; 10; 13; 34; 92] -> numeral_of 16 c t -> shown c (ascii "\u{" ++ t ++ ascii "}").
(** text in quotes *)
Definition quoted (s t : bytes) : Prop :=
  exists cs ts, Forall scalar cs /\ s = encode_text cs /\ Forall2 shown cs ts /\ t = [x22] ++ concat ts ++ [x22].

(** right aligned *)
Definition aligned (width : nat) (w t : bytes) : Prop := t = repeat x20 (width - length w) ++ w.

(** kind, permissions in octal, seconds, size, path and target *)
Definition columns (kind : byte) (mode : N) (seconds : Z) (size : bytes) (path t : bytes) : Prop :=
  exists m s a z q, numeral_of 8 mode m /\ integer_of seconds s /\ aligned 12 s a /\ aligned 16 size z /\ quoted path q
  /\ t = kind :: x20 :: m ++ x20 :: a ++ x20 :: z ++ x20 :: q.
Inductive line_text : line -> bytes -> Prop :=
| file_text : forall mode seconds size path z t, numeral_of 10 size z -> columns x66 mode seconds z path t ->
    line_text (LineFile mode seconds size path) t
| dir_text : forall mode seconds path t, columns x64 mode seconds (ascii "-") path t ->
    line_text (LineDir mode seconds path) t
| link_text : forall mode seconds path target t q, columns x73 mode seconds (ascii "-") path t -> quoted target q ->
    line_text (LineLink mode seconds path target) (t ++ ascii " -> " ++ q).

(** the text of lines, each with its newline *)
Definition lines_text (ts : list bytes) : bytes := concat (map (fun t => t ++ [x0a]) ts).
Definition output_text (ls : list line) (out : bytes) : Prop :=
  exists ts, Forall2 line_text ls ts /\ out = lines_text ts.

(** no control character of ASCII *)
Definition visible (x : byte) : Prop := 32 <= b2n x /\ b2n x <> 127.

(** ** resolve *)

(** A line that is not a Cid: it has spaces. *)
Definition note (t : bytes) : Prop :=
  Forall visible t /\ exists u, t = ascii "cache " ++ u \/ t = ascii "got lucky: found " ++ u.
(** the text of a Cid: visible characters without a space *)
Definition word (t : bytes) : Prop := Forall visible t /\ ~ In x20 t.
