(** * Wire: model of quick-protobuf 0.8.0 (the version pinned in
    /repo/Cargo.toml, /repo/Cargo.lock), as far as this crate uses it.

    quick-protobuf is a dependency whose source is not part of /repo; the
    definitions below transcribe the published 0.8.0 sources
    (src/reader.rs, src/writer.rs, src/sizeofs.rs).  The generated code in
    /repo/src/pb/merkledag.rs and /repo/src/pb/unixfs.rs calls exactly these.

    A [BytesReader] is a cursor [start, end) over a byte slice that is passed
    separately to every method; nested messages temporarily lower [end].
    No method checks that [start <= end]. *)
From Verif Require Import Base.

Inductive perr :=
| EUtf8                    (* Error::Utf8 *)
| EVarint                  (* Error::Varint *)
| EEof                     (* Error::UnexpectedEndOfBuffer *)
| EDeprecated              (* Error::Deprecated("group") *)
| EUnknownWire (t : N).    (* Error::UnknownWireType *)

Record reader := Reader { r_start : N; r_end : N }.

Definition pres A := outcome perr (reader * A).

Section reader.
Context (dbg : bool) (b : bytes).

(** BytesReader::is_eof *)
Definition is_eof (r : reader) : bool := r_start r =? r_end r.

(** BytesReader::read_u8.  ([start += 1] cannot overflow: start < len.) *)
Definition read_u8 (r : reader) : pres byte :=
  match get_at b (r_start r) with
  | Some x => Ok (Reader (r_start r + 1) (r_end r), x)
  | None => Err EEof
  end.

(** the common tail of [read_varint32]: five more bytes are discarded *)
Fixpoint skip_cont (n : nat) (r : reader) (v : N) : pres N :=
  match n with
  | O => Err EVarint
  | S n' =>
      do (r1, x) <- read_u8 r;
      if b2n x <? 128 then Ok (r1, v) else skip_cont n' r1 v
  end.

(** BytesReader::read_varint32, bytes [k]..; [sh] is 2^(7k) *)
Fixpoint varint32_go (n : nat) (r : reader) (acc sh : N) : pres N :=
  match n with
  | O =>
      (* fifth byte: only its low four bits count *)
      do (r1, x) <- read_u8 r;
      let acc' := acc + (b2n x mod 16) * sh in
      if b2n x <? 128 then Ok (r1, acc') else skip_cont 5 r1 acc'
  | S n' =>
      do (r1, x) <- read_u8 r;
      let acc' := acc + (b2n x mod 128) * sh in
      if b2n x <? 128 then Ok (r1, acc') else varint32_go n' r1 acc' (sh * 128)
  end.
Definition read_varint32 (r : reader) : pres N := varint32_go 4 r 0 1.

(** BytesReader::read_varint64: nine 7-bit groups, of the tenth byte only the
    lowest bit survives the shift by 63 *)
Fixpoint varint64_go (n : nat) (r : reader) (acc sh : N) : pres N :=
  match n with
  | O =>
      do (r1, x) <- read_u8 r;
      if b2n x <? 128 then Ok (r1, acc + (b2n x mod 2) * sh) else Err EVarint
  | S n' =>
      do (r1, x) <- read_u8 r;
      let acc' := acc + (b2n x mod 128) * sh in
      if b2n x <? 128 then Ok (r1, acc') else varint64_go n' r1 acc' (sh * 128)
  end.
Definition read_varint64 (r : reader) : pres N := varint64_go 9 r 0 1.

(** BytesReader::next_tag *)
Definition next_tag := read_varint32.

(** BytesReader::read_len_varint: run [f] with [end] lowered to the end of the
    length delimited field. *)
Definition read_len_varint {A} (f : reader -> outcome perr A) (r : reader) : pres A :=
  do (r1, len) <- read_varint32 r;
  do e <- add64 dbg (r_start r1) len;
  do v <- f (Reader (r_start r1) e);
  Ok (Reader e (r_end r1), v).

(** BytesReader::read_bytes, together with the offset of the returned slice *)
Definition read_slice (r : reader) : pres (N * bytes) :=
  read_len_varint
    (fun q => match get_range b (r_start q) (r_end q) with
              | Some x => Ok (r_start q, x)
              | None => Err EEof
              end) r.

Definition read_bytes (r : reader) : pres bytes :=
  do (r1, s) <- read_slice r; Ok (r1, snd s).

(** BytesReader::read_string; [valid] is [core::str::from_utf8(..).is_ok()] *)
Definition read_string (valid : bytes -> bool) (r : reader) : pres bytes :=
  read_len_varint
    (fun q => match get_range b (r_start q) (r_end q) with
              | Some x => if valid x then Ok x else Err EUtf8
              | None => Err EEof
              end) r.

Fixpoint le_bytes (l : bytes) : N :=
  match l with [] => 0 | x :: l' => b2n x + 256 * le_bytes l' end.

(** BytesReader::read_fixed32 *)
Definition read_fixed32 (r : reader) : pres N :=
  do e <- add64 dbg (r_start r) 4;
  match get_range b (r_start r) e with
  | Some x => Ok (Reader e (r_end r), le_bytes x)
  | None => Err EEof
  end.

(** BytesReader::read_unknown (the [start += ..] are not checked against the
    buffer) *)
Definition read_unknown (t : N) (r : reader) : outcome perr reader :=
  match t mod 8 with
  | 0 => do (r1, _) <- read_varint64 r; Ok r1
  | 1 => do s <- add64 dbg (r_start r) 8; Ok (Reader s (r_end r))
  | 2 => do (r1, len) <- read_varint64 r;
         do s <- add64 dbg (r_start r1) len; Ok (Reader s (r_end r1))
  | 3 | 4 => Err EDeprecated
  | 5 => do s <- add64 dbg (r_start r) 4; Ok (Reader s (r_end r))
  | w => Err (EUnknownWire w)
  end.

(** The loop all generated [from_reader] functions consist of
    (/repo/src/pb/merkledag.rs 25-37, 68-79; /repo/src/pb/unixfs.rs 31-49,
    168-179, 203-213):
    [while !r.is_eof() { match r.next_tag(bytes) { .. } }].
    [step tag] is the body of the match for [Ok(tag)].
    Fuel [S (length b)]: with overflow checks every iteration consumes at
    least one of the bytes of [b]; see [Wire_proofs.v]. *)
Fixpoint msg_loop {M} (fuel : nat) (step : N -> M -> reader -> pres M)
    (r : reader) (m : M) : pres M :=
  if is_eof r then Ok (r, m)
  else match fuel with
       | O => Diverge
       | S fuel' =>
           do (r1, t) <- next_tag r;
           do (r2, m') <- step t m r1;
           msg_loop fuel' step r2 m'
       end.

Definition from_reader {M} (step : N -> M -> reader -> pres M) (m0 : M) (r : reader) : pres M :=
  msg_loop (S (length b)) step r m0.

(** BytesReader::read_message *)
Definition read_message {M} (step : N -> M -> reader -> pres M) (m0 : M) (r : reader) : pres M :=
  read_len_varint (fun q => do (_, m) <- from_reader step m0 q; Ok m) r.

(** shorthand for the default branch [Ok(t) => r.read_unknown(bytes, t)?] *)
Definition unknown {M} (t : N) (m : M) (r : reader) : pres M :=
  do r1 <- read_unknown t r; Ok (r1, m).

End reader.

(** ** Writing *)

(** Writer::write_varint.  Fuel 10: enough for a u64. *)
Fixpoint varint_go (fuel : nat) (v : N) : bytes :=
  match fuel with
  | O => []
  | S f => if 127 <? v then n2b (v mod 128 + 128) :: varint_go f (v / 128)
           else [n2b v]
  end.
Definition write_varint (v : N) : bytes := varint_go 10 v.

(** Writer::write_tag / write_with_tag: the tag is written as a varint *)
Definition write_with_tag (t : N) (body : bytes) : bytes := write_varint t ++ body.

(** Writer::write_bytes, write_string *)
Definition write_bytes (x : bytes) : bytes := write_varint (blen x) ++ x.

(** Writer::write_message: prefix is the announced [get_size] *)
Definition write_message (size : N) (body : bytes) : bytes := write_varint size ++ body.

(** Writer::write_fixed32 *)
Definition write_fixed32 (v : N) : bytes :=
  [n2b v; n2b (v / 256); n2b (v / 65536); n2b (v / 16777216)].

(** sizeofs::sizeof_varint *)
Definition sizeof_varint (v : N) : N :=
  if v <=? 0x7f then 1
  else if v <=? 0x3fff then 2
  else if v <=? 0x1fffff then 3
  else if v <=? 0xfffffff then 4
  else if v <=? 0x7ffffffff then 5
  else if v <=? 0x3ffffffffff then 6
  else if v <=? 0x1ffffffffffff then 7
  else if v <=? 0xffffffffffffff then 8
  else if v <=? 0x7fffffffffffffff then 9
  else 10.

(** sizeofs::sizeof_len *)
Definition sizeof_len (n : N) : N := sizeof_varint n + n.
