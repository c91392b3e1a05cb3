(** * FileTime: model of [Metadata::mtime_as_filetime] (/repo/src/lib.rs 161-166,
    feature "filetime", which is enabled by default) and of the functions of the
    dependency filetime 0.2 it and its callers use.

    The source of filetime is not in /repo; modelled from its documented
    behaviour: a FileTime counts the seconds from the epoch of the platform, which
    is 1601 on Windows and 1970 elsewhere. *)
From Verif Require Import Base Wire Pb Reader.

(** i64 [+] and [-]: with overflow checks ([dbg = true]) a panic when the result
    [z] does not fit, otherwise wrapping around *)
Definition fits_i64 (z : Z) : bool := ((- 9223372036854775808 <=? z) && (z <? 9223372036854775808))%Z.
Definition i64 (dbg : bool) (z : Z) : outcome Empty_set Z :=
  if fits_i64 z then Ok z
  else if dbg then Panic else Ok ((z + 9223372036854775808) mod 18446744073709551616 - 9223372036854775808)%Z.

(** filetime::FileTime { seconds: i64, nanos: u32 } *)
Record filetime := FileTime { ft_seconds : Z; ft_nanoseconds : N }.

(** the seconds from 1601 to 1970 *)
Definition epoch_shift (windows : bool) : Z := if windows then 11644473600%Z else 0%Z.

(** FileTime::from_unix_time *)
Definition from_unix_time (windows dbg : bool) (s : Z) (n : N) : outcome Empty_set filetime :=
  do s' <- i64 dbg (s + epoch_shift windows)%Z; Ok (FileTime s' n).

(** FileTime::unix_seconds *)
Definition unix_seconds (windows dbg : bool) (t : filetime) : outcome Empty_set Z :=
  i64 dbg (ft_seconds t - epoch_shift windows)%Z.

(** Metadata::mtime_as_filetime, lib.rs 161-166 *)
Definition mtime_as_filetime (windows dbg : bool) (md : metadata) : outcome Empty_set (option filetime) :=
  match md_mtime md with
  | None => Ok None
  | Some (s, n) => do t <- from_unix_time windows dbg s n; Ok (Some t)
  end.
