(** * Property C81: the modification time as a FileTime
    (/repo/src/lib.rs 161-166).  The metadata a caller gets hold of is that of a
    block (C23 for file visits, C47 for walks): [metadata_of (f_data f)] for the
    block parsed to [f].  [windows]: the platform, [dbg]: overflow checks. *)
From Verif Require Import Base Wire Cid Pb Reader FileTime FileTime_proofs Visit SpecFile Visit_proofs Walk SpecWalk Sha256 Examples_file PropertiesFile PropertiesWalk.

(** the time of a block: seconds since 1970, and nanoseconds, if it has any *)
Definition block_time (f : flat) : option (Z * N) :=
  match u_mtime (f_data f) with
  | Some (UnixTime s (Some n)) => Some (s, n)
  | Some (UnixTime s None) => Some (s, 0)
  | None => None
  end.

(** C81: whenever a FileTime is returned, it is that of the block, on every
    platform: asked for the seconds since 1970 and the nanoseconds, it returns the
    numbers of the block.  Without a time in the block there is none. *)
Theorem C81_same_time : forall windows dbg block f r,
  try_parse dbg block = Ok f -> mtime_as_filetime windows dbg (metadata_of (f_data f)) = Ok r ->
  match block_time f with
  | Some (s, n) => exists t, r = Some t /\ unix_seconds windows dbg t = Ok s /\ ft_nanoseconds t = n
  | None => r = None
  end.
Proof.
  intros windows dbg block f r Hp H. apply try_parse_secs in Hp. unfold mtime_fits, secs_fit in Hp.
  unfold mtime_as_filetime, metadata_of, block_time in *. cbn [md_mtime] in H.
  destruct (u_mtime (f_data f)) as [[s n]|]; [|congruence]. cbn [t_secs t_nanos] in *.
  unfold from_unix_time in H. apply bind_ok in H as [t [H E]]. apply bind_ok in H as [s' [H E']].
  injection E' as <-. injection E as <-.
  destruct n as [n|]; (eexists; split; [reflexivity|]; split; [|reflexivity]; unfold unix_seconds; cbn [ft_seconds]; eapply shift_back; eassumption).
Qed.
Print Assumptions C81_same_time.

(** C81: one is always returned, except on Windows with overflow checks when the
    time is so late that shifting it to 1601 overflows: then it panics *)
Theorem C81_exact : forall windows dbg block f,
  try_parse dbg block = Ok f ->
  (mtime_as_filetime windows dbg (metadata_of (f_data f)) = Panic
   <-> windows = true /\ dbg = true
       /\ exists s n, block_time f = Some (s, n) /\ (2 ^ 63 - 11644473600 <= s)%Z)
  /\ (mtime_as_filetime windows dbg (metadata_of (f_data f)) <> Panic ->
      exists r, mtime_as_filetime windows dbg (metadata_of (f_data f)) = Ok r).
Proof.
  intros windows dbg block f Hp. apply try_parse_secs in Hp. unfold mtime_fits, secs_fit in Hp.
  change (2 ^ 63)%Z with 9223372036854775808%Z.
  unfold mtime_as_filetime, metadata_of, block_time in *. cbn [md_mtime].
  destruct (u_mtime (f_data f)) as [[s n]|].
  2:{ split; [split; [discriminate|]; intros (_ & _ & s & n & E & _); discriminate|]. intros _. eauto. }
  cbn [t_secs t_nanos] in *. unfold from_unix_time.
  assert (T : forall k : N, exists k', Some (s, k') = match n with Some n => Some (s, n) | None => Some (s, 0) end)
    by (intros _; destruct n as [k|]; eauto).
  assert (A : i64 dbg (s + epoch_shift windows)%Z = Panic <-> windows = true /\ dbg = true /\ (9223372036854775808 - 11644473600 <= s)%Z).
  { destruct windows.
    - rewrite (shift_panics dbg s Hp). tauto.
    - cbn [epoch_shift]. rewrite Z.add_0_r. unfold i64. rewrite Hp. split; [discriminate|]. intros (? & _). discriminate. }
  assert (B : i64 dbg (s + epoch_shift windows)%Z = Panic \/ exists z, i64 dbg (s + epoch_shift windows)%Z = Ok z).
  { unfold i64. destruct (fits_i64 (s + epoch_shift windows)); [right; eexists; reflexivity|]. destruct dbg; [left; reflexivity|right; eexists; reflexivity]. }
  destruct B as [B|[z B]]; rewrite B; cbn [bind].
  - split; [|congruence]. split; [|reflexivity]. intros _. apply A in B as (-> & -> & B).
    destruct (T 0) as [k' <-]. repeat split. eauto.
  - split; [|eauto]. split; [discriminate|]. intros (-> & -> & s' & n' & E & L).
    assert (s' = s) as -> by (destruct n; congruence).
    destruct A as [_ A]. rewrite B in A. specialize (A ltac:(auto)). discriminate.
Qed.
Print Assumptions C81_exact.

(** C81: for the visit of a file *)
Theorem C81_visit : forall X windows gives target root bs asked out v,
  visit X gives target (root :: bs) asked out (Some v) ->
  exists f, try_parse (ext_dbg X) root = Ok f
    /\ mtime_as_filetime windows (ext_dbg X) (fv_metadata v) = mtime_as_filetime windows (ext_dbg X) (metadata_of (f_data f)).
Proof.
  intros X windows gives target root bs asked out v H. apply C23_metadata_kept in H as (f & Hp & _ & E).
  exists f. split; [exact Hp|]. unfold mtime_as_filetime. rewrite E. unfold metadata_of. cbn [md_mtime].
  destruct (u_mtime (f_data f)) as [[s [n|]]|]; reflexivity.
Qed.
Print Assumptions C81_visit.

(** C81: for the items of a walk, whatever their kind (buckets carry no metadata;
    later segments of a file repeat that of the first) *)
Theorem C81_walk : forall X windows root name bs asked items w c others b k it w' k' md,
  walks X anything (walker_new root name) bs asked items w -> w_pending_links w = Ok (c, others) ->
  clean_cache k -> walk_next X w b k = (Ok it, w', k') ->
  match it with
  | WRootDirectory _ _ m | WDirectory _ _ m | WSymlink _ _ _ m => md = m
  | WFile seg _ _ m _ => is_first seg = true /\ md = m
  | WBucket _ _ => False
  end ->
  exists f, try_parse (ext_dbg X) b = Ok f
    /\ mtime_as_filetime windows (ext_dbg X) md = mtime_as_filetime windows (ext_dbg X) (metadata_of (f_data f)).
Proof.
  intros X windows root name bs asked items w c others b k it w' k' md Hw Hp Hk Hn Hm.
  destruct (C47_items_match_blocks X root name bs asked items w c others b k it w' k' Hw Hp Hk Hn) as (f & P & M).
  exists f. split; [exact P|].
  assert (E : md = says (f_data f)).
  { destruct it; cbn in Hm; try (destruct Hm); subst; tauto. }
  rewrite E. unfold mtime_as_filetime, says, metadata_of. cbn [md_mtime].
  destruct (u_mtime (f_data f)) as [[s [n|]]|]; reflexivity.
Qed.
Print Assumptions C81_walk.

(** a file of one block, dated five seconds before 1970, and one dated as late as can be *)
Definition dated (s : Z) : flat :=
  Flat [] (UnixFs File (Some [x61]) (Some 1) [] None None None (Some (UnixTime s (Some 7)))).
Definition late : Z := 9223372036854775807%Z.
Example C81_nonvacuous : forall dbg,
  try_parse dbg (flat_write (dated (-5))) = Ok (dated (-5))
  /\ mtime_as_filetime false dbg (metadata_of (f_data (dated (-5)))) = Ok (Some (FileTime (-5) 7))
  /\ mtime_as_filetime true dbg (metadata_of (f_data (dated (-5)))) = Ok (Some (FileTime 11644473595 7))
  /\ try_parse dbg (flat_write (dated late)) = Ok (dated late)
  /\ (forall X, ext_dbg X = dbg ->
        exists md, visit_start X None (flat_write (dated late)) = Ok ([x61], 1, md, None)
        /\ mtime_as_filetime false dbg md = Ok (Some (FileTime late 7))
        /\ (mtime_as_filetime true dbg md = Panic <-> dbg = true)).
Proof.
  intros dbg. split; [destruct dbg; vm_compute; reflexivity|]. split; [destruct dbg; vm_compute; reflexivity|].
  split; [destruct dbg; vm_compute; reflexivity|]. split; [destruct dbg; vm_compute; reflexivity|].
  intros X E. exists (metadata_of (f_data (dated late))). split.
  - assert (P : try_parse (ext_dbg X) (flat_write (dated late)) = Ok (dated late)) by (destruct (ext_dbg X); vm_compute; reflexivity).
    unfold visit_start, from_block. rewrite P. cbn. reflexivity.
  - split; [destruct dbg; vm_compute; reflexivity|]. destruct dbg; vm_compute; split; congruence.
Qed.
(** a walk whose only item is the late file *)
Example C81_walk_nonvacuous : forall dbg, exists c others w' md,
  w_pending_links (walker_new (idc 9) []) = Ok (c, others)
  /\ walk_next (real_ext dbg) (walker_new (idc 9) []) (flat_write (dated late)) None
     = (Ok (WFile (FileSegment [x61] true true) (idc 9) [] md 1), w', None)
  /\ mtime_as_filetime false dbg md = Ok (Some (FileTime late 7))
  /\ (mtime_as_filetime true dbg md = Panic <-> dbg = true).
Proof.
  intros dbg. do 4 eexists. split; [reflexivity|]. split; [destruct dbg; vm_compute; reflexivity|].
  split; [destruct dbg; vm_compute; reflexivity|]. destruct dbg; vm_compute; split; congruence.
Qed.
