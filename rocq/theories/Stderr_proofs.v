(** * Stderr_proofs: the lines of resolve on standard error *)
From Coq Require Import Strings.String.
From Coq Require Import Init.Byte.
From Verif Require Import Base Tac Wire Utf8 Cid Pb Reader Visit Dir Dir_proofs Walk SpecAdder SpecFile SpecDir SpecWalk.
From Verif Require SpecFileSteps SpecWalkSteps SpecLookupSteps Lookup_exact.
From Verif Require Import Programs SpecPrograms Store_proofs SpecRuns Runs_proofs Ends_walk SpecText SpecOutput Stderr SpecStderr.

Section stderr.
Context (X : ext) (fs : disk) (dir : bytes) (G : good_dir dir).

Let RD c b : on_disk fs dir c (Contents b) -> @read_block resolve_error fs dir c = Ok b.
Proof. intros O. rewrite (read_on_disk fs dir c _ G O). reflexivity. Qed.
Let RU c err : unreadable fs dir c err -> @read_block resolve_error fs dir c = Err err.
Proof. intros O. exact (read_unreadable fs dir c err G O). Qed.

Definition found_line (needle : bytes) (from : cid) (n : nat) (o : option cid) : list notice :=
  match o with Some d => [Resolved needle from n d] | None => [] end.
Definition search_result (o : option cid) (r : outcome (program_error resolve_error) (option cid)) : Prop :=
  match o with Some d => r = Ok (Some d) | None => (forall d, r <> Ok (Some d)) /\ r <> Diverge end.

Lemma searched_sound needle from : forall fuel c queue count k, clean k ->
  fst (resolve_buckets X fuel fs dir (Lookup (c :: queue) needle) k) <> Diverge ->
  exists cs o, searched X fs dir needle c queue cs o
  /\ buckets_notes X fuel fs dir from needle (S count) (Lookup (c :: queue) needle) k
     = map (fun x => Searching x needle) cs ++ found_line needle from (count + length cs) o
  /\ search_result o (fst (resolve_buckets X fuel fs dir (Lookup (c :: queue) needle) k)).
Proof.
  induction fuel as [|fuel IH]; intros c queue count k K; cbn [resolve_buckets buckets_notes]; [intros ND; cbn in ND; congruence|].
  cbn [lk_pending_links lk_links map_err bind fst].
  destruct (@disk_cases fs dir G resolve_error c) as [(b & O & RB)|(err & U & RB)]; rewrite RB.
  2:{ intros _. exists [c], None. split; [eapply sd_unreadable; exact U|]. split; [reflexivity|]. split; discriminate. }
  destruct (buckets_round X needle c queue b k K) as (r & N & k' & E & K'). rewrite E.
  destruct r as [[d| |d others]|e| |]; cbn [Lookup_exact.seen fst snd]; intros ND.
  - exists [c], (Some d). split; [eapply sd_gives; eassumption|]. cbn [length found_line map app]. split; [rewrite Nat.add_comm; reflexivity|reflexivity].
  - exists [c], None. split; [eapply sd_ends; [exact O|exact N|left; reflexivity]|]. split; [reflexivity|split; discriminate].
  - destruct (IH d others (S count) k' K' ND) as (cs & o & S & Q & R). exists (c :: cs), o. split; [eapply sd_next; eassumption|].
    split; [|exact R]. rewrite Nat.add_1_r, Q. cbn [map app length]. rewrite Nat.add_succ_r. reflexivity.
  - exists [c], None. split; [eapply sd_ends; [exact O|exact N|right; right; eauto]|]. split; [reflexivity|split; discriminate].
  - exists [c], None. split; [eapply sd_ends; [exact O|exact N|right; left; reflexivity]|]. split; [reflexivity|split; discriminate].
  - congruence.
Qed.
Lemma searched_complete needle from c queue cs o : searched X fs dir needle c queue cs o ->
  exists N, forall fuel, (N <= fuel)%nat -> forall k count, clean k ->
  buckets_notes X fuel fs dir from needle (S count) (Lookup (c :: queue) needle) k
     = map (fun x => Searching x needle) cs ++ found_line needle from (count + length cs) o
  /\ search_result o (fst (resolve_buckets X fuel fs dir (Lookup (c :: queue) needle) k)).
Proof.
  induction 1 as [c queue err U|c queue b r O N En|c queue b d O N|c queue b c' others' cs o O N H IH].
  1-3: exists 1%nat; intros [|fuel] L k count K; [lia|]; cbn [resolve_buckets buckets_notes lk_pending_links lk_links map_err bind fst].
  - rewrite (RU _ _ U). split; [reflexivity|]. split; discriminate.
  - rewrite (RD _ _ O). destruct (buckets_round X needle c queue b k K) as (r' & N' & k' & E & K'). rewrite E, (Lookup_exact.next_det X _ _ _ _ _ N' N).
    destruct En as [-> |[-> |[e ->]]]; cbn [Lookup_exact.seen fst]; (split; [reflexivity|split; discriminate]).
  - rewrite (RD _ _ O). destruct (buckets_round X needle c queue b k K) as (r' & N' & k' & E & K'). rewrite E, (Lookup_exact.next_det X _ _ _ _ _ N' N).
    cbn [Lookup_exact.seen fst map app found_line length]. split; [rewrite Nat.add_comm; reflexivity|reflexivity].
  - destruct IH as (M & IH). exists (S M). intros [|fuel] L k count K; [lia|]. cbn [resolve_buckets buckets_notes lk_pending_links lk_links map_err bind fst]. rewrite (RD _ _ O).
    destruct (buckets_round X needle c queue b k K) as (r' & N' & k' & E & K'). rewrite E, (Lookup_exact.next_det X _ _ _ _ _ N' N). cbn [Lookup_exact.seen].
    destruct (IH fuel ltac:(lia) k' (S count) K') as [Q R]. split; [|exact R]. rewrite Nat.add_1_r, Q. cbn [map app length]. rewrite Nat.add_succ_r. reflexivity.
Qed.

Lemma told_sound fuel : forall path c k, clean k -> resolve_walk X fuel fs dir c path k <> Diverge ->
  told X fs dir c path (resolve_notes X fuel fs dir c path k).
Proof.
  induction path as [|s rest IH]; intros c k K; cbn [resolve_walk resolve_notes]; [constructor|].
  destruct (@disk_cases fs dir G resolve_error c) as [(b & O & RB)|(err & U & RB)]; rewrite RB; cbn [bind].
  2:{ intros _. eapply t_unreadable; exact U. }
  destruct (first_round X s b k K) as (r & F & k' & E & K'). rewrite E.
  destruct r as [[d| |d others]|e| |]; cbn [Lookup_exact.seen]; intros ND.
  - eapply t_gives; [exact O|exact F|]. apply IH; assumption.
  - eapply t_ends; [exact O|exact F|left; reflexivity].
  - destruct (search_sound X fs dir G s fuel d others k' K') as [S1 _].
    pose proof (searched_sound s c fuel d others 0 k' K') as S2. cbn [Nat.add] in S2.
    destruct (resolve_buckets X fuel fs dir (Lookup (d :: others) s) k') as [o k2]. cbn [fst snd] in *.
    destruct S2 as (cs & o' & S & Q & R); [intros ->; apply ND; reflexivity|]. rewrite Q.
    destruct o' as [d'|]; cbn [search_result found_line] in *.
    + subst o. cbn [bind] in ND. rewrite <- app_assoc. cbn [app]. eapply t_found; [exact O|exact F|exact S|]. apply IH; assumption.
    + rewrite app_nil_r. assert (E2 : match o with Ok (Some d) => resolve_notes X fuel fs dir d rest k2 | _ => [] end = []).
      { destruct R as [R _]. destruct o as [[d'|]| | |]; try reflexivity. exfalso. eapply R. reflexivity. }
      rewrite E2, app_nil_r. eapply t_lost; eassumption.
  - eapply t_ends; [exact O|exact F|right; right; eauto].
  - eapply t_ends; [exact O|exact F|right; left; reflexivity].
  - congruence.
Qed.
Lemma told_complete c path ns : told X fs dir c path ns ->
  exists N, forall fuel, (N <= fuel)%nat -> forall k, clean k ->
  resolve_notes X fuel fs dir c path k = ns /\ resolve_walk X fuel fs dir c path k <> Diverge.
Proof.
  induction 1 as [c|c s rest err U|c s rest b r O F En|c s rest b d ns O F H IH|c s rest b d others cs O F S|c s rest b d others cs e ns O F S H IH].
  - exists 0%nat. intros. split; [reflexivity|discriminate].
  - exists 0%nat. intros fuel _ k K. cbn [resolve_walk resolve_notes]. rewrite (RU _ _ U). split; [reflexivity|discriminate].
  - exists 0%nat. intros fuel _ k K. cbn [resolve_walk resolve_notes]. rewrite (RD _ _ O). cbn [bind].
    destruct (first_round X s b k K) as (r' & F' & k' & E & K'). rewrite E, (Lookup_exact.first_det X _ _ _ _ F' F).
    destruct En as [-> |[-> |[e ->]]]; cbn [Lookup_exact.seen]; (split; [reflexivity|discriminate]).
  - destruct IH as (N & IH). exists N. intros fuel L k K. cbn [resolve_walk resolve_notes]. rewrite (RD _ _ O). cbn [bind].
    destruct (first_round X s b k K) as (r' & F' & k' & E & K'). rewrite E, (Lookup_exact.first_det X _ _ _ _ F' F). cbn [Lookup_exact.seen].
    destruct (IH fuel L k' K') as [-> ND]. split; [reflexivity|exact ND].
  - destruct (searched_complete s c _ _ _ _ S) as (N & Q). exists N. intros fuel L k K. cbn [resolve_walk resolve_notes]. rewrite (RD _ _ O). cbn [bind].
    destruct (first_round X s b k K) as (r' & F' & k' & E & K'). rewrite E, (Lookup_exact.first_det X _ _ _ _ F' F). cbn [Lookup_exact.seen].
    destruct (Q fuel L k' 0%nat K') as [-> [R1 R2]]. cbn [found_line]. rewrite app_nil_r.
    destruct (resolve_buckets X fuel fs dir (Lookup (d :: others) s) k') as [[[e|]|e| |] k2]; cbn [fst bind] in *; try (exfalso; eapply R1; reflexivity); try congruence;
      (rewrite app_nil_r; split; [reflexivity|discriminate]).
  - destruct (searched_complete s c _ _ _ _ S) as (N & Q). destruct IH as (M & IH). exists (Nat.max N M). intros fuel L k K. cbn [resolve_walk resolve_notes]. rewrite (RD _ _ O). cbn [bind].
    destruct (first_round X s b k K) as (r' & F' & k' & E & K'). rewrite E, (Lookup_exact.first_det X _ _ _ _ F' F). cbn [Lookup_exact.seen].
    destruct (Q fuel ltac:(lia) k' 0%nat K') as [-> R]. destruct (search_sound X fs dir G s fuel d others k' K') as [S1 _].
    destruct (resolve_buckets X fuel fs dir (Lookup (d :: others) s) k') as [o k2]. cbn [fst snd search_result] in *. subst o. cbn [bind].
    destruct (IH fuel ltac:(lia) k2 S1) as [-> ND]. split; [|exact ND]. cbn [found_line Nat.add]. rewrite <- app_assoc. reflexivity.
Qed.
End stderr.

(** ** Only the announced blocks are read *)
Section reads.
Context (X : ext) (fs fs' : disk) (dir : bytes) (G : good_dir dir).
Definition same (c : cid) : Prop := forall w, on_disk fs dir c w -> on_disk fs' dir c w.
Lemma same_read {T} c : same c -> @read_block T fs' dir c = @read_block T fs dir c.
Proof.
  intros S. destruct (@disk_cases fs dir G T c) as [(b & O & ->)|(err & U & ->)].
  - rewrite (read_on_disk fs' dir c _ G (S _ O)). reflexivity.
  - apply read_unreadable; [exact G|]. destruct U as [(e & O & ->)|(e & O & ->)]; [left|right]; exists e; split; auto.
Qed.
Lemma buckets_same from s fuel : forall count v k, Forall same (flat_map announces (buckets_notes X fuel fs dir from s count v k)) ->
  buckets_notes X fuel fs' dir from s count v k = buckets_notes X fuel fs dir from s count v k
  /\ resolve_buckets X fuel fs' dir v k = resolve_buckets X fuel fs dir v k.
Proof.
  induction fuel as [|fuel IH]; intros count v k A; cbn [buckets_notes resolve_buckets] in *; [auto|].
  destruct (lk_pending_links v) as [[first others]|e| |]; cbn [map_err bind fst] in *; try auto.
  cbn [flat_map announces app] in A. apply Forall_cons_iff in A as [A1 A]. rewrite (same_read first A1).
  destruct (@read_block resolve_error fs dir first) as [buf|e| |]; try auto.
  destruct (lk_continue_walk X v buf k) as [[[d|v'|]|e| |] k']; try auto.
  destruct (IH _ _ _ A) as [-> ->]. auto.
Qed.
Lemma resolve_same fuel : forall path c k, Forall same (flat_map announces (resolve_notes X fuel fs dir c path k)) ->
  resolve_notes X fuel fs' dir c path k = resolve_notes X fuel fs dir c path k
  /\ resolve_walk X fuel fs' dir c path k = resolve_walk X fuel fs dir c path k.
Proof.
  induction path as [|s rest IH]; intros c k A; cbn [resolve_notes resolve_walk] in *; [auto|].
  cbn [flat_map announces app] in A. apply Forall_cons_iff in A as [A1 A]. rewrite (same_read c A1).
  destruct (@read_block resolve_error fs dir c) as [buf|e| |]; cbn [bind]; try auto.
  destruct (resolve X buf s k) as [[[d|v|]|e| |] k']; try auto.
  - destruct (IH _ _ A) as [-> ->]. auto.
  - cbn [flat_map announces app] in A. rewrite flat_map_app in A. apply Forall_app in A as [A2 A].
    destruct (buckets_same c s fuel 1 v k' A2) as [-> ->].
    destruct (resolve_buckets X fuel fs dir v k') as [[[d|]|e| |] k2]; cbn [bind]; try auto.
    destruct (IH _ _ A) as [-> ->]. auto.
Qed.
End reads.
