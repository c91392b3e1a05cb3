(** * SpecRunsAstray: the program get in builds without debug assertions, on any
    disk at all: as in SpecRuns.v, over the states of SpecWalkAstray.v. *)
From Verif Require Import Base Wire Utf8 Cid Pb Reader Dir Walk SpecAdder SpecFile SpecDir SpecWalk.
From Verif Require SpecWalkSteps.
From Verif Require Import SpecWalkAstray Programs SpecPrograms SpecRuns.

Section runs.
Context (X : ext) (fs : disk) (dir : bytes).

Inductive get_astray : astray -> outcome (program_error walk_error) unit -> list line -> Prop :=
| ga_end : forall a, SpecWalkSteps.awaited (a_state a) = [] -> get_astray a (Ok tt) []
| ga_unreadable : forall a c others err, SpecWalkSteps.awaited (a_state a) = c :: others -> unreadable fs dir c err -> get_astray a (Err err) []
| ga_error : forall a c others b e, SpecWalkSteps.awaited (a_state a) = c :: others -> on_disk fs dir c (Contents b) ->
    strays X a b (Err e) -> get_astray a (Err (Traversal_ e)) []
| ga_panic : forall a c others b, SpecWalkSteps.awaited (a_state a) = c :: others -> on_disk fs dir c (Contents b) ->
    strays X a b Panic -> get_astray a Panic []
(** a symlink whose target is no text *)
| ga_no_text : forall a c others b target d path md a', SpecWalkSteps.awaited (a_state a) = c :: others -> on_disk fs dir c (Contents b) ->
    strays X a b (Ok (WSymlink target d path md, a')) -> utf8_valid target = false -> get_astray a Panic []
| ga_next : forall a c others b it a' ls res more, SpecWalkSteps.awaited (a_state a) = c :: others -> on_disk fs dir c (Contents b) ->
    strays X a b (Ok (it, a')) -> prints it ls -> get_astray a' res more -> get_astray a res (ls ++ more).

End runs.
