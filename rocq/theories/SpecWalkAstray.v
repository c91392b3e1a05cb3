(** * SpecWalkAstray: walks in builds without debug assertions, over any blocks.
    There a block that does not fit its place ([fits] of SpecWalkSteps.v: an entry
    called "." below another directory, or something else than a bucket behind a
    link to a bucket) is accepted; it makes the paths go astray, its own and
    those of later items, and may make the walk panic later.  Everything else is
    as for a block that fits. *)
From Verif Require Import Base Wire Cid Pb Reader Dir Walk SpecFile SpecDir SpecWalk SpecFileSteps SpecWalkSteps.

(** ** Paths as they are written: the texts between the slashes *)

(** these are no step of a path, unless they stand at its front *)
Definition blank (n : bytes) : bool := match n with [] => true | [x] => byte_eqb x x2e | _ => false end.
(** without blanks at the end *)
Fixpoint strip (l : list bytes) : list bytes :=
  match l with
  | [] => []
  | n :: r => match strip r with [] => if blank n then [] else [n] | r' => n :: r' end
  end.
(** one step up; not possible from the empty path *)
Definition up (l : list bytes) : option (list bytes) :=
  match l with
  | [] => None
  | first :: rest => Some (match strip rest with [] => [] | rest' => first :: strip (removelast rest') end)
  end.
Fixpoint ups (k : nat) (l : list bytes) : option (list bytes) :=
  match k with
  | O => Some l
  | S k => match up l with Some l' => ups k l' | None => None end
  end.
(** one step down; below "a/" as below "a" *)
Definition down (l : list bytes) (n : bytes) : list bytes :=
  match l with
  | [] => match n with [] => [] | _ => [n] end
  | _ => (match last l [] with [] => removelast l | _ => l end) ++ [n]
  end.

(** ** Where an item is put *)

(** from the path [l], which is meant to be [level] steps long, to the place [p]:
    up to its directory, and down by its name.  A block behind a link to a bucket
    is taken for an entry without a name, beside the directory. *)
Definition arrive (l : list bytes) (level : nat) (p : place) (t : ftype) : option (list bytes) :=
  match p with
  | AtRoot _ => Some (names p)
  | Entry dir name => option_map (fun l => down l name) (ups (level - length dir) l)
  | Bucket dir =>
    match t with
    | HAMTShard => ups (level - length dir) l
    | _ => option_map (fun l => down l []) (ups (S level - length dir) l)
    end
  end.

(** a fitting place on the same level *)
Definition stand_in (p : place) : place :=
  match p with
  | AtRoot name => AtRoot name
  | Entry dir name => Entry dir [x78]
  | Bucket dir => Entry (removelast dir) [x78]
  end.

Definition with_path (path : bytes) (it : continued) : continued :=
  match it with
  | WBucket c _ => WBucket c path
  | WDirectory c _ md => WDirectory c path md
  | WFile s c _ md size => WFile s c path md size
  | WRootDirectory c _ md => WRootDirectory c path md
  | WSymlink target c _ md => WSymlink target c path md
  end.

(** ** Calls *)

(** a state as in SpecWalkSteps.v, in which the names of directories do not count
    but their number does; the path of the last item, and its level *)
Record astray := Astray { a_state : state; a_path : list bytes; a_level : nat }.

Section steps.
Context (X : ext).

(** as in SpecWalkSteps.v, with a stand-in for the place if need be *)
Inductive enters_anyway (before : prior) (queue : list (cid * place)) (c : cid) (p : place) (f : flat)
    (r : outcome walk_error (continued * state)) : Prop :=
| a_fits : fits p (u_type (f_data f)) -> enters X before queue c p f r -> enters_anyway before queue c p f r
| a_misfit : ~ fits p (u_type (f_data f)) -> enters X before queue c (stand_in p) f r -> enters_anyway before queue c p f r.

Definition failure {A B} (r : outcome walk_error A) : outcome walk_error B :=
  match r with Ok _ => Panic | Err e => Err e | Panic => Panic | Diverge => Diverge end.

Inductive strays : astray -> bytes -> outcome walk_error (continued * astray) -> Prop :=
(** a further block of a file *)
| y_file : forall before r queue l n b it s', step X (State before (Some r) queue) b (Ok (it, s')) ->
    strays (Astray (State before (Some r) queue) l n) b (Ok (with_path (slashed l) it, Astray s' l n))
| y_file_fails : forall before r queue l n b res, step X (State before (Some r) queue) b res -> (forall a, res <> Ok a) ->
    strays (Astray (State before (Some r) queue) l n) b (failure res)
(** other blocks *)
| y_unparsable : forall before queue l n b res, step X (State before None queue) b res -> (forall f, try_parse false b <> Ok f) ->
    strays (Astray (State before None queue) l n) b (failure res)
| y_fails : forall before c p queue l n b f res, try_parse false b = Ok f -> enters_anyway before queue c p f res -> (forall a, res <> Ok a) ->
    strays (Astray (State before None ((c, p) :: queue)) l n) b (failure res)
| y_arrives : forall before c p queue l n b f it s' l', try_parse false b = Ok f -> enters_anyway before queue c p f (Ok (it, s')) ->
    arrive l n p (u_type (f_data f)) = Some l' ->
    strays (Astray (State before None ((c, p) :: queue)) l n) b (Ok (with_path (slashed l') it, Astray s' l' (length (names p))))
(** no way up from the empty path *)
| y_lost : forall before c p queue l n b f it s', try_parse false b = Ok f -> enters_anyway before queue c p f (Ok (it, s')) ->
    arrive l n p (u_type (f_data f)) = None ->
    strays (Astray (State before None ((c, p) :: queue)) l n) b Panic.

(** as [follows] of SpecWalkSteps.v *)
Inductive wanders (root : cid) (name : bytes) : list bytes -> list cid -> list continued -> astray -> Prop :=
| wan_begin : wanders root name [] [] [] (Astray (beginning root name) [] 0)
| wan_next : forall bs asked items a c others b it a', wanders root name bs asked items a ->
    awaited (a_state a) = c :: others -> strays a b (Ok (it, a')) ->
    wanders root name (bs ++ [b]) (asked ++ [c]) (items ++ [it]) a'.

End steps.
