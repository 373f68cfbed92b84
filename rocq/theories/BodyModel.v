(** Model of the limb registry, heuristic registry and effector trajectories of
    src/rbprm-fullbody.cc. *)
From Verif Require Export Maps.

(** A limb: the joint it starts at ([limb_->name()]) and the rest of it. (rbprm-limb.hh:122-138) *)
Record Limb (D : Type) := mkLimb { joint : string; data : D }.
Arguments mkLimb {D}.
Arguments joint {D}.
Arguments data {D}.

(** include/hpp/rbprm/rbprm-fullbody.hh, data members limbs_, nonContactingLimbs_,
    limbcollisionValidations_, limbGroups_ and factory_.heuristics_.
    Simplified: collisionValidation_ (the body's own collision pairs) is left out. (rbprm-fullbody.hh:187-205) *)
Record body (D V H : Type) := mkBody {
  limbs : gmap string (Limb D);
  nonContactingLimbs : gmap string (Limb D);
  validations : gmap string V;
  groups : gmap string (list string);
  heuristics : gmap string H
}.
Arguments mkBody {D V H}.
Arguments limbs {D V H}.
Arguments nonContactingLimbs {D V H}.
Arguments validations {D V H}.
Arguments groups {D V H}.
Arguments heuristics {D V H}.

Section body.
Context {D V H : Type}.
Notation Body := (body D V H).

(** rbprm-fullbody.cc:353-365: an empty registry with the factory's heuristics
    (heuristic.cc:315-338), of which only "static" matters here *)
Definition new_body (builtin : gmap string H) : Body := mkBody ∅ ∅ ∅ ∅ builtin.

(** std::map::insert: keeps an existing entry (used at rbprm-fullbody.cc:103-121, 295, 302) *)
Definition insert_new {A} (k : string) (v : A) (m : gmap string A) : gmap string A :=
  if has k m then m else <[k := v]> m.

(** rbprm-fullbody.cc:114-122 *)
Definition add_to_group (name id : string) (g : gmap string (list string)) : gmap string (list string) :=
  match g !! name with
  | Some l => <[name := l ++ [id]]> g
  | None => <[name := [id]]> g
  end.

(** rbprm-fullbody.cc:62-123; [l] is the limb made, [v] its collision validation *)
Definition AddLimbPrivate (l : Limb D) (v : V) (id name : string) (non : bool) (b : Body) : Body :=
  mkBody (if non then limbs b else insert_new id l (limbs b))
    (if non then insert_new id l (nonContactingLimbs b) else nonContactingLimbs b)
    (insert_new id v (validations b)) (add_to_group name id (groups b)) (heuristics b).

(** rbprm-fullbody.cc:125-140: true iff it returns, false iff it throws *)
Definition checkLimbData (id : string) (m : gmap string (Limb D)) (b : Body) (heuristic : string) : bool :=
  negb (has id m) && has heuristic (heuristics b).

(** Answers of the operations: the exception, or the returned boolean ([true]
    for a void function) *)
(** rbprm-fullbody.cc:142-160 and 176-192 (with [name] the joint read from the
    database): [made] is what joint lookup and RbPrmLimb::create yield, [None]
    if they throw *)
Definition AddLimb (id name heuristic : string) (made : option (D * V)) (b : Body) : Body * outcome bool :=
  if checkLimbData id (limbs b) b heuristic then
    match made with
    | Some (d, v) => (AddLimbPrivate (mkLimb name d) v id name false b, Ok true)
    | None => (b, Throw)
    end
  else (b, Throw).

(** rbprm-fullbody.cc:162-174 *)
Definition AddNonContactingLimb (id name : string) (made : option (D * V)) (b : Body) : Body * outcome bool :=
  if checkLimbData id (nonContactingLimbs b) b "static" then
    match made with
    | Some (d, v) => (AddLimbPrivate (mkLimb name d) v id name true b, Ok true)
    | None => (b, Throw)
    end
  else (b, Throw).

(** rbprm-fullbody.cc:194-211 *)
Definition GetLimb (name : string) (onlyWithContact : bool) (b : Body) : outcome (Limb D) :=
  match limbs b !! name with
  | Some l => Ok l
  | None =>
    if onlyWithContact then Throw
    else match nonContactingLimbs b !! name with Some l => Ok l | None => Throw end
  end.

(** rbprm-fullbody.cc:292-308 *)
Definition toggleNonContactingLimb (name : string) (b : Body) : Body * outcome bool :=
  match limbs b !! name with
  | Some l =>
    (mkBody (delete name (limbs b)) (insert_new name l (nonContactingLimbs b)) (validations b)
       (groups b) (heuristics b), Ok true)
  | None =>
    match nonContactingLimbs b !! name with
    | Some l =>
      (mkBody (insert_new name l (limbs b)) (delete name (nonContactingLimbs b)) (validations b)
         (groups b) (heuristics b), Ok true)
    | None => (b, Ok false)
    end
  end.

(** rbprm-fullbody.cc:57-60 and sampling/heuristic.cc:342-347 *)
Definition AddHeuristic (name : string) (f : H) (b : Body) : Body * outcome bool :=
  if has name (heuristics b) then (b, Ok false)
  else (mkBody (limbs b) (nonContactingLimbs b) (validations b) (groups b)
          (<[name := f]> (heuristics b)), Ok true).

(** The calls a user can make (rbprm-fullbody.cc:78-310) *)
Inductive body_op :=
| OAddLimb (id name heuristic : string) (made : option (D * V))
| OAddNonContacting (id name : string) (made : option (D * V))
| OToggle (name : string)
| OAddHeuristic (name : string) (f : H).
Definition body_call (o : body_op) (b : Body) : Body * outcome bool :=
  match o with
  | OAddLimb id name heur made => AddLimb id name heur made b
  | OAddNonContacting id name made => AddNonContactingLimb id name made b
  | OToggle name => toggleNonContactingLimb name b
  | OAddHeuristic name f => AddHeuristic name f b
  end.
Definition body_run (ops : list body_op) (b : Body) : Body :=
  fold_left (fun b o => fst (body_call o b)) ops b.
End body.
Arguments body_op : clear implicits.

(** ** Effector trajectories: effectorsTrajectoriesMaps_ *)
Section trajectories.
Context {T : Type}.
Notation store := (gmap nat (gmap string (list T))).

(** rbprm-fullbody.cc:213-232 *)
Definition addEffectorTrajectories (p : nat) (e : string) (l : list T) (s : store) : store * bool :=
  match s !! p with
  | None => (<[p := {[e := l]}]> s, true)
  | Some m => match m !! e with
              | Some _ => (s, false)
              | None => (<[p := <[e := l]> m]> s, true)
              end
  end.
(** rbprm-fullbody.cc:234-269 *)
Definition addEffectorTrajectory (p : nat) (e : string) (t : T) (s : store) : store * bool :=
  match s !! p with
  | None => (<[p := {[e := [t]]}]> s, true)
  | Some m => match m !! e with
              | None => (<[p := <[e := [t]]> m]> s, true)
              | Some l => (<[p := <[e := l ++ [t]]> m]> s, true)
              end
  end.
(** rbprm-fullbody.cc:271-278: returned boolean and content of [result] *)
Definition getEffectorsTrajectories (p : nat) (result : gmap string (list T)) (s : store)
  : bool * gmap string (list T) :=
  match s !! p with None => (false, result) | Some m => (true, m) end.
(** rbprm-fullbody.cc:280-290 *)
Definition getEffectorTrajectory (p : nat) (e : string) (result : list T) (s : store) : bool * list T :=
  match s !! p with
  | None => (false, result)
  | Some m => match m !! e with None => (false, result) | Some l => (true, l) end
  end.

Inductive traj_op :=
| OSet (p : nat) (e : string) (l : list T)
| OAppend (p : nat) (e : string) (t : T).
Definition traj_call (o : traj_op) (s : store) : store * bool :=
  match o with
  | OSet p e l => addEffectorTrajectories p e l s
  | OAppend p e t => addEffectorTrajectory p e t s
  end.
Definition traj_run (ops : list traj_op) : store := fold_left (fun s o => fst (traj_call o s)) ops ∅.
End trajectories.
Arguments traj_op : clear implicits.
