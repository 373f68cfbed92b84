(** Model of [hpp::rbprm::State] (src/rbprm-state.cc, include/hpp/rbprm/rbprm-state.hh)
    and of the way [projection::projectEffector] records a contact. *)
From Coq Require Import ZArith.
From Verif Require Export Maps.

(** include/hpp/rbprm/rbprm-state.hh:120-128.  [Cfg] configurations, [Pos]
    vectors, [Rot] rotation matrices, [Rob] the robustness value.  [nbContacts]
    is a [size_t], kept in [Z] and always changed with [wdec]/[winc]. *)
Record State (Cfg Pos Rot Rob : Type) := mkState {
  configuration : Cfg;
  contacts : gmap string bool;
  normals : gmap string Pos;
  positions : gmap string Pos;
  rotations : gmap string Rot;
  order : list string;          (* std::queue, front = head *)
  nbContacts : Z;
  stable : bool;
  robustness : Rob
}.
Arguments mkState {Cfg Pos Rot Rob}.
Arguments configuration {Cfg Pos Rot Rob}.
Arguments contacts {Cfg Pos Rot Rob}.
Arguments normals {Cfg Pos Rot Rob}.
Arguments positions {Cfg Pos Rot Rob}.
Arguments rotations {Cfg Pos Rot Rob}.
Arguments order {Cfg Pos Rot Rob}.
Arguments nbContacts {Cfg Pos Rot Rob}.
Arguments stable {Cfg Pos Rot Rob}.
Arguments robustness {Cfg Pos Rot Rob}.

Section State.
Context {Cfg Pos Rot Rob : Type}.
Notation St := (State Cfg Pos Rot Rob).

(** rbprm-state.hh:41 default constructor: maps and queue empty, nbContacts 0,
    stable false.  [configuration_] is an empty vector and [robustness] is left
    uninitialised: both are arbitrary parameters here. *)
Definition state_default (c0 : Cfg) (r0 : Rob) : St :=
  mkState c0 ∅ ∅ ∅ ∅ [] 0 false r0.

(** rbprm-state.cc:22-32 copy constructor *)
Definition state_copy (other : St) : St :=
  mkState (configuration other) (contacts other) (normals other) (positions other)
    (rotations other) (order other) (nbContacts other) (stable other) (robustness other).

(** rbprm-state.cc:34-48 operator=: [this] keeps its [robustness].  (The guard
    against self assignment has no effect on the result.) *)
Definition state_assign (this other : St) : St :=
  mkState (configuration other) (contacts other) (normals other) (positions other)
    (rotations other) (order other) (nbContacts other) (stable other) (robustness this).

(** rbprm-state.cc:60-66: the queue is rebuilt without the removed id *)
Fixpoint queue_without (id : string) (q : list string) : list string :=
  match q with
  | [] => []
  | x :: q' => if bool_decide (id = x) then queue_without id q' else x :: queue_without id q'
  end.

(** rbprm-state.cc:50-71 *)
Definition RemoveContact (id : string) (s : St) : bool * St :=
  if has id (contacts s) then
    (true, mkState (configuration s) (delete id (contacts s)) (delete id (normals s))
       (delete id (positions s)) (delete id (rotations s)) (queue_without id (order s))
       (wdec (nbContacts s)) false (robustness s))
  else (false, s).

(** rbprm-state.cc:73-85 *)
Definition RemoveFirstContact (s : St) : string * St :=
  match order s with
  | [] => (""%string, s)
  | id :: q =>
    (id, mkState (configuration s) (delete id (contacts s)) (delete id (normals s))
       (delete id (positions s)) (delete id (rotations s)) q (wdec (nbContacts s)) false
       (robustness s))
  end.

(** src/projection/projection.cc:426-439 (projectEffector): how a contact is
    recorded in a copy of the current state once the configuration [cfg] was
    found; [p], [r] are the effector placement in [cfg], [n] the normal.
    The same statements, without the [++nbContacts], are in findValidCandidate
    (modelled in GenModel.v). *)
Definition addContact (id : string) (cfg : Cfg) (p n : Pos) (r : Rot) (s : St) : St :=
  mkState cfg (<[id := true]> (contacts s)) (<[id := n]> (normals s))
    (<[id := p]> (positions s)) (<[id := r]> (rotations s)) (order s ++ [id])
    (winc (nbContacts s)) (stable s) (robustness s).

(** The relation "(a-b).norm() > 0.01" of rbprm-state.cc:97 *)
Variable moved : Pos -> Pos -> bool.

(** rbprm-state.cc:93-98: is [name] (at position [p] in this) new w.r.t. previous? *)
Definition isNew (prev : St) (name : string) (p : Pos) : bool :=
  match positions prev !! name with
  | Some q => moved q p
  | None => true
  end.

(** rbprm-state.cc:87-104, [out] is the in/out vector *)
Definition contactCreations_into (this prev : St) (out : list string) : list string :=
  fold_left (fun out '(name, p) =>
     if isNew prev name p && negb (inb name out) then out ++ [name] else out)
    (sitems (positions this)) out.

(** rbprm-state.cc:117-121 *)
Definition contactCreations (this prev : St) : list string :=
  contactCreations_into this prev [].

(** rbprm-state.cc:106-115 *)
Definition contactBreaks_into (this prev : St) (out : list string) : list string :=
  contactCreations_into prev this out.
Definition contactBreaks (this prev : St) : list string :=
  contactBreaks_into this prev [].

(** rbprm-state.cc:147-152 *)
Definition contactVariations (this prev : St) : list string :=
  contactBreaks_into this prev (contactCreations_into this prev []).

(** rbprm-state.cc:154-167 *)
Definition fixedContacts (this prev : St) : list string :=
  let variations := contactVariations this prev in
  filter (fun name => inb name variations = false) (skeys (positions this)).

(** rbprm-state.cc:169-181 *)
Definition allVariations (this prev : St) (allEffectors : list string) : list string :=
  let fixed := fixedContacts this prev in
  filter (fun name => inb name fixed = false) allEffectors.

(** rbprm-state.cc:126-139: [current.contacts_.at(eff)] throws std::out_of_range
    when [eff] has no entry; it is only evaluated if [eff] is not a variation. *)
Fixpoint freeLimbMotions (allEffectors variations : list string) (current : St)
  : outcome (list string) :=
  match allEffectors with
  | [] => Ok []
  | eff :: l =>
    if inb eff variations then freeLimbMotions l variations current
    else match contacts current !! eff with
         | None => Throw
         | Some b =>
           match freeLimbMotions l variations current with
           | Ok res => Ok (if (b : bool) then res else eff :: res)
           | o => o
           end
         end
  end.

(** rbprm-state.cc:142-145 *)
Definition freeVariations (this prev : St) (allEffectors : list string) : outcome (list string) :=
  freeLimbMotions allEffectors (contactVariations this prev) this.

(** rbprm-state.hh:140-152 *)
Definition freeEffectors (s : St) (effs : list string) : list string :=
  filter (fun eff => match contacts s !! eff with Some true => false | _ => true end = true) effs.

(** rbprm-state.cc:217-219, 244-248: printInternal / print advance an iterator
    over contactNormals_ nbContacts times, dereferencing it each time;
    dereferencing end() is undefined behaviour; [.at(name)] throws when the
    position or rotation is missing.  The model returns the names printed (the
    text of the numbers is not modelled). *)
Fixpoint print_names (s : St) (n : nat) (it : list string) : outcome (list string) :=
  match n with
  | O => Ok []
  | S n' =>
    match it with
    | [] => Ub
    | name :: it' =>
      if has name (positions s) && has name (rotations s) then
        match print_names s n' it' with
        | Ok l => Ok (name :: l)
        | o => o
        end
      else Throw
    end
  end.
Definition printInternal_names (s : St) : outcome (list string) :=
  print_names s (Z.to_nat (nbContacts s)) (skeys (normals s)).

End State.

(** Operation histories of a State, used by the consistency property: contact
    recording by projectEffector on a limb not in contact (its callers remove
    the limb first or only use free limbs), RemoveContact, RemoveFirstContact. (rbprm-state.cc:34-104) *)
Inductive state_op (Cfg Pos Rot : Type) :=
| OpAdd (id : string) (cfg : Cfg) (p n : Pos) (r : Rot)
| OpRemove (id : string)
| OpRemoveFirst.
Arguments OpAdd {Cfg Pos Rot}.
Arguments OpRemove {Cfg Pos Rot}.
Arguments OpRemoveFirst {Cfg Pos Rot}.

(** projectStateToObstacle (projection.cc:663-683): the limb is first removed,
    then the contact is recorded; on a limb without contact the removal is the
    identity. *)
Definition state_step {Cfg Pos Rot Rob} (s : State Cfg Pos Rot Rob) (o : state_op Cfg Pos Rot)
  : State Cfg Pos Rot Rob :=
  match o with
  | OpAdd id cfg p n r => addContact id cfg p n r (snd (RemoveContact id s))
  | OpRemove id => snd (RemoveContact id s)
  | OpRemoveFirst => snd (RemoveFirstContact s)
  end.
