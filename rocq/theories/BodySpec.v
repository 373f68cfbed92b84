(** Specification vocabulary for the registries. *)
From Verif Require Import Maps BodyModel.

Section spec.
Context {D V H : Type}.
Notation Body := (body D V H).

(** [id] names limb [l], contacting or not *)
Definition names_limb (b : Body) (id : string) (l : Limb D) : Prop :=
  limbs b !! id = Some l \/ nonContactingLimbs b !! id = Some l.
Definition registered (b : Body) (id : string) : Prop := exists l, names_limb b id l.
(** [id] is listed in the group of joint [g] *)
Definition listed (b : Body) (g id : string) : Prop := exists l, groups b !! g = Some l /\ id ∈ l.

(** What a user expects of the registry *)
Record well_registered (b : Body) : Prop := {
  (* a name denotes at most one limb *)
  wr_unique : forall id, limbs b !! id = None \/ nonContactingLimbs b !! id = None;
  (* a registered limb is listed in the group of its joint, and in no other; nothing else is listed *)
  wr_listed : forall id l, names_limb b id l -> forall g, listed b g id <-> g = joint l;
  wr_groups : forall g id, listed b g id -> registered b id;
  (* and only once *)
  wr_once : forall g l, groups b !! g = Some l -> NoDup l;
  (* it has a collision validation *)
  wr_validation : forall id, registered b id <-> is_Some (validations b !! id)
}.

(** No id is added as one kind of limb while it is one of the other kind *)
Fixpoint no_reuse (ops : list (body_op D V H)) (b : Body) : Prop :=
  match ops with
  | [] => True
  | o :: ops' =>
    match o with
    | OAddLimb id _ _ _ => nonContactingLimbs b !! id = None
    | OAddNonContacting id _ _ => limbs b !! id = None
    | _ => True
    end /\ no_reuse ops' (fst (body_call o b))
  end.
End spec.

(** What a history of calls registers for the pair ([p],[e]): the calls about
    other pairs do not matter, the first call creates the list, [OSet] then does
    nothing and [OAppend] appends *)
Fixpoint registered_list {T} (p : nat) (e : string) (ops : list (traj_op T)) (cur : option (list T))
  : option (list T) :=
  match ops with
  | [] => cur
  | OSet p' e' l :: ops' =>
    registered_list p e ops'
      (if decide (p' = p /\ e' = e) then Some (default l cur) else cur)
  | OAppend p' e' t :: ops' =>
    registered_list p e ops'
      (if decide (p' = p /\ e' = e) then Some (default [] cur ++ [t]) else cur)
  end.
