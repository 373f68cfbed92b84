(** Specification vocabulary for the steering method under time-dependent constraints. *)
From Verif Require Import Maps Vec ParaModel ParaSpec TrajModel TrajSpec SteerModel.
Local Open Scope R_scope.


(** projecting a configuration that satisfies the constraints leaves it where it is *)
Definition stable (c : constraintSet) : Prop :=
  match c with
  | NoProjector apply sat => forall q, sat q = true -> apply q = (q, true)
  | Projector apply sat => forall w q, sat w q = true -> apply w q = (q, true)
  end.

(** the program calls the steering method and uses the paths it returned *)
Inductive action := Call (q1 q2 : config) | Use (u : use).
Definition perform (d : device) distance copyFrom (s : steering) (a : action) (w : world) : world :=
  match a with
  | Call q1 q2 => fst (steer distance copyFrom s q1 q2 w)
  | Use u => useWorld d u w
  end.
Definition afterActions (d : device) distance copyFrom (s : steering) (l : list action) (w : world) : world :=
  fold_left (fun w a => perform d distance copyFrom s a w) l w.
(** only paths of this steering method are used *)
Definition ownPaths (s : steering) (l : list action) : Prop :=
  forall u, Use u ∈ l -> tc_tds (usedPath u) = st_tds s.
