(** Concrete states used to show that hypotheses of the State theorems are met,
    and witnesses of the refutations. *)
From Coq Require Import ZArith Reals Lra.
From Verif Require Import Maps MapsProofs StateModel StateSpec StateProofs Vec VecProofs StateReal StateRealProofs.
Local Open Scope string_scope.

(** three contacts, created in the order lh, rf, lf, built by the operations *)
Definition ex3_ops : list (state_op nat nat nat) :=
  [OpAdd "lh" 1 10 0 0; OpAdd "rf" 2 20 0 0; OpAdd "lf" 3 30 0 0].
Definition ex3 : State nat nat nat nat := fold_left state_step ex3_ops (state_default 0 0).

Lemma ex3_consistent : consistent ex3.
Proof. apply consistent_history. Qed.

(** two real states: "lf" kept, "rf" moved by 1 m, "lh" broken, "rh" created *)
Definition pA : vec3 := V3 0 0 0.
Definition pB : vec3 := V3 1 0 0.
Definition exFrom : State nat vec3 nat nat :=
  fold_left state_step [OpAdd "lf" 1 pA pA 0; OpAdd "rf" 1 pA pA 0; OpAdd "lh" 1 pA pA 0] (state_default 0 0).
Definition exTo : State nat vec3 nat nat :=
  fold_left state_step [OpAdd "lf" 1 pA pA 0; OpAdd "rf" 1 pB pA 0; OpAdd "rh" 1 pA pA 0] (state_default 0 0).

Lemma exFrom_consistent : consistent exFrom.
Proof. apply consistent_history. Qed.
Lemma exTo_consistent : consistent exTo.
Proof. apply consistent_history. Qed.

Lemma dist_AB : dist3 pA pB = 1%R.
Proof.
  unfold dist3, vnorm, vnorm2, vdot, vsub, pA, pB. simpl.
  replace ((0 - 1) * (0 - 1) + (0 - 0) * (0 - 0) + (0 - 0) * (0 - 0))%R with 1%R by ring. apply sqrt_1.
Qed.

Lemma ex_displacement : displacement exFrom exTo "rf" 1.
Proof. exists pA, pB. split_and!; [reflexivity..|]. symmetry. apply dist_AB. Qed.

(** a hand-filled table with an entry for every effector, as freeVariations needs *)
Definition exTotal : State nat vec3 nat nat :=
  mkState 0 {["lf" := true; "rf" := false; "lh" := false]} {["lf" := pA]} {["lf" := pA]} {["lf" := 0]}
    ["lf"] 1 false 0.

Lemma state_assign_fields {Cfg Pos Rot Rob} (this other : State Cfg Pos Rot Rob) :
  let s := state_assign this other in
  configuration s = configuration other /\ contacts s = contacts other /\ normals s = normals other /\
  positions s = positions other /\ rotations s = rotations other /\ order s = order other /\
  nbContacts s = nbContacts other /\ stable s = stable other /\
  (s = other <-> robustness this = robustness other).
Proof.
  destruct this, other. unfold state_assign. simpl. split_and!; try done. split; [congruence|]. by intros ->.
Qed.

Lemma state_assign_drops_robustness : exists this other : State nat nat nat nat,
  consistent this /\ consistent other /\ state_assign this other <> other.
Proof.
  exists (state_default 0 0), (state_default 0 1).
  split_and!; try apply consistent_default. done.
Qed.
