(** Specification vocabulary for the tools. *)
From Verif Require Import Maps Vec ToolModel.
Local Open Scope R_scope.

Definition unit_quat (q : quat) : Prop := qdot q q = 1.
(** the opposite quaternion: the same rotation *)
Definition qopp (q : quat) : quat := qscale (-1) q.

(** [j'] is reached from [j] going down from parent to child, no joint on the way, [j] and
    [j'] included, being cut *)
Inductive reaches (cut : jnt -> Prop) : jnt -> jnt -> Prop :=
| reach_here j : ~ cut j -> reaches cut j j
| reach_down j k j' : ~ cut j -> k ∈ jkids j -> reaches cut k j' -> reaches cut j j'.

(** all the joints of a tree, and their names *)
Inductive in_tree : jnt -> jnt -> Prop :=
| in_here j : in_tree j j
| in_down j k j' : k ∈ jkids j -> in_tree k j' -> in_tree j j'.
Fixpoint names (j : jnt) : list string :=
  match j with Jnt n _ _ _ kids => n :: concat (map names kids) end.

(** a joint without its effector's collisions: the effector, its joint, and every last joint *)
Definition excluded (disable : bool) (eff effJoint : string) (j : jnt) : Prop :=
  disable = true /\ (jname j = eff \/ jname j = effJoint \/ jkids j = []).

(** a 3x3 matrix whose columns are orthonormal *)
Definition orthonormal (m : nat -> nat -> R) : Prop :=
  forall j k, (j < 3)%nat -> (k < 3)%nat ->
    m 0%nat j * m 0%nat k + m 1%nat j * m 1%nat k + m 2%nat j * m 2%nat k = (if (j =? k)%nat then 1 else 0).
(** the product of a matrix and a vector *)
Definition mat_vec (m : nat -> nat -> R) (x y z : R) : R * R * R :=
  let row i := m i 0%nat * x + m i 1%nat * y + m i 2%nat * z in (row 0%nat, row 1%nat, row 2%nat).
(** [m] has the entries that were written, anything elsewhere *)
Definition completes (w : nat -> nat -> option R) (m : nat -> nat -> R) : Prop :=
  forall i j v, w i j = Some v -> m i j = v.

(** going down stops after the joints that satisfy [stop], which are themselves visited *)
Inductive walks (cut stop : jnt -> Prop) : jnt -> jnt -> Prop :=
| walk_here j : ~ cut j -> walks cut stop j j
| walk_down j k j' : ~ cut j -> ~ stop j -> k ∈ jkids j -> walks cut stop k j' -> walks cut stop j j'.
(** [o] and the obstacles listed before it are all there for the joint *)
Definition present_up_to (S : pairs) (n : string) (os : list string) (o : string) : Prop :=
  exists l1 l2, os = l1 ++ o :: l2 /\ forall x, x ∈ l1 ++ [o] -> (n, x) ∈ S.

(** some obstacle is missing for the joint *)
Definition lacks (os : list string) (S : pairs) (j : jnt) : Prop := ~ forall o, o ∈ os -> (jname j, o) ∈ S.
(** [r] is the first registration of its kind *)
Definition first_of_kind (rs : list registration) (r : registration) : Prop :=
  exists l1 l2, rs = l1 ++ r :: l2 /\ forall r', r' ∈ l1 -> r_non r' <> r_non r.
