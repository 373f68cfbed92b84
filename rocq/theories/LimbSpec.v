(** Specification vocabulary for limbs and their samples. *)
From Coq Require Import Reals ZArith.
From Verif Require Import ProjModel ProjSpec SampModel SampSpec LimbModel.

Section samples.
Local Open Scope R_scope.
Variables (effT limbT : list R -> se3) (parentT : option (list R -> se3)) (jac : list R -> matrix R) (det : matrix R -> R).
Variables (start stop : nat).
Variables (offset limbOffset : vec3).

Definition pt (p : R * R * R) : vec3 := V3 (fst (fst p)) (snd (fst p)) (snd p).
(** the frame samples are expressed in: the limb's parent, or the limb when it has none *)
Definition base (k : list R) : se3 := match parentT with Some p => p k | None => limbT k end.

(** [s] is sample [i], holding the joint values of [conf] and the geometry of the robot at
    [k]: placed in the base frame, its effector position is the effector's plus the offset;
    its position in the limb's frame is the vector to that point from the limb's origin
    shifted by the limb's offset; the jacobian and its product with its transpose *)
Record sample_at (i : nat) (conf k : list R) (s : sample R) : Prop := {
  sa_id : sid s = i;
  sa_start : startRank (content s) = start;
  sa_length : slength (content s) = (stop - start)%nat;
  sa_conf : length (configuration (content s)) = (stop - start)%nat /\
    forall j, (j < stop - start)%nat -> configuration (content s) !! j = conf !! (start + j)%nat;
  sa_position : se3act (base k) (pt (effectorPosition (content s))) = vadd (tra (effT k)) offset;
  sa_limb : vadd (pt (effectorPositionInLimbFrame (content s))) (se3act (limbT k) limbOffset) = vadd (tra (effT k)) offset;
  sa_jac : jacobian (content s) = jac k;
  sa_size : mrows (jacobianProduct (content s)) = mrows (jac k) /\ mcols (jacobianProduct (content s)) = mrows (jac k) /\
    length (mdata (jacobianProduct (content s))) = (mrows (jac k) * mrows (jac k))%nat;
  sa_product : forall a b, (a < mrows (jac k))%nat -> (b < mrows (jac k))%nat ->
    entry (jacobianProduct (content s)) a b = fold_right Rplus 0 (map (fun c => entry (jac k) a c * entry (jac k) b c) (seq 0 (mcols (jac k))));
  sa_static : 0 <= sstatic s /\
    ((0 < det (jacobianProduct (content s)) /\ sstatic s * sstatic s = det (jacobianProduct (content s))) \/
     (det (jacobianProduct (content s)) <= 0 /\ sstatic s = 0))
}.
(** placements are rotations and translations *)
Definition rigid : Prop := forall k, is_rotation (rot (base k)).
End samples.

(** what a limb read from a file keeps of the one saved *)
Section text.
Context {T : Type} (rnd : T -> T).
Definition rnd9 (m : (T * T * T) * (T * T * T) * (T * T * T)) :=
  let '(a, b, c) := m in (rnd3 rnd a, rnd3 rnd b, rnd3 rnd c).
Record limb_kept (l l' : limbFile T) : Prop := {
  lk_name : limbName l' = limbName l;
  lk_effector : effectorName l' = effectorName l;
  lk_rotation : defaultRotation l' = rnd9 (defaultRotation l);
  lk_offset : offset_ l' = rnd3 rnd (offset_ l);
  lk_normal : normal_ l' = rnd3 rnd (normal_ l);
  lk_x : x_ l' = rnd (x_ l);
  lk_y : y_ l' = rnd (y_ l);
  lk_type : contactType_ l' = contactType_ l
}.
(** single line names, a contact type of the enumeration, a storable database *)
Definition storable_limb (l : limbFile T) : Prop :=
  nl ∉ String.list_ascii_of_string (limbName l) /\ nl ∉ String.list_ascii_of_string (effectorName l) /\
  (0 <= contactType_ l <= 2)%Z /\ storable (database l).
End text.

(** [n] is the joint at the end of the chain of first children from [j] *)
Inductive first_leaf : jtree -> string -> Prop :=
| FLeaf n : first_leaf (Node n []) n
| FChild n c cs m : first_leaf c m -> first_leaf (Node n (c :: cs)) m.
