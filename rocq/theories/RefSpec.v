(** Specification vocabulary of the reference positions of the limbs. *)
From Coq Require Import Reals.
From Verif Require Import Maps Vec ProjModel RefModel.
Local Open Scope R_scope.

(** [v] turned by the unit quaternion w + u *)
Definition turned (w : R) (u v : vec3) : vec3 := vadd v (vadd (vscale (2 * w) (vcross u v)) (vscale 2 (vcross u (vcross u v)))).
(** a configuration whose entries 3 to 6 are a unit quaternion *)
Definition root_ok (q : list R) : Prop := exists px py pz x y z w rest,
  q = px :: py :: pz :: x :: y :: z :: w :: rest /\ w ^ 2 + x ^ 2 + y ^ 2 + z ^ 2 = 1.
(** the point of the world that has coordinates [p] in the root's frame at [q] is [x] *)
Definition seen_from_root (q : list R) (p x : vec3) : Prop := forall px py pz a b c w rest,
  q = px :: py :: pz :: a :: b :: c :: w :: rest -> x = vadd (V3 px py pz) (turned w (V3 a b c) p).
(** the last reference configuration given in a history, [q0] if there is none *)
Fixpoint last_given (q0 : list R) (h : list rop) : list R :=
  match h with
  | [] => q0
  | RRef q :: h' => last_given q h'
  | _ :: h' => last_given q0 h'
  end.
(** a limb named [id] (with contact, without) has been created *)
Definition has_added (id : string) (h : list rop) : Prop := exists eff off nor, RAdd id eff off nor None ∈ h.
Definition has_added_non (id : string) (h : list rop) : Prop := exists eff, RAddNon id eff None ∈ h.
(** all configurations given describe a root *)
Definition refs_ok (h : list rop) : Prop := forall q, RRef q ∈ h -> root_ok q.
(** a call after the history [h] that throws: the limb exists, or its creation fails *)
Definition throws_after (h : list rop) (o : rop) : Prop :=
  match o with
  | RAdd id _ _ _ fails => has_added id h \/ is_Some fails
  | RAddNon id _ fails => has_added_non id h \/ is_Some fails
  | _ => False
  end.
