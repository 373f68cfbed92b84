(** Model of SteeringMethodParabola::compute_random_3D_path
    (src/planner/steering-method-parabola.cc:349-438): a jump with a random angle and a
    random speed towards a configuration.  Doubles are reals. *)
From Verif Require Export Maps Vec ParaModel.
Local Open Scope R_scope.

(** The members alpha_1_plus_ and alpha_1_minus_ (steering-method-parabola.hh:187-188).  No
    constructor and no function of the library assigns them before they are read: what the
    first call finds in them is whatever the memory held, here an arbitrary real *)
Record angles := Angles { a_plus : R; a_minus : R }.

(** What a call gives: the path if any, the angle and the speed written to the pointers
    (:383-384), and the members afterwards (:375-376) *)
Record drawn := Drawn { d_path : option ppath; d_alpha : R; d_speed : R; d_angles : angles }.

Section random.
(** RbPrmPathValidation::validate without filter (:358, :427-428) *)
Context (validate : ppath -> bool) (s : steering).
(** the content of V0_ and Vimp_ of a path made by the constructor that is not given them:
    vectors of size three that are not initialised (parabola-path.cc:41-42) *)
Context (raw0 rawimp : vec3).

(** steering-method-parabola.cc:349-438; [r1] and [r2] are the two values of
    rand() / RAND_MAX (:381-382).  The HPP_DEBUG block (:411-422) only logs *)
Definition compute_random_3D_path (m : angles) (r1 r2 : R) (q1 q2 : config) : drawn :=
  let X := qi q2 0 - qi q1 0 in
  let Y := qi q2 1 - qi q1 1 in
  let theta := atan2 Y X in
  let x_theta_0 := cos theta * qi q1 0 + sin theta * qi q1 1 in
  let x_theta_imp := cos theta * qi q2 0 + sin theta * qi q2 1 in
  let m' := if Rltb (a_minus m) 0 then Angles (a_plus m) 0 else m in
  let interval := (a_plus m' - a_minus m') / 2 in
  let alpha := r1 * interval + a_minus m' in
  let v := r2 * s_V0max s in
  let f := randomTarget (s_g s) theta q1 alpha v in
  let X' := vx f - qi q1 0 in
  let Y' := vy f - qi q1 1 in
  let Z' := vz f - qi q1 2 in
  let qnew := <[2%nat := vz f]> (<[1%nat := vy f]> (<[0%nat := vx f]> q2)) in
  let X_theta := X' * cos theta + Y' * sin theta in
  let '(c, _, _) := computeCoefficients s alpha theta X_theta Z' x_theta_0 (qi q1 2) in
  let pp := PPath q1 qnew (p_computeLength c q1 qnew) c raw0 rawimp [] [] in
  Drawn (if negb (validate pp) || negb (maxHeightRespected s c x_theta_0 x_theta_imp) then None else Some pp)
        alpha v m'.
End random.
