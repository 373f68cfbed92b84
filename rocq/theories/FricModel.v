(** Model of the friction cone test of the parabolic jumps:
    SteeringMethodParabola::fiveth_constraint (src/planner/steering-method-parabola.cc:506-684,
    declared in include/hpp/rbprm/planner/steering-method-parabola.hh:92-94).  Exact reals.  What
    is only printed (x_plus, z_x_plus, y, ...) is left out. *)
From Verif Require Export Maps Vec ParaModel.
Local Open Scope R_scope.

(** steering-method-parabola.cc:543, 558, 650, 681: a failed assertion is undefined here *)
Definition checked (phi delta : R) : outcome (option R) :=
  if Rleb delta (phi + 1 / 100000) then Ok (Some delta) else Ub.

(** steering-method-parabola.cc:519-523 *)
Definition nonVertical (psi phi : R) : bool :=
  (Rltb psi (- phi) && Rleb (- PI / 2) psi) || (Rltb phi psi && Rltb psi (PI - phi)) ||
  (Rltb (PI + phi) psi && Rleb psi (3 * PI / 2)).

(** steering-method-parabola.cc:506-684; [n]: the three first extra entries of the
    configuration (lines 510-514).  [Ok None]: false, and delta is not written *)
Definition fiveth_constraint (mu : R) (n : vec3) (theta : R) : outcome (option R) :=
  let U := vx n in let V := vy n in let W := vz n in
  let phi := atan mu in
  let denomK := U * U + V * V - W * W * mu * mu in
  let tanThetaDef := negb (Reqb theta (PI / 2)) && negb (Reqb theta (- PI / 2)) in
  let psi := PI / 2 - atan2 W (U * cos theta + V * sin theta) in
  let epsilon := if negb (nonVertical psi phi) && Rltb denomK 0 then - 1 else 1 in
  if Rltb (- (1 / 1000000)) denomK && Rltb denomK (1 / 1000000) then
    if tanThetaDef then
      let t := tan theta in
      if negb (Reqb (U + V * t) 0) then
        let numH := mu * mu * (U * U + V * V * t * t) - U * U * t * t - V * V
                    + 2 * U * V * t * (1 + mu * mu) - W * W * (1 + t * t) in
        let H := - numH / (2 * (1 + mu * mu) * Rabs W * Rabs (U + V * t)) in
        checked phi (1 / 2 * acos (H / sqrt (1 + t * t + H * H)))
      else Ok (Some (PI / 4))
    else if negb (Reqb V 0) then
      let L := - (V * V * (1 + mu * mu) - 1) / (2 * (1 + mu * mu) * Rabs V * Rabs W) in
      checked phi (1 / 2 * acos (L / sqrt (1 + L * L)))
    else Ok None
  else if tanThetaDef then
    let t := tan theta in
    let discr := (U * U + W * W) * mu * mu - V * V - U * U * t * t
                 + (V * V + W * W) * mu * mu * t * t + 2 * (1 + mu * mu) * U * V * t in
    if Rltb discr 0 then Ok None
    else if Rltb discr (5 / 100) then Ok None
    else
      let K1 := (sqrt discr + U * W + U * W * mu * mu + V * W * t + V * W * mu * mu * t) / denomK in
      let K2 := (- sqrt discr + U * W + U * W * mu * mu + V * W * t + V * W * mu * mu * t) / denomK in
      checked phi (1 / 2 * acos (epsilon * (1 + t * t + K1 * K2) / sqrt ((1 + t * t + K1 * K1) * (1 + t * t + K2 * K2))))
  else
    let discr := - U * U + (V * V + W * W) * (mu * mu) in
    if Rltb discr 0 then Ok None
    else if Rltb discr (5 / 100) then Ok None
    else
      let G1 := ((1 + mu * mu) * V * W + sqrt discr) / denomK in
      let G2 := ((1 + mu * mu) * V * W - sqrt discr) / denomK in
      checked phi (1 / 2 * acos (epsilon * (1 + G1 * G2) / sqrt ((1 + G1 * G1) * (1 + G2 * G2)))).
