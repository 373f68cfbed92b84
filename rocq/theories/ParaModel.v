(** Model of the parabolic jumps: src/planner/steering-method-parabola.cc,
    src/planner/parabola-path.cc, src/planner/timed-parabola-path.cc.
    Doubles are reals, the trigonometric functions those of the standard library. *)
From Verif Require Export Maps Vec.
Local Open Scope R_scope.

(** std::atan2(y, x) of <cmath> (used at steering-method-parabola.cc:95) *)
Definition atan2 (y x : R) : R :=
  if Rltb 0 x then atan (y / x)
  else if Rltb x 0 then (if Rleb 0 y then atan (y / x) + PI else atan (y / x) - PI)
  else if Rltb 0 y then PI / 2 else if Rltb y 0 then - (PI / 2) else 0.

(** A configuration is the vector of its entries; the first three are the position of the
    root, the last [ecs] ones the extra configuration space.
    Simplified: an entry read out of range is 0 (the configurations have all their entries) (steering-method-parabola.cc:86-91) *)
Notation config := (list R).
Definition qi (q : config) (i : nat) : R := nth i q 0.
Definition qpos (q : config) : vec3 := V3 (qi q 0) (qi q 1) (qi q 2).

(** The device: configSize(), the dimension of the extra configuration space, and
    pinocchio::interpolate(device, q0, q1, u, result) of hpp-pinocchio, which writes every
    entry of its result *)
Record device := Dev { csize : nat; ecs : nat; interp : config -> config -> R -> config }.
(** index of the first extra entry (steering-method-parabola.cc:83-85,
    parabola-path.cc:144, timed-parabola-path.cc:154-156) *)
Definition indexEcs (d : device) : nat := (csize d - ecs d)%nat.

(** The seven coefficients of steering-method-parabola.cc:766-777 *)
Record coefs := Coefs { k0 : R; k1 : R; k2 : R; k_theta : R; k_alpha : R; k_xdot : R; k_x0 : R }.

(** * ParabolaPath *)
(** parabola-path.hh:164-191, 237-242 *)
Record ppath := PPath { p_init : config; p_end : config; p_len : R; p_coefs : coefs;
                        p_V0 : vec3; p_Vimp : vec3; p_roms0 : list string; p_roms1 : list string }.

(** parabola-path.cc:145: for (i < ecsDim) result(indexECS + i) = 0 *)
Fixpoint zeroExtra (index n : nat) (q : config) : config :=
  match n with
  | O => q
  | S n' => zeroExtra (S index) n' (<[index := 0]> q)
  end.

(** parabola-path.cc:94-147.  [res] is the content of the result before the call: the three
    entries of the position are written (lines 119-123) and then the whole result is
    overwritten by interpolate (line 125) *)
Definition interpolateInto (d : device) (q0 q1 : config) (u : R) (res : config) : config := interp d q0 q1 u.
Definition p_compute (d : device) (p : ppath) (res : config) (param : R) : config :=
  if Reqb param 0 || Reqb (qi (p_init p) 0) (qi (p_end p) 0) then p_init p
  else if Rleb (p_len p) param then p_end p
  else
    let u := param / p_len p in
    let theta := k_theta (p_coefs p) in
    let x := qi (p_init p) 0 + u * p_len p * cos theta in
    let y := qi (p_init p) 1 + u * p_len p * sin theta in
    let x_theta := cos theta * x + sin theta * y in
    let z := k0 (p_coefs p) * x_theta * x_theta + k1 (p_coefs p) * x_theta + k2 (p_coefs p) in
    let res1 := <[2%nat := z]> (<[1%nat := y]> (<[0%nat := x]> res)) in
    let res2 := interpolateInto d (p_init p) (p_end p) u res1 in
    zeroExtra (indexEcs d) (ecs d) res2.

(** core::Path::operator() (hpp-core) without constraints: a new result of configSize()
    entries, impl_compute (parabola-path.cc:94-147) *)
Definition p_at (d : device) (p : ppath) (param : R) : config := p_compute d p (replicate (csize d) 0) param.

(** parabola-path.cc:214-223 *)
Definition p_computeLength (c : coefs) (q1 q2 : config) : R :=
  let X := qi q2 0 - qi q1 0 in
  let Y := qi q2 1 - qi q1 1 in
  X * cos (k_theta c) + Y * sin (k_theta c).

(** parabola-path.cc:149-159 *)
Definition p_extract (d : device) (p : ppath) (a b : R) : ppath :=
  let q1 := p_at d p a in
  let q2 := p_at d p b in
  PPath q1 q2 (p_computeLength (p_coefs p) q1 q2) (p_coefs p) (p_V0 p) (p_Vimp p) (p_roms0 p) (p_roms1 p).

(** parabola-path.cc:161-179 *)
Definition p_reverse (d : device) (p : ppath) : ppath :=
  let q1 := p_at d p (p_len p) in
  let q2 := p_at d p 0 in
  PPath q1 q2 (p_len p) (p_coefs p) (p_Vimp p) (p_V0 p) (p_roms1 p) (p_roms0 p).

(** parabola-path.cc:233-248; the gravity is written in the code *)
Definition evaluateVelocity (d : device) (p : ppath) (t : R) : vec3 :=
  let c := p_coefs p in
  let theta := k_theta c in
  let xdot := k_xdot c in
  let inv := 1 / (xdot * xdot) in
  let q := p_at d p t in
  let x_theta := qi q 0 * cos theta + qi q 1 * sin theta in
  V3 (xdot * cos theta) (xdot * sin theta)
     (xdot * (- (981/100) * (x_theta - k_x0 c) * inv + tan (k_alpha c))).

(** * TimedParabolaPath (timed-parabola-path.hh:216-222).  [t_range] is timeRange() of
    core::Path, copied from the parabola (constructor at :39-51, copy of the base) *)
Record tpath := TPath { t_init : config; t_end : config; t_para : ppath; t_len : R; t_range : R * R }.

(** timed-parabola-path.cc:114-117 *)
Definition timedLength (x_theta v0 alpha0 : R) : R := x_theta / (v0 * cos alpha0).
(** timed-parabola-path.cc:119-128 *)
Definition computeTimedLength (p : ppath) : R :=
  let X := qi (p_end p) 0 - qi (p_init p) 0 in
  let Y := qi (p_end p) 1 - qi (p_init p) 1 in
  let X_theta := X * cos (k_theta (p_coefs p)) + Y * sin (k_theta (p_coefs p)) in
  timedLength X_theta (vnorm (p_V0 p)) (k_alpha (p_coefs p)).
(** timed-parabola-path.cc:39-51 *)
Definition t_create (init end_ : config) (p : ppath) : tpath :=
  TPath init end_ p (computeTimedLength p) (0, p_len p).

(** timed-parabola-path.cc:130-170 *)
Definition t_compute (d : device) (t : tpath) (time : R) : config :=
  if Reqb time 0 || Reqb (qi (t_init t) 0) (qi (t_end t) 0) then t_init t
  else if Rleb (t_len t) time then t_end t
  else
    let v0 := vnorm (p_V0 (t_para t)) in
    let u := time * v0 * cos (k_alpha (p_coefs (t_para t))) in
    let res := p_at d (t_para t) u in
    let i := indexEcs d in
    let vel := evaluateVelocity d (t_para t) u in
    <[(i + 5)%nat := - (981/100)]> (<[(i + 4)%nat := 0]> (<[(i + 3)%nat := 0]>
      (<[(i + 2)%nat := vz vel]> (<[(i + 1)%nat := vy vel]> (<[i := vx vel]> res))))).

(** timed-parabola-path.cc:106-112 *)
Definition t_reverse (d : device) (t : tpath) : tpath :=
  t_create (t_end t) (t_init t) (p_reverse d (t_para t)).

(** * SteeringMethodParabola *)
(** steering-method-parabola.cc:38-56: gravity, bounds on the velocities, margin, number of
    tries; [s_zmax] is device->rootJoint()->upperBound(2) (:768) *)
Record steering := Steer { s_g : R; s_V0max : R; s_Vimpmax : R; s_Dalpha : R; s_nLimit : nat; s_zmax : R }.

(** steering-method-parabola.cc:441-462; [None]: fail *)
Definition second_constraint (s : steering) (X Y : R) : option (R * R) :=
  let A := s_g s * X * X in
  let B := - 2 * X * s_V0max s * s_V0max s in
  let C := s_g s * X * X + 2 * Y * s_V0max s * s_V0max s in
  let delta := B * B - 4 * A * C in
  if Rltb delta 0 then None
  else if Rltb 0 X then Some (atan (1/2 * (- B + sqrt delta) / A), atan (1/2 * (- B - sqrt delta) / A))
       else Some (atan (1/2 * (- B + sqrt delta) / A) + PI, atan (1/2 * (- B - sqrt delta) / A) + PI).

(** steering-method-parabola.cc:686-708 *)
Definition sixth_constraint (s : steering) (X Y : R) : option (R * R) :=
  let A := s_g s * X * X in
  let B := - 2 * X * s_Vimpmax s * s_Vimpmax s - 4 * X * Y * s_g s in
  let C := s_g s * X * X + 2 * Y * s_Vimpmax s * s_Vimpmax s + 4 * s_g s * Y * Y in
  let delta := B * B - 4 * A * C in
  if Rltb delta 0 then None
  else if Rltb 0 X then Some (atan (1/2 * (- B + sqrt delta) / A), atan (1/2 * (- B - sqrt delta) / A))
       else Some (atan (1/2 * (- B + sqrt delta) / A) + PI, atan (1/2 * (- B - sqrt delta) / A) + PI).

(** steering-method-parabola.cc:464-479: the test is disabled, the bounds are returned *)
Definition third_constraint (alpha_imp_min alpha_imp_max : R) : option (R * R) :=
  Some (alpha_imp_max, alpha_imp_min).

(** steering-method-parabola.cc:230-261: the interval of launch angles *)
Definition alphaBounds (s : steering) (n2_angle alpha_0_min alpha_0_max alpha_imp_min alpha_imp_max : R)
    (lim imp imp3 : R * R) (alpha_inf4 : R) : R * R :=
  let '(lim_plus, lim_minus) := lim in
  let '(imp_plus, imp_minus) := imp in
  let '(imp_sup, imp_inf) := imp3 in
  if Rltb 0 n2_angle then
    let lim_minus' := Rmax lim_minus imp_minus in
    let inf := Rmax (Rmax imp_inf lim_minus') (Rmax alpha_0_min (alpha_inf4 + s_Dalpha s)) in
    let lim_plus' := Rmin lim_plus imp_plus in
    let sup := if Rltb alpha_imp_min (- PI / 2) then Rmin alpha_0_max (Rmin lim_plus' (PI / 2))
               else Rmin (Rmin alpha_0_max (PI / 2)) (Rmin lim_plus' imp_sup) in
    (inf, sup)
  else
    let lim_minus' := Rmax lim_minus imp_minus in
    let inf := if Rltb alpha_imp_max (PI / 2)
               then Rmax (Rmax imp_inf lim_minus') (Rmax alpha_0_min (alpha_inf4 + s_Dalpha s))
               else Rmax (Rmax alpha_0_min (alpha_inf4 + s_Dalpha s)) lim_minus' in
    let lim_plus' := Rmin lim_plus imp_plus in
    (inf, Rmin (Rmin alpha_0_max (PI / 2)) (Rmin lim_plus' imp_sup)).

(** steering-method-parabola.cc:762-795: the coefficients, and V0_ and Vimp_ as they are
    left in the steering method *)
Definition computeCoefficients (s : steering) (alpha theta X_theta Z x_theta_0 z_0 : R) : coefs * vec3 * vec3 :=
  let xdot := sqrt (s_g s * X_theta * X_theta / (2 * (X_theta * tan alpha - Z))) in
  let inv := 1 / (xdot * xdot) in
  let c := Coefs (- (1/2) * s_g s * inv)
                 (tan alpha + s_g s * x_theta_0 * inv)
                 (z_0 - tan alpha * x_theta_0 - 1/2 * s_g s * x_theta_0 * x_theta_0 * inv)
                 theta alpha xdot x_theta_0 in
  let V0 := sqrt (1 + tan alpha * tan alpha) * xdot in
  (c, V3 (xdot * cos theta) (xdot * sin theta) (V0 * sin alpha),
      V3 (xdot * cos theta) (xdot * sin theta) (- s_g s * X_theta / xdot + xdot * tan alpha)).

(** steering-method-parabola.cc:797-810 *)
Definition maxHeightRespected (s : steering) (c : coefs) (x_theta_0 x_theta_imp : R) : bool :=
  let xm := - (1/2) * k1 c / k0 c in
  let zm := k0 c * xm * xm + k1 c * xm + k2 c in
  negb (Rleb x_theta_0 xm && Rleb xm x_theta_imp && Rltb (s_zmax s) zm).

(** steering-method-parabola.cc:812-841 *)
Definition dichotomy (a_inf a_plus : R) (n : nat) : R :=
  let e := match n with O => 1/4 | 1%nat => 3/4 | 2%nat => 1/8 | 3%nat => 3/8 | 4%nat => 5/8 | 5%nat => 7/8 | _ => 1/2 end in
  e * a_plus + (1 - e) * a_inf.

Section path3D.
(** RbPrmPathValidation::validate of a path, and the ROM names of the report of a
    configuration (fillROMnames, :843-864) *)
Context (validate : ppath -> bool) (romNames : config -> list string) (d : device) (s : steering).

(** steering-method-parabola.cc:297-318 and 324-334: coefficients, height and path for an
    angle; the computation of the coefficients is what sets V0_ and Vimp_ *)
Definition attempt (q1 q2 : config) (theta X_theta Z x_theta_0 x_theta_imp z_0 alpha : R) : ppath * bool :=
  let '(c, v0, vimp) := computeCoefficients s alpha theta X_theta Z x_theta_0 z_0 in
  let ok := maxHeightRespected s c x_theta_0 x_theta_imp in
  (PPath q1 q2 (p_computeLength c q1 q2) c v0 vimp (romNames q1) (romNames q2), ok).

(** steering-method-parabola.cc:319-338: the loop; [k] is the number of iterations left,
    nLimit_ - n.  Returns the path and whether it is kept, and the paths validated *)
Fixpoint search (tryAlpha : R -> ppath * bool) (a_inf a_sup : R) (k n : nat) (p : ppath) (good : bool) : ppath * bool * list ppath :=
  if good then (p, true, [])
  else match k with
       | O => (p, false, [])
       | S k' =>
         let '(p', ok) := tryAlpha (dichotomy a_inf a_sup n) in
         let '(r, g, tried) := search tryAlpha a_inf a_sup k' (S n) p' (validate p' && ok) in
         (r, g, p' :: tried)
       end.

(** steering-method-parabola.cc:69-346.  [Ok None]: the null path.  The extra entries are
    written by segment<3>(index) and [index + 5]: out of range, [Ub].  Also returns the paths
    that were validated, in order *)
Definition compute_3D_path (q1 q2 : config) : outcome (option tpath * list ppath) :=
  let X := qi q2 0 - qi q1 0 in
  let Y := qi q2 1 - qi q1 1 in
  let Z := qi q2 2 - qi q1 2 in
  let theta := atan2 Y X in
  let x_theta_0 := cos theta * qi q1 0 + sin theta * qi q1 1 in
  let x_theta_imp := cos theta * qi q2 0 + sin theta * qi q2 1 in
  let X_theta := X * cos theta + Y * sin theta in
  let alpha_inf4 := atan (Z / X_theta) in
  match second_constraint s X_theta Z with
  | None => Ok (None, [])
  | Some lim =>
    match sixth_constraint s X_theta Z with
    | None => Ok (None, [])
    | Some imp =>
      match third_constraint (- 2 * PI) (2 * PI) with
      | None => Ok (None, [])
      | Some imp3 =>
        let '(inf, sup) := alphaBounds s (3/2) (- 2 * PI) (2 * PI) (- 2 * PI) (2 * PI) lim imp imp3 alpha_inf4 in
        if Rltb sup inf then Ok (None, [])
        else
          let tryAlpha := attempt q1 q2 theta X_theta Z x_theta_0 x_theta_imp (qi q1 2) in
          let alpha := inf + 1/10 * (sup - inf) in
          if negb (snd (tryAlpha inf)) then Ok (None, [])
          else
            let '(p0, ok0) := tryAlpha alpha in
            let '(p, good, tried) := search tryAlpha inf sup (s_nLimit s) 0 p0 (validate p0 && ok0) in
            if negb good then Ok (None, p0 :: tried)
            else
              let i := indexEcs d in
              if ((i + 6 <=? length q1) && (i + 3 <=? length q2))%nat
              then Ok (Some (t_create
                     (<[(i + 5)%nat := - s_g s]> (<[(i + 2)%nat := vz (p_V0 p)]> (<[(i + 1)%nat := vy (p_V0 p)]> (<[i := vx (p_V0 p)]> q1))))
                     (<[(i + 2)%nat := vz (p_Vimp p)]> (<[(i + 1)%nat := vy (p_Vimp p)]> (<[i := vx (p_Vimp p)]> q2)))
                     p), p0 :: tried)
              else Ub
      end
    end
  end.
End path3D.

(** * The random jump of the planner *)
(** steering-method-parabola.cc:389-393: the point reached after three seconds with speed
    [v] and angle [alpha] in the direction [theta] *)
Definition randomTarget (g theta : R) (q1 : config) (alpha v : R) : vec3 :=
  let t := 3 in
  let x_theta_0 := cos theta * qi q1 0 + sin theta * qi q1 1 in
  let x_theta_f := v * cos alpha * t + x_theta_0 in
  V3 (x_theta_f * cos theta) (x_theta_f * sin theta) (v * sin alpha * t - 1/2 * g * t * t + qi q1 2).
