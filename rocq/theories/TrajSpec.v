(** Specification vocabulary for the trajectories. *)
From Verif Require Import Maps Vec ParaModel ParaSpec TrajModel.
Local Open Scope R_scope.

(** uniformly accelerated motion *)
Definition motion (p v a : vec3) (t : R) : vec3 := vadd p (vadd (vscale t v) (vscale (t * t / 2) a)).
Definition comMotion (p : comTraj) (t : R) : vec3 := motion (ct_init p) (ct_speed p) (ct_acc p) t.
(** the end given to the trajectory is the one its motion reaches *)
Definition consistent (p : comTraj) : Prop := 0 < ct_len p /\ ct_end p = comMotion p (ct_len p).

(** the value of a reference at the fraction [s] of its time range *)
Definition reference (r : refPath) (s : R) : list R := r_at r (r_first r + s * (r_second r - r_first r)).
(** [w'] is [w] where the equations of [tds] have the values of their references at [s]; the
    last one counts when several concern the same equation *)
Definition rightHandSides (tds : list timeDep) (s : R) (w w' : world) : Prop :=
  forall e,
    (exists pre td post, tds = pre ++ td :: post /\ td_eq td = e /\ (forall t', t' ∈ post -> td_eq t' <> e) /\
       w' e = f_map (td_fun td) (reference (f_ref (td_fun td)) s)) \/
    ((forall t', t' ∈ tds -> td_eq t' <> e) /\ w' e = w e).
(** time entry at [t] of a path *)
Definition timeAt (p : tcPath) (t : R) : R :=
  (1 - t / tc_len p) * qi (tc_init p) (tc_rank p) + t / tc_len p * qi (tc_end p) (tc_rank p).

(** what a program does with the paths that share the equations *)
Inductive use := Evaluate (p : tcPath) (t : R) | Create (p : tcPath) | Extract (p : tcPath) (a b : R).
Definition usedPath (u : use) : tcPath := match u with Evaluate p _ => p | Create p => p | Extract p _ _ => p end.
Definition useWorld (d : device) (u : use) (w : world) : world :=
  match u with
  | Evaluate p t => fst (tc_at d p t w)
  | Create p => fst (tc_create p w)
  | Extract p a b => fst (tc_extract d p a b w)
  end.
Definition history (d : device) (us : list use) (w : world) : world := fold_left (fun w u => useWorld d u w) us w.
(** the equations whose right hand side a path updates *)
Definition equations (p : tcPath) : list nat := map td_eq (tc_tds p).

(** the size of the step between the samples [i] and [i+1] of the ten of the validation *)
Definition sample (d : device) (p : tcPath) (w : world) (i : nat) : config :=
  match i with O => tc_init p | _ => fst (snd (tc_at d p (INR i / 10 * tc_len p) w)) end.
Definition stepSize (d : device) (p : tcPath) (w : world) (i : nat) : R := tailDist (sample d p w i) (sample d p w (S i)).
(** two configurations agree beyond the seven entries of the root *)
Definition sameTail (a b : config) : Prop := drop 7 a = drop 7 b.
(** the device interpolates linearly the entries beyond the root *)
Definition linearTail (d : device) : Prop :=
  forall q1 q2 u, length q1 = csize d -> length q2 = csize d ->
    length (interp d q1 q2 u) = csize d /\
    forall i, (7 <= i < csize d)%nat -> qi (interp d q1 q2 u) i = (1 - u) * qi q1 i + u * qi q2 i.
(** a path along a curve that starts at time 0, on a part of the range of the curve *)
Definition standard (d : device) (p : bezPath) : Prop :=
  bz_min (bp_curve p) = 0 /\ 0 <= bp_first p /\ bp_first p <= bp_second p /\ 0 < bp_second p /\ bp_second p <= bz_max (bp_curve p) /\
  length (bp_initial p) = csize d /\ length (bp_final p) = csize d.
