(** A two-legged robot, a balance library and a quadratic program for which the hypotheses
    of the balance and reachability theorems hold. *)
From Coq Require Import Reals Lra Lia Psatz Classical ClassicalEpsilon.
From Verif Require Import SampModel.
From Verif Require Import ReachSpec MapsProofs VecProofs ProjProofs ProjProofs2 StateSpec StateProofs StateRealProofs
  StabProofs StabProofs2 ReachProofs ReachProofs2 ReachProofs3 ReachProofs4 ReachProofs5 ReachProofs6.
From Verif Require Import StateModel.
Local Open Scope R_scope.

(** ** the nearest point of a polyhedron exists *)
Definition sqd (x c : vec3) : R := vnorm2 (vsub x c).
Lemma un_cv_le (u : nat -> R) l b : Un_cv u l -> (forall n, u n <= b) -> l <= b.
Proof.
  intros Hu Hb. apply Rnot_lt_le. intros Hlt. destruct (Hu (l - b)) as [N HN]; [lra|].
  specialize (HN N (le_n _)). unfold R_dist in HN. apply Rabs_def2 in HN. specialize (Hb N). lra.
Qed.
Lemma cv_const a : Un_cv (fun _ : nat => a) a.
Proof. intros e He. exists 0%nat. intros n _. unfold R_dist. rewrite Rminus_diag_eq, Rabs_R0 by done. lra. Qed.
Lemma cv_ext (u v : nat -> R) l : (forall n, u n = v n) -> Un_cv u l -> Un_cv v l.
Proof. intros H Hu e He. destruct (Hu e He) as [N HN]. exists N. intros n Hn. rewrite <- H. by apply HN. Qed.
Lemma cv_dot (x : nat -> vec3) y a : Un_cv (fun n => vx (x n)) (vx y) -> Un_cv (fun n => vy (x n)) (vy y) -> Un_cv (fun n => vz (x n)) (vz y) ->
  Un_cv (fun n => vdot a (x n)) (vdot a y).
Proof.
  intros Hx Hy Hz. destruct a as [a1 a2 a3]. unfold vdot. cbn [vx vy vz].
  apply (CV_plus (fun n => _ + _) (fun n => _)); [apply (CV_plus (fun n => _) (fun n => _))|].
  - apply (CV_mult (fun _ => a1)); [apply cv_const|exact Hx].
  - apply (CV_mult (fun _ => a2)); [apply cv_const|exact Hy].
  - apply (CV_mult (fun _ => a3)); [apply cv_const|exact Hz].
Qed.
Lemma cv_sqd (x : nat -> vec3) y c : Un_cv (fun n => vx (x n)) (vx y) -> Un_cv (fun n => vy (x n)) (vy y) -> Un_cv (fun n => vz (x n)) (vz y) ->
  Un_cv (fun n => sqd (x n) c) (sqd y c).
Proof.
  intros Hx Hy Hz. unfold sqd, vnorm2, vdot, vsub. destruct y as [y1 y2 y3], c as [c1 c2 c3]. cbn [vx vy vz] in *.
  assert (Q : forall (u : nat -> R) l k, Un_cv u l -> Un_cv (fun n => (u n - k) * (u n - k)) ((l - k) * (l - k))).
  { intros u l k Hu. apply (CV_mult (fun n => u n - k) (fun n => u n - k)); apply (CV_minus u (fun _ => k)); auto using cv_const. }
  apply (CV_plus (fun n => _ + _) (fun n => _)); [apply (CV_plus (fun n => _) (fun n => _))|]; by apply Q.
Qed.
Lemma inv_small e : 0 < e -> exists N : nat, forall n, (N <= n)%nat -> / INR (S n) < e.
Proof.
  intros He. destruct (archimed_cor1 e He) as (N & HN & Hp). exists N. intros n Hn.
  eapply Rle_lt_trans; [|exact HN]. apply Rinv_le_contravar; [by apply lt_0_INR|]. apply le_INR. lia.
Qed.
Lemma nearest Ab c : (exists y, feasible Ab y) -> exists x, feasible Ab x /\ forall y, feasible Ab y -> sqd x c <= sqd y c.
Proof.
  intros [y0 Hy0].
  destruct (completeness (fun r => exists y, feasible Ab y /\ r = - sqd y c)) as [m [Hub Hlub]].
  { exists 0. intros r (y & _ & ->). pose proof (vnorm2_nonneg (vsub y c)). unfold sqd. lra. }
  { exists (- sqd y0 c). eauto. }
  assert (Hm : forall y, feasible Ab y -> - m <= sqd y c).
  { intros y Hy. assert (X : - sqd y c <= m) by (apply Hub; eauto). lra. }
  assert (Hex : forall n : nat, exists y, feasible Ab y /\ sqd y c < - m + / INR (S n)).
  { intros n. apply NNPP. intros Hno. assert (X : m <= m - / INR (S n)).
    { apply Hlub. intros r (y & Hy & ->). apply Rnot_lt_le. intros Hlt. apply Hno. exists y. split; [done|]. lra. }
    assert (0 < / INR (S n)) by (apply Rinv_0_lt_compat, lt_0_INR; lia). lra. }
  assert (exists x : nat -> vec3, forall n, feasible Ab (x n) /\ sqd (x n) c < - m + / INR (S n)) as [x Hx].
  { exists (fun n => proj1_sig (constructive_indefinite_description _ (Hex n))). intros n. apply (proj2_sig (constructive_indefinite_description _ (Hex n))). }
  assert (Hpar : forall p q, sqd p q <= 2 * sqd p c + 2 * sqd q c - 4 * sqd (vscale (/ 2) (vadd p q)) c).
  { intros [p1 p2 p3] [q1 q2 q3]. destruct c as [c1 c2 c3]. unfold sqd, vnorm2, vdot, vsub, vscale, vadd. cbn. nra. }
  assert (Hmid : forall p q, feasible Ab p -> feasible Ab q -> feasible Ab (vscale (/ 2) (vadd p q))).
  { intros p q Hp Hq a b Hab. specialize (Hp a b Hab). specialize (Hq a b Hab).
    destruct a, p, q. unfold vdot, vscale, vadd in *. cbn in *. lra. }
  assert (Hcau : forall e, 0 < e -> exists N, forall n k, (N <= n)%nat -> (N <= k)%nat -> sqd (x n) (x k) < e * e).
  { intros e He. destruct (inv_small (e * e / 8)) as [N HN]; [nra|]. exists N. intros n k Hn Hk.
    destruct (Hx n) as [Fn Dn], (Hx k) as [Fk Dk]. pose proof (HN n Hn). pose proof (HN k Hk).
    pose proof (Hpar (x n) (x k)). pose proof (Hm _ (Hmid _ _ Fn Fk)).
    assert (0 < e * e) by nra. lra. }
  assert (Hco : forall f : vec3 -> R, (forall p q, (f p - f q) * (f p - f q) <= sqd p q) -> exists l, Un_cv (fun n => f (x n)) l).
  { intros f Hf. destruct (R_complete (fun n => f (x n))) as [l Hl]; [|eauto].
    intros e He. destruct (Hcau e He) as [N HN]. exists N. intros n k Hn Hk. unfold R_dist.
    assert (H1 : sqd (x n) (x k) < e * e) by (apply HN; lia). specialize (Hf (x n) (x k)).
    apply Rabs_def1; nra. }
  destruct (Hco vx) as [l1 L1]. { intros p q. unfold sqd, vnorm2, vdot, vsub. cbn [vx vy vz]. pose proof (Rle_0_sqr (vx p - vx q)). pose proof (Rle_0_sqr (vy p - vy q)). pose proof (Rle_0_sqr (vz p - vz q)). unfold Rsqr in *. lra. }
  destruct (Hco vy) as [l2 L2]. { intros p q. unfold sqd, vnorm2, vdot, vsub. cbn [vx vy vz]. pose proof (Rle_0_sqr (vx p - vx q)). pose proof (Rle_0_sqr (vy p - vy q)). pose proof (Rle_0_sqr (vz p - vz q)). unfold Rsqr in *. lra. }
  destruct (Hco vz) as [l3 L3]. { intros p q. unfold sqd, vnorm2, vdot, vsub. cbn [vx vy vz]. pose proof (Rle_0_sqr (vx p - vx q)). pose proof (Rle_0_sqr (vy p - vy q)). pose proof (Rle_0_sqr (vz p - vz q)). unfold Rsqr in *. lra. }
  exists (V3 l1 l2 l3). split.
  - intros a b Hab. eapply un_cv_le; [apply (cv_dot x (V3 l1 l2 l3) a); eassumption|]. intros n. apply (proj1 (Hx n) a b Hab).
  - intros y Hy. apply Rle_trans with (- m); [|by apply Hm].
    pose proof (cv_sqd x (V3 l1 l2 l3) c L1 L2 L3) as HL. apply Rnot_lt_le. intros Hlt.
    destruct (HL ((sqd (V3 l1 l2 l3) c + m) / 2)) as [N HN]; [lra|].
    destruct (inv_small ((sqd (V3 l1 l2 l3) c + m) / 2)) as [K HK]; [lra|].
    specialize (HN (N + K)%nat ltac:(lia)). specialize (HK (N + K)%nat ltac:(lia)). destruct (Hx (N + K)%nat) as [_ D].
    unfold R_dist in HN. apply Rabs_def2 in HN. lra.
Qed.

Definition is_nearest (Ab : list (vec3 * R)) (c x : vec3) : Prop := feasible Ab x /\ forall y, feasible Ab y -> sqd x c <= sqd y c.
Definition exqp (Ab : list (vec3 * R)) (Hg : mat3 * vec3) (c : vec3) : bool * vec3 :=
  match excluded_middle_informative (exists y, feasible Ab y) with
  | left H => (true, proj1_sig (constructive_indefinite_description _ (nearest Ab c H)))
  | right _ => (false, vzero)
  end.
Lemma exqp_sound : sound_qp exqp.
Proof.
  intros Ab c x Hg. unfold exqp. destruct (excluded_middle_informative _) as [H|H]; [|done].
  destruct (constructive_indefinite_description _ _) as (y & Hf & Hm). cbn. intros E. injection E as <-.
  split; [done|]. intros z Hz. apply (cost_distance c). unfold dist3, vnorm. apply sqrt_le_1_alt. by apply Hm.
Qed.
Lemma exqp_complete : complete_qp exqp.
Proof. intros Ab c H. unfold exqp. destruct (excluded_middle_informative _) as [H'|H']; done. Qed.

(** ** the robot: two feet, each with the centre of mass between 30 cm and 2 m above it *)
Definition exkin : list (vec3 * vec3) := [(V3 0 0 (-1), V3 0 0 (3/10)); (V3 0 0 1, V3 0 0 2)].
Definition exlimb (y : R) : rlimb :=
  mkRlimb _6_DOF vzero (V3 0 0 1) (1/10) (1/20) false (fun _ => SE3 ProjModel.mid (V3 0 y 0)) exkin.
Definition exbody : rbody :=
  mkRbody (<["lf" := exlimb 1]> (<["rf" := exlimb (-1)]> ∅))%string head3 50 (1/2) true 12 6 0.
(** the vertical force points down, and the moment about x is bounded *)
Definition exlib : eqlib :=
  mkEqlib (fun _ => true) (fun _ _ _ => (LP_OPTIMAL, true)) (fun _ _ _ => (LP_OPTIMAL, 3))
    (fun _ => (LP_OPTIMAL, ([R6 (V3 0 0 1) vzero; R6 vzero (V3 1 0 0)], [0; 100]))) (V3 0 0 (-981/100)).
Definition exaxis (a b : vec3) : vec3 :=
  if Reqb (vx a * vx a + vy a * vy a) 0 then V3 1 0 0
  else vscale (/ R_sqrt.sqrt (vx a * vx a + vy a * vy a)) (V3 (- vy a) (vx a) 0).
Lemma exaxis_good : good_axis exaxis.
Proof.
  intros [a b c] v1 H _. unfold exaxis, vnorm2, vdot, vscale in *. cbn [vx vy vz] in *. destruct (Reqb (a * a + b * b) 0) eqn:E.
  - apply Reqb_true in E. cbn. assert (a * a = 0) by nra. assert (a = 0) by nra. subst. split; ring.
  - apply Reqb_false in E. cbn. assert (P : 0 < a * a + b * b) by nra. set (t := a * a + b * b) in *.
    pose proof (sqrt_lt_R0 t P) as Hs. pose proof (sqrt_sqrt t (Rlt_le _ _ P)) as Hq. set (s := R_sqrt.sqrt t) in *. split.
    + replace (/ s * - b * (/ s * - b) + / s * a * (/ s * a) + / s * 0 * (/ s * 0)) with (t * (/ s * / s)) by (unfold t; ring).
      rewrite <- Hq. field. lra.
    + ring.
Qed.
Definition exq (x : R) : list R := [x; 0; 1; 0; 0; 0; 0; 0; 0; 0; 0; 0].

Definition exL : PSt := mkState (exq 0) (<["lf" := true]> ∅)%string (<["lf" := V3 0 0 1]> ∅)%string (<["lf" := V3 0 1 0]> ∅)%string
  (<["lf" := ProjModel.mid]> ∅)%string ["lf"]%string 1 true 0.
Definition exLR (x : R) : PSt := mkState (exq x) (<["rf" := true]> (<["lf" := true]> ∅))%string
  (<["rf" := V3 0 0 1]> (<["lf" := V3 0 0 1]> ∅))%string (<["rf" := V3 x (-1) 0]> (<["lf" := V3 0 1 0]> ∅))%string
  (<["rf" := ProjModel.mid]> (<["lf" := ProjModel.mid]> ∅))%string ["lf"; "rf"]%string 2 true 0.

Lemma mid_rotation : is_rotation ProjModel.mid.
Proof. split; [|unfold mdet, vdot, vcross; cbn; ring]. unfold ProjModel.mid, mmul, mtr, mapp. cbn. unfold vdot. cbn. apply (f_equal3 M3); apply (f_equal3 V3); ring. Qed.
Lemma exbody_limb e l : rlimbs exbody !! e = Some l -> exists y, l = exlimb y.
Proof.
  cbn. intros H. apply lookup_insert_Some in H as [[_ <-]|[_ H]]; [eauto|]. apply lookup_insert_Some in H as [[_ <-]|[_ H]]; [eauto|].
  rewrite lookup_empty in H. done.
Qed.
Lemma exbody_lawful : lawful_body exbody.
Proof. intros e l q H. apply exbody_limb in H as [y ->]. cbn. apply mid_rotation. Qed.
Lemma exlib_good : good_polytopes exlib.
Proof.
  intros k r Hr. cbn in Hr. apply elem_of_cons in Hr as [->|Hr]; [|apply elem_of_list_singleton in Hr as ->];
  unfold norm6, vnorm2, vdot, vzero; cbn; intros H; apply sqrt_eq_0 in H; lra.
Qed.
Lemma exlib_works : working_lib exlib.
Proof. intros k. cbn. done. Qed.

Lemma exL_complete : complete_state exbody exL.
Proof.
  split_and!.
  - exists "lf"%string, []. split; [done|]. cbn. rewrite lookup_insert. eauto.
  - intros e. cbn. intros [p H]. apply lookup_insert_Some in H as [[<- _]|[_ H]]; [|rewrite lookup_empty in H; done].
    rewrite !lookup_insert. eauto.
  - intros e H. cbn in H. apply lookup_insert_Some in H as [[<- _]|[_ H]]; [|rewrite lookup_empty in H; done].
    cbn. rewrite lookup_insert. eauto.
Qed.
Lemma exLR_complete x : complete_state exbody (exLR x).
Proof.
  assert (Hl : rlimbs exbody !! "rf"%string = Some (exlimb (-1))) by reflexivity.
  assert (Hr : rlimbs exbody !! "lf"%string = Some (exlimb 1)) by reflexivity.
  split_and!.
  - exists "lf"%string, ["rf"%string]. split; [done|]. cbn. rewrite lookup_insert_ne by done. rewrite lookup_insert. eauto.
  - intros e. cbn [positions normals rotations exLR]. intros [p H]. apply lookup_insert_Some in H as [[<- _]|[_ H]].
    + rewrite Hl, !lookup_insert. eauto.
    + apply lookup_insert_Some in H as [[<- _]|[_ H]]; [|rewrite lookup_empty in H; done].
      rewrite Hr, !(lookup_insert_ne _ "rf"%string) by done. rewrite !lookup_insert. eauto.
  - intros e H. cbn in H. apply lookup_insert_Some in H as [[<- _]|[_ H]]; [rewrite Hl; eauto|].
    apply lookup_insert_Some in H as [[<- _]|[_ H]]; [rewrite Hr; eauto|rewrite lookup_empty in H; done].
Qed.

Lemma exL_pos e : positions exL !! e = if bool_decide (e = "lf"%string) then Some (V3 0 1 0) else None.
Proof. cbn. case_bool_decide; [subst; apply lookup_insert|]. rewrite lookup_insert_ne by congruence. apply lookup_empty. Qed.
Lemma exLR_pos x e : positions (exLR x) !! e = if bool_decide (e = "rf"%string) then Some (V3 x (-1) 0) else if bool_decide (e = "lf"%string) then Some (V3 0 1 0) else None.
Proof.
  cbn. case_bool_decide; [subst; apply lookup_insert|]. rewrite lookup_insert_ne by congruence.
  case_bool_decide; [subst; apply lookup_insert|]. rewrite lookup_insert_ne by congruence. apply lookup_empty.
Qed.
Lemma same_not_moved (s1 s2 : PSt) e p : positions s1 !! e = Some p -> positions s2 !! e = Some p -> ~ new_or_moved s1 s2 e.
Proof.
  intros H1 H2 [_ [H|(d & Hd & Hgt)]]; [congruence|]. destruct Hd as (a & b & Ha & Hb & Hd).
  assert (Ea : a = p) by (cbn in *; congruence). assert (Eb : b = p) by (cbn in *; congruence). subst a b.
  pose proof (dist3_refl p). lra.
Qed.

Lemma ex_broken : only_broken (exLR 0) exL "rf".
Proof.
  split_and!; [|rewrite exLR_pos; eauto|rewrite exL_pos; done].
  intros e. split.
  - intros [H|H].
    + destruct (proj1 H) as [p Hp]. rewrite exL_pos in Hp. case_bool_decide; [|done]. subst. exfalso.
      revert H. apply (same_not_moved _ _ _ (V3 0 1 0)); [by rewrite exLR_pos|by rewrite exL_pos].
    + destruct (proj1 H) as [p Hp]. rewrite exLR_pos in Hp. case_bool_decide; [done|]. case_bool_decide; [|done]. subst. exfalso.
      revert H. apply (same_not_moved _ _ _ (V3 0 1 0)); [by rewrite exL_pos|by rewrite exLR_pos].
  - intros ->. right. split; [rewrite exLR_pos; eauto|left; by rewrite exL_pos].
Qed.
Lemma ex_created : only_created exL (exLR 0) "rf".
Proof.
  destruct ex_broken as (H & Hp & Hn). split_and!; [|done|done]. intros e. rewrite <- (H e). unfold varies, made, lost. tauto.
Qed.
Lemma ex_moved : only_moved (exLR 0) (exLR 1) "rf".
Proof.
  assert (M : forall a b, a <> b -> (a = 0 \/ a = 1) -> (b = 0 \/ b = 1) -> new_or_moved (exLR a) (exLR b) "rf").
  { intros a b Hab Ha Hb. split; [rewrite exLR_pos; eauto|]. right. exists (dist3 (V3 a (-1) 0) (V3 b (-1) 0)). split.
    - eexists _, _. split_and!; [by rewrite exLR_pos|by rewrite exLR_pos|done].
    - unfold dist3, vnorm, vnorm2, vdot, vsub. cbn. replace (_ + _) with 1; [rewrite sqrt_1; lra|].
      destruct Ha as [-> | ->], Hb as [-> | ->]; try done; ring. }
  assert (N : forall a b e, new_or_moved (exLR a) (exLR b) e -> e = "rf"%string).
  { intros a b e H. destruct (proj1 H) as [p Hp]. rewrite exLR_pos in Hp. case_bool_decide; [done|]. case_bool_decide; [|done]. subst. exfalso.
    revert H. apply (same_not_moved _ _ _ (V3 0 1 0)); by rewrite exLR_pos. }
  split_and!; [|rewrite exLR_pos; eauto|rewrite exLR_pos; eauto].
  intros e. split; [intros [H|H]; eapply N; exact H|]. intros ->. left. apply M; [lra|auto|auto].
Qed.

Lemma ex_state_balanced s x : (forall e, is_Some (positions s !! e) -> is_Some (rlimbs exbody !! e) /\ is_Some (normals s !! e) /\ is_Some (rotations s !! e)) ->
  state_balanced exaxis exlib exbody s vzero (V3 x 0 1).
Proof.
  intros H. destruct (cone_defined exaxis exlib exbody s H) as [o Eo]. 
  assert (exists k, o = Some k) as [k ->].
  { rewrite cone_eq in Eo. destruct (setupLibrary _ _ _ _ _ _ _) as [[k c]| |]; [|done|done]. cbn in Eo. injection Eo as <-. eauto. }
  exists k. split_and!; [done|done|]. intros i r hi Hr Hh. cbn in Hr, Hh.
  destruct i as [|[|]]; cbn in Hr, Hh; [| |done]; injection Hr as <-; injection Hh as <-;
  unfold dot6, gi_wrench, norm6, vdot, vcross, vscale, vsub, vzero, vnorm2, vdot; cbn; [lra|].
  replace (_ + (1 * 1 + 0 * 0 + 0 * 0)) with 1 by ring. rewrite sqrt_1. lra.
Qed.
Lemma ex_within (s : PSt) x : within_reach exbody s (V3 x 0 1).
Proof.
  intros e l _ Hl. apply exbody_limb in Hl as [y ->]. intros n v Hnv. cbn in Hnv.
  apply elem_of_cons in Hnv as [E|Hnv]; [|apply elem_of_list_singleton in Hnv as E]; injection E as -> ->;
  unfold in_frame, vdot, vsub, mapp, mtr, ProjModel.mid, vdot; cbn; lra.
Qed.
Lemma ex_reach_broken : exists r, isReachable exaxis exlib exbody exqp (exLR 0) exL vzero false = Ok r /\ rstatus r = REACHABLE.
Proof.
  destruct (reach_defined exaxis exlib exbody exqp (exLR 0) exL vzero (exLR_complete 0) exL_complete) as (r & Hr & W).
  exists r. split; [done|].
  apply (reach_broken exaxis exlib exbody exqp exbody_lawful exlib_good exqp_sound exqp_complete _ _ _ _ _ _ Hr ex_broken (W exlib_works)).
  exists (V3 0 0 1). split; [apply ex_state_balanced, exL_complete|apply ex_within].
Qed.
Lemma ex_reach_created : exists r, isReachable exaxis exlib exbody exqp exL (exLR 0) vzero false = Ok r /\ rstatus r = REACHABLE.
Proof.
  destruct (reach_defined exaxis exlib exbody exqp exL (exLR 0) vzero exL_complete (exLR_complete 0)) as (r & Hr & W).
  exists r. split; [done|].
  apply (reach_created exaxis exlib exbody exqp exbody_lawful exlib_good exqp_sound exqp_complete _ _ _ _ _ _ Hr ex_created (W exlib_works)).
  exists (V3 0 0 1). split; [apply ex_state_balanced, exL_complete|apply ex_within].
Qed.
Lemma ex_reach_moved : exists r, isReachable exaxis exlib exbody exqp (exLR 0) (exLR 1) vzero false = Ok r /\ rstatus r = REACHABLE.
Proof.
  destruct (reach_defined exaxis exlib exbody exqp (exLR 0) (exLR 1) vzero (exLR_complete 0) (exLR_complete 1)) as (r & Hr & W).
  exists r. split; [done|].
  apply (reach_moved exaxis exlib exbody exqp exbody_lawful exlib_good exqp_sound exqp_complete _ _ _ _ _ Hr ex_moved (W exlib_works)).
  exists (V3 0 0 1). split_and!; try apply ex_state_balanced; try apply exLR_complete; apply ex_within.
Qed.
Lemma ex_flags : flags_ok (exLR 0) /\ flags_ok exL /\ same_placement exbody (exLR 0) exL.
Proof.
  split_and!.
  - intros e. rewrite exLR_pos. cbn. rewrite lookup_insert_Some, lookup_insert_Some, lookup_empty. 
    destruct (String.eqb_spec e "rf") as [->|Hr]; [rewrite bool_decide_eq_true_2 by done; split; [eauto|intros _; by left]|].
    rewrite bool_decide_eq_false_2 by done.
    destruct (String.eqb_spec e "lf") as [->|Hl]; [rewrite bool_decide_eq_true_2 by done; split; [eauto|intros _; right; split; [done|by left]]|].
    rewrite bool_decide_eq_false_2 by done. split; [|intros [? ?]; done].
    intros [[<- _]|[_ [[<- _]|[_ ?]]]]; done.
  - intros e. rewrite exL_pos. cbn. rewrite lookup_insert_Some, lookup_empty. 
    destruct (String.eqb_spec e "lf") as [->|Hl]; [rewrite bool_decide_eq_true_2 by done; split; [eauto|intros _; by left]|].
    rewrite bool_decide_eq_false_2 by done. split; [|intros [? ?]; done]. intros [[<- _]|[_ ?]]; done.
  - intros e l _ _ H. apply exbody_limb in H as [y ->]. done.
Qed.

(** the intermediate version, through the state without the right foot *)
Lemma ex_intermediate : exists r, isReachableIntermediate exaxis exlib exbody exqp (exLR 0) exL (exLR 0) = Ok r /\ rstatus r = REACHABLE.
Proof.
  destruct ex_reach_broken as (rb & Eb & Sb), ex_reach_created as (rc & Ec & Sc).
  rewrite intermediate_eq, Eb. cbn [obind]. rewrite Ec. cbn [obind]. unfold success. rewrite Sb, Sc. cbn. eexists. done.
Qed.

(** the dynamic version: an optimiser that succeeds when the first phase lasts one second *)
Definition exsolve (pb : problem) (t : list R) (n : option Z) : comTraj :=
  mkTraj (Reqb (nth 0 t 0) 1) [pc0 pb; pc1 pb] (V3 1 0 0) vzero.
Definition exLRm : PSt := exLR 1.
Lemma ex_proceeds : proceeds (exLR 0) (exLR 1).
Proof.
  destruct ex_moved as (Ho & _ & _).
  unfold proceeds. split_and!.
  - cbn. unfold head3. cbn. intros H. injection H. lra.
  - intros H. apply (H "rf"%string). by apply Ho.
  - intros (e & e' & Hne & H1 & H2). apply Hne. transitivity "rf"%string; [|symmetry]; apply Ho; by right.
  - intros (e & e' & Hne & H1 & H2). apply Hne. transitivity "rf"%string; [|symmetry]; apply Ho; by left.
  - intros [_ H]. cbn in H. lia.
  - intros [_ H]. cbn in H. lia.
Qed.
Lemma ex_mid mid : state_between (exLR 0) (exLR 1) mid -> mid = snd (RemoveContact "rf" (exLR 0)).
Proof.
  intros [H _]. destruct ex_moved as (Ho & Hs & Hs'). apply H.
  - apply moved_both; [done|done|]. by apply Ho.
  - intros e He. apply Ho. by right.
Qed.
Lemma ex_dynamic : exists r q', isReachableDynamic exaxis exlib exbody exqp exsolve (exLR 0) (exLR 1) false [] 0 = Ok (r, q') /\
  rstatus r = REACHABLE /\ rtimings r = [1; 12/10; 1].
Proof.
  destruct (dynamic_defined exaxis exlib exbody exqp exsolve (exLR 0) (exLR 1) [] 0 (exLR_complete 0) (exLR_complete 1)) as [[r q'] Hr]; [cbn; lia|cbn; lia|].
  exists r, q'. split; [done|].
  destruct (dynamic exaxis exlib exbody exqp exsolve exbody_lawful _ _ _ _ _ _ _ Hr ex_proceeds) as (mid & Hmid & HD).
  cbn zeta in HD. destruct HD as [(X & _)|[(_ & s & Hs & Hc)|(n & ps & Hn & _ & HD)]]; [done| |].
  - exfalso. assert (Hcs : forall e, is_Some (positions s !! e) -> is_Some (rlimbs exbody !! e) /\ is_Some (normals s !! e) /\ is_Some (rotations s !! e)).
    { destruct Hs as [-> |[-> | ->]]; try apply exLR_complete. apply ex_mid in Hmid. subst mid.
      pose proof (mid_contacts exbody (exLR 0) (exLR 1) (exLR_complete 0)) as [Hm _].
      assert (E : midState (exLR 0) (exLR 1) = snd (RemoveContact "rf" (exLR 0))) by (apply ex_mid, between_mid).
      rewrite E in Hm. exact Hm. }
    destruct (some_cone exaxis exlib exbody s exlib_works Hcs) as [k Hk]. congruence.
  - destruct ex_moved as (Ho & Hs & Hs'). assert (Hb : made (exLR 0) (exLR 1) "rf" /\ lost (exLR 0) (exLR 1) "rf").
    { apply moved_both; [done|done|by apply Ho]. }
    assert (n = 3%nat) as ->. { destruct Hn as [(_ & _ & ->)|[Hno _]]; [done|]. exfalso. apply Hno. split; eexists; apply Hb. }
    assert (Et : tried [] 3 = map (fun '(a, b, c) => [a; b; c]) (firstn 17 table)) by done.
    destruct HD as [(pre & t & post & Etr & Hpre & Hok & Hst & Htm & _)|[Hall _]].
    + split; [done|]. rewrite Htm. rewrite Et in Etr. unfold table in Etr. cbn [firstn map] in Etr.
      destruct pre as [|p1 [|p2 pre]]; cbn [app] in Etr.
      * injection Etr as <- _. cbn in Hok. apply Reqb_true in Hok. lra.
      * injection Etr as _ <- _. apply (f_equal2 cons); [done|]. apply (f_equal2 cons); [lra|done].
      * injection Etr as _ <- _. exfalso. assert (X : tjOk (exsolve (mkProblem ps (rcom exbody (configuration (exLR 0))) (rcom exbody (configuration (exLR 1))) (seg3 (configuration (exLR 0)) (rconfSize exbody - rextra exbody)) (seg3 (configuration (exLR 1)) (rconfSize exbody - rextra exbody))) [1; 1.2; 1] None) = false).
        { apply Hpre. apply elem_of_cons. right. apply elem_of_cons. by left. }
        cbn in X. apply Reqb_false in X. done.
    + exfalso. assert (X : [1; 1.2; 1] ∈ tried [] 3).
      { rewrite Et. unfold table. cbn [firstn map]. apply elem_of_cons. right. apply elem_of_cons. by left. }
      apply Hall in X. unfold exsolve in X. cbn [tjOk nth] in X. apply Reqb_false in X. done.
Qed.
(** the balance test on the two-footed state *)
Lemma ex_stable : IsStable exaxis exlib exbody (exLR 0) vzero vzero (ALG_LP 0) = Ok 3 /\
  IsStable exaxis exlib exbody (exLR 0) vzero vzero ALG_PP = Ok dmax.
Proof.
  assert (C : chosenAcc exbody (exLR 0) vzero = Ok vzero).
  { destruct (chosen_acc exbody (exLR 0) vzero) as [_ H]. rewrite H; [|done|cbn; lia|cbn; lia]. done. }
  assert (S : forall alg, exists k c, setupLibrary exaxis exlib exbody (exLR 0) alg 0 0 = Ok (k, c) /\ calg k = alg).
  { intros alg. destruct (setup_defined exaxis exbody exlib (exLR 0) alg 0 0) as [[k c] Hk]; [|done|].
    - intros e He. destruct (proj1 (proj2 (exLR_complete 0)) e He) as ([l Hl] & Hn & Hr). exists l. done.
    - exists k, c. split; [done|]. destruct (contact_set exaxis exbody exaxis_good exlib _ _ _ _ _ _ Hk) as (_ & _ & H & _).
      apply H. intros (e & l & _ & Hl & Hg). apply exbody_limb in Hl as [y ->]. done. }
  unfold IsStable. rewrite C. cbn [obind]. split.
  - destruct (S (ALG_LP 0)) as (k & c & E & Ea). rewrite E. cbn [obind]. rewrite Ea. done.
  - destruct (S ALG_PP) as (k & c & E & Ea). rewrite E. cbn [obind]. rewrite Ea. done.
Qed.
(** a tetrahedron whose four faces look outwards *)
Definition extetra : mesh := mkMesh [vzero; V3 1 0 0; V3 0 1 0; V3 0 0 1]
  [(0, 2, 1); (0, 1, 3); (0, 3, 2); (1, 2, 3)]%nat.
Lemma ex_tetra : mesh_ok extetra /\ (forall v, v ∈ verts extetra -> inside_mesh extetra v) /\
  ~ inside_mesh extetra (V3 1 1 1) /\ in_hull (verts extetra) (V3 (1/4) (1/4) (1/4)).
Proof.
  split_and!.
  - intros i j k H. cbn in H. repeat (apply elem_of_cons in H as [H|H]; [injection H as -> -> ->; cbn; lia|]). inversion H.
  - intros v Hv i j k a b c H Ha Hb Hc. cbn in H.
    repeat (apply elem_of_cons in Hv as [-> |Hv];
      [repeat (apply elem_of_cons in H as [H|H]; [injection H as -> -> ->; cbn in Ha, Hb, Hc; injection Ha as <-; injection Hb as <-; injection Hc as <-; unfold volume, vdot, vcross, vsub, vzero; cbn; lra|]); inversion H|]).
    inversion Hv.
  - intros H. specialize (H 1%nat 2%nat 3%nat (V3 1 0 0) (V3 0 1 0) (V3 0 0 1)). assert (X : volume (V3 1 0 0) (V3 0 1 0) (V3 0 0 1) (V3 1 1 1) <= 0).
    { apply H; try done. cbn. do 3 (apply elem_of_cons; right). apply elem_of_cons. by left. }
    revert X. unfold volume, vdot, vcross, vsub. cbn. lra.
  - exists [1/4; 1/4; 1/4; 1/4]. split_and!; [done| |cbn; lra|].
    + repeat constructor; lra.
    + cbn. unfold vadd, vscale, vzero. cbn. apply (f_equal3 V3); lra.
Qed.
Lemma ex_setup lib alg : (forall k, setNew lib k = true) -> exists k c, setupLibrary exaxis lib exbody (exLR 0) alg 0 0 = Ok (k, c).
Proof.
  intros Hl. destruct (setup_defined exaxis exbody lib (exLR 0) alg 0 0) as [[k c] Hk]; [|done|eauto].
  intros e He. destruct (proj1 (proj2 (exLR_complete 0)) e He) as ([l Hl'] & Hn & Hr). exists l. done.
Qed.
Lemma exLR_items : skeys (positions (exLR 0)) = ["lf"; "rf"]%string.
Proof. reflexivity. Qed.
Lemma ex_contact_set : good_axis exaxis /\ (exists k c, setupLibrary exaxis exlib exbody (exLR 0) ALG_PP 0 0 = Ok (k, c) /\ length (cpts k) = 8%nat) /\
  exists k, computeContactConeForState exaxis exlib exbody (exLR 0) = Ok (Some k).
Proof.
  split_and!; [apply exaxis_good| |apply some_cone; [apply exlib_works|apply exLR_complete]].
  eexists _, _. split; [reflexivity|]. reflexivity.
Qed.
Lemma ex_sole : vnorm2 (rnormal (exlimb 1)) = 1 /\ -1 + / 10 ^ 12 <= vz (rnormal (exlimb 1)) /\ is_rotation ProjModel.mid /\
  exists ps, computeRectangleContact exaxis "lf" (exlimb 1) exL 0 0 = Ok ps.
Proof. split_and!; [unfold vnorm2, vdot; cbn; ring|cbn; lra|apply mid_rotation|]. eexists. reflexivity. Qed.
Lemma ex_inputs : rstatic exbody = true /\ (6 <= rextra exbody)%nat /\
  (rconfSize exbody - rextra exbody + 6 <= length (configuration (exLR 0)))%nat /\
  IsStable exaxis exlib exbody (exLR 0) (V3 1 2 3) vzero (ALG_LP 0) = IsStable exaxis exlib exbody (exLR 0) vzero vzero (ALG_LP 0).
Proof.
  split_and!; [done|cbn; lia|cbn; lia|]. rewrite (proj1 ex_stable).
  destruct (chosen_acc exbody (exLR 0) (V3 1 2 3)) as [H _]. unfold IsStable. rewrite H by (left; intros X; injection X; lra). cbn [obind].
  destruct ex_stable as [E _]. unfold IsStable in E. destruct (chosen_acc exbody (exLR 0) vzero) as [_ H']. rewrite H' in E; [|done|cbn; lia|cbn; lia].
  exact E.
Qed.
Lemma ex_cone : exists Hh, ComputeCentroidalCone exaxis exlib exbody (exLR 0) = Ok Hh /\ length (fst Hh) = 2%nat.
Proof. destruct (ex_setup exlib ALG_PP) as (k & c & E); [done|]. unfold ComputeCentroidalCone. rewrite E. cbn [obind]. eexists. split; [reflexivity|]. done. Qed.
Definition badlib : eqlib := mkEqlib (fun _ => true) (fun _ _ _ => (LP_OPTIMAL, true)) (fun _ _ _ => (LP_OPTIMAL, 3)) (fun _ => (LP_INFEASIBLE, ([], []))) vzero.
Lemma ex_bad_cone : exists Hh, ComputeCentroidalCone exaxis badlib exbody (exLR 0) = Ok Hh /\ forall w, in_polytope Hh w.
Proof.
  destruct (ex_setup badlib ALG_PP) as (k & c & E); [done|]. assert (exists Hh, ComputeCentroidalCone exaxis badlib exbody (exLR 0) = Ok Hh) as [Hh EH].
  { unfold ComputeCentroidalCone. rewrite E. cbn [obind]. eexists. reflexivity. }
  exists Hh. split; [done|]. destruct (cone_result exaxis badlib exbody _ _ EH) as (k' & c' & _ & _ & H). apply H. done.
Qed.
Lemma ex_kinematics : lawful_body exbody /\ known_limbs exbody (exLR 0) /\ within_reach exbody (exLR 0) (V3 0 0 1) /\
  ~ within_reach exbody (exLR 0) (V3 0 0 3).
Proof.
  split_and!; [apply exbody_lawful|apply exLR_complete|apply ex_within|].
  intros H. assert (X : inside (rkin (exlimb 1)) (reffpose (exlimb 1) (configuration (exLR 0))) (V3 0 0 3)) by (apply (H "lf"%string); reflexivity).
  specialize (X (V3 0 0 1) (V3 0 0 2)). assert (Y : vdot (V3 0 0 1) (vsub (in_frame (SE3 ProjModel.mid (V3 0 1 0)) (V3 0 0 3)) (V3 0 0 2)) <= 0).
  { apply X. cbn. apply elem_of_cons. right. by apply elem_of_list_singleton. }
  revert Y. unfold in_frame, vdot, vsub, mapp, mtr, ProjModel.mid, vdot. cbn. lra.
Qed.
Lemma ex_balance : exists k Ab, computeContactConeForState exaxis exlib exbody (exLR 0) = Ok (Some k) /\
  computeStabilityConstraints exlib exbody k vzero = Some Ab /\ nonzero_rows exlib k /\
  feasible Ab (V3 0 0 1) /\ ~ feasible Ab (V3 0 (-1) 1).
Proof.
  destruct (some_cone exaxis exlib exbody (exLR 0) exlib_works (proj1 (proj2 (exLR_complete 0)))) as [k Hk].
  assert (exists Ab, computeStabilityConstraints exlib exbody k vzero = Some Ab) as [Ab HAb] by (eexists; reflexivity).
  exists k, Ab. pose proof (balance_rows _ _ _ _ _ HAb (exlib_good k)) as HB. split_and!; [done|done|apply exlib_good| |].
  - apply HB. destruct (ex_state_balanced (exLR 0) 0 (proj1 (proj2 (exLR_complete 0)))) as (k' & Hk' & _ & Hb). rewrite Hk in Hk'. injection Hk' as <-. exact Hb.
  - intros H. apply HB in H. specialize (H 1%nat (R6 vzero (V3 1 0 0)) 100 eq_refl eq_refl). revert H.
    unfold dot6, gi_wrench, norm6, vdot, vcross, vscale, vsub, vzero, vnorm2, vdot. cbn.
    replace (_ + (1 * 1 + 0 * 0 + 0 * 0)) with 1 by ring. rewrite sqrt_1. lra.
Qed.
Lemma ex_no_break : exists r, isReachableIntermediate exaxis exlib exbody exqp exL exL (exLR 0) = Ok r /\ rstatus r = REACHABLE.
Proof.
  destruct ex_reach_created as (rc & Ec & Sc). rewrite intermediate_eq.
  assert (Eb : isReachable exaxis exlib exbody exqp exL exL vzero false = Ok (resultOf NO_CONTACT_VARIATION)).
  { apply reachW_none. intros e [H|H]; destruct (proj1 H) as [p Hp]; revert H; eapply same_not_moved; exact Hp. }
  rewrite Eb. cbn [obind]. rewrite Ec. cbn [obind]. unfold success. rewrite Sc. cbn. eexists. done.
Qed.
Lemma ex_guard : exists r q', isReachableDynamic exaxis exlib exbody exqp exsolve exL (exLR 0) false [] 0 = Ok (r, q') /\
  rstatus r = SAME_ROOT_POSITION.
Proof.
  destruct (dynamic_defined exaxis exlib exbody exqp exsolve exL (exLR 0) [] 0 exL_complete (exLR_complete 0)) as [[r q'] Hr]; [cbn; lia|cbn; lia|].
  exists r, q'. split; [done|]. destruct (guards exaxis exlib exbody exqp exsolve _ _ _ _ _ _ _ Hr) as [H _]. by apply H.
Qed.
