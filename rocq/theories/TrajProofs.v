(** Proofs about the trajectories of the centre of mass and of the effectors. *)
From Verif Require Import Maps Vec VecProofs ParaModel ParaSpec ParaProofs4 TrajModel TrajSpec.
From Coq Require Import Psatz.
Local Open Scope R_scope.

Ltac vec_eq := unfold vadd, vscale, vsub; cbn; f_equal.

(** * ComTrajectory *)
Lemma ct_zero p : ct_at p 0 = ct_init p.
Proof. unfold ct_at. rewrite (proj2 (Reqb_true 0 0) eq_refl). reflexivity. Qed.
Lemma ct_full p : ct_len p <> 0 -> ct_at p (ct_len p) = ct_end p.
Proof.
  intros H. unfold ct_at. rewrite (proj2 (Reqb_false _ _) H), (proj2 (Reqb_true (ct_len p) (ct_len p)) eq_refl).
  reflexivity.
Qed.
Lemma ct_null p t : ct_len p = 0 -> ct_at p t = ct_init p.
Proof. intros H. unfold ct_at. rewrite (proj2 (Reqb_true _ _) H), orb_true_r. reflexivity. Qed.
Lemma ct_motion p t : ct_len p <> 0 -> t <> ct_len p -> ct_at p t = comMotion p t.
Proof.
  intros H Ht. unfold ct_at. rewrite (proj2 (Reqb_false _ _) H), orb_false_r.
  destruct (Reqb t 0) eqn:E.
  - apply Reqb_true in E. subst t. unfold comMotion, motion. destruct (ct_init p), (ct_speed p), (ct_acc p). vec_eq; field.
  - rewrite (proj2 (Reqb_false _ _) Ht). unfold ct_normalize. rewrite (proj2 (Reqb_false _ _) H).
    replace ((t - 0) / (ct_len p - 0) * ct_len p) with t by (field; lra).
    unfold comMotion, motion. destruct (ct_init p), (ct_speed p), (ct_acc p). vec_eq; field.
Qed.
Lemma ct_consistent p : 0 < ct_len p ->
  (consistent p <-> forall t, 0 <= t <= ct_len p -> ct_at p t = comMotion p t).
Proof.
  intros H. split.
  - intros [_ E] t Ht. destruct (Req_EM_T t (ct_len p)) as [->|N].
    + rewrite ct_full by lra. exact E.
    + apply ct_motion; lra.
  - intros E. split; [exact H|]. rewrite <- E by lra. symmetry. apply ct_full. lra.
Qed.
Lemma ct_extract_speed p a : ct_len p <> 0 ->
  ct_normalize p a * ct_len p = a.
Proof. intros H. unfold ct_normalize. rewrite (proj2 (Reqb_false _ _) H). field. lra. Qed.
Lemma motion_shift p a u : ct_len p <> 0 ->
  motion (comMotion p a) (vadd (vscale a (ct_acc p)) (ct_speed p)) (ct_acc p) u = comMotion p (a + u).
Proof. intros _. unfold comMotion, motion. destruct (ct_init p), (ct_speed p), (ct_acc p). vec_eq; field. Qed.
Lemma ct_extract_fields p a b : consistent p -> 0 <= a <= ct_len p -> 0 <= b <= ct_len p ->
  ct_extract p a b = CT (comMotion p a) (comMotion p b) (vadd (vscale a (ct_acc p)) (ct_speed p)) (ct_acc p) (Rabs (b - a)).
Proof.
  intros [H E] Ha Hb. pose proof (proj1 (ct_consistent p H) (conj H E)) as C. unfold ct_extract.
  rewrite ct_extract_speed by lra. rewrite !C by lra. f_equal.
  apply Rmin_left. unfold Rabs. destruct (Rcase_abs _); lra.
Qed.
Lemma ct_extract_forward p a b : consistent p -> 0 <= a -> a < b -> b <= ct_len p ->
  ct_len (ct_extract p a b) = b - a /\ consistent (ct_extract p a b) /\
  forall u, 0 <= u <= b - a -> ct_at (ct_extract p a b) u = ct_at p (a + u).
Proof.
  intros C Ha Hab Hb. rewrite ct_extract_fields by (try assumption; lra). rewrite Rabs_pos_eq by lra. cbn [ct_len].
  assert (C' : consistent (CT (comMotion p a) (comMotion p b) (vadd (vscale a (ct_acc p)) (ct_speed p)) (ct_acc p) (b - a))).
  { split; [cbn; lra|]. unfold comMotion at 3. cbn [ct_end ct_init ct_speed ct_acc ct_len].
    rewrite motion_shift by (destruct C; lra). f_equal. lra. }
  split; [reflexivity|]. split; [exact C'|]. intros u Hu.
  rewrite (proj1 (ct_consistent _ (proj1 C')) C' u) by (cbn; lra).
  rewrite (proj1 (ct_consistent p (proj1 C)) C (a + u)) by lra.
  unfold comMotion at 1. cbn [ct_end ct_init ct_speed ct_acc ct_len]. apply motion_shift. destruct C; lra.
Qed.
(** the forward extraction of any trajectory, away from its end *)
Lemma ct_extract_backward p a b : consistent p -> 0 <= b -> b < a -> a <= ct_len p ->
  ct_len (ct_extract p a b) = a - b /\ ct_init (ct_extract p a b) = ct_at p a /\ ct_end (ct_extract p a b) = ct_at p b /\
  forall u, 0 < u < a - b -> ct_at (ct_extract p a b) u = comMotion p (a + u).
Proof.
  intros C Hb Hab Ha. rewrite ct_extract_fields by (try assumption; lra). rewrite Rabs_left by lra. cbn [ct_len ct_init ct_end].
  pose proof (proj1 (ct_consistent p (proj1 C)) C) as E. rewrite !E by lra.
  split; [lra|]. split; [reflexivity|]. split; [reflexivity|]. intros u Hu.
  rewrite ct_motion by (cbn; lra). unfold comMotion at 1. cbn [ct_end ct_init ct_speed ct_acc ct_len].
  apply motion_shift. destruct C; lra.
Qed.
(** consequence: unless the motion is at rest the backward extraction is not the reverse *)
Lemma ct_backward_is_reverse_iff p a b : consistent p -> 0 <= b -> b < a -> a <= ct_len p ->
  (forall u, 0 <= u <= a - b -> ct_at (ct_extract p a b) u = ct_at p (a - u)) <->
  (vadd (vscale a (ct_acc p)) (ct_speed p) = V3 0 0 0).
Proof.
  intros C Hb Hab Ha. destruct (ct_extract_backward p a b C Hb Hab Ha) as (L & I0 & E0 & B).
  pose proof (proj1 (ct_consistent p (proj1 C)) C) as E.
  assert (D : forall u, comMotion p (a + u) = comMotion p (a - u) <-> vscale (2 * u) (vadd (vscale a (ct_acc p)) (ct_speed p)) = V3 0 0 0).
  { intros u. unfold comMotion, motion. destruct (ct_init p) as [i1 i2 i3], (ct_speed p) as [s1 s2 s3], (ct_acc p) as [a1 a2 a3].
    unfold vadd, vscale. cbn. split; intros H; injection H; intros; f_equal; lra. }
  split.
  - intros H. specialize (H ((a - b) / 2) ltac:(lra)). rewrite B in H by lra. rewrite E in H by lra.
    apply D in H. destruct (vadd _ _) as [x y z]. unfold vscale in H. cbn in H. injection H. intros.
    f_equal; apply Rmult_eq_reg_l with (2 * ((a - b) / 2)); lra.
  - intros V u Hu. destruct (Req_EM_T u 0) as [->|N0].
    + rewrite ct_zero, I0. f_equal. lra.
    + destruct (Req_EM_T u (a - b)) as [->|N1].
      * rewrite <- L at 1. rewrite ct_full by lra. rewrite E0. f_equal. lra.
      * rewrite B by lra. rewrite E by lra. apply D. rewrite V. unfold vscale. cbn. f_equal; lra.
Qed.

(** * PolynomTrajectory *)
Lemma pt_value p t : pt_stop p <> 0 -> pt_at p t = pt_pol p t.
Proof.
  intros H. unfold pt_at. rewrite (proj2 (Reqb_false _ _) H), orb_false_r. destruct (Reqb t _) eqn:E; [|reflexivity].
  apply Reqb_true in E. subst t. reflexivity.
Qed.
Lemma pt_null p t : pt_stop p = 0 -> pt_at p t = pt_pol p (pt_start p).
Proof. intros H. unfold pt_at. rewrite (proj2 (Reqb_true _ _) H), orb_true_r. reflexivity. Qed.
Lemma pt_ends p : pt_initial p = pt_pol p (pt_start p) /\ pt_end p = pt_pol p (pt_stop p) /\
  pt_at p (pt_start p) = pt_initial p /\ (pt_stop p <> 0 -> pt_at p (pt_stop p) = pt_end p) /\
  forall a b, pt_initial (pt_extract p a b) = pt_pol p a /\ pt_end (pt_extract p a b) = pt_pol p b.
Proof.
  split; [reflexivity|]. split; [reflexivity|]. split; [|split; [|split; reflexivity]].
  - unfold pt_at. rewrite (proj2 (Reqb_true _ _) eq_refl). reflexivity.
  - intros H. by rewrite pt_value.
Qed.

(** * BezierPath *)
Lemma setHead_length q v : length (setHead q v) = length q.
Proof. unfold setHead. rewrite !insert_length. reflexivity. Qed.
Lemma setHead_pos q v : (3 <= length q)%nat -> qpos (setHead q v) = v.
Proof.
  intros H. unfold setHead, qpos.
  rewrite (qi_insert_eq (<[1%nat:=_]> _) 2) by (rewrite !insert_length; lia).
  rewrite !(qi_insert_ne _ 2) by lia. rewrite (qi_insert_eq _ 1) by (rewrite !insert_length; lia).
  rewrite (qi_insert_ne _ 1) by lia. rewrite qi_insert_eq by lia. destruct v; reflexivity.
Qed.
Lemma setHead_other q v i : (3 <= i)%nat -> qi (setHead q v) i = qi q i.
Proof. intros H. unfold setHead. rewrite !qi_insert_ne by lia. reflexivity. Qed.

Lemma bz_in c t : bz_min c <= t <= bz_max c -> bz_at c t = Ok (bz_eval c t).
Proof. intros [H1 H2]. unfold bz_at. rewrite (proj2 (Rleb_true _ _) H1), (proj2 (Rleb_true _ _) H2). reflexivity. Qed.
Lemma bz_out c t : t < bz_min c \/ bz_max c < t -> bz_at c t = Throw.
Proof.
  intros [H|H]; unfold bz_at.
  - rewrite (proj2 (Rleb_false _ _) H). reflexivity.
  - rewrite (proj2 (Rleb_false _ _) H), andb_false_r. reflexivity.
Qed.
Lemma bp_inside d p t : standard d p -> bp_first p <= t <= bp_second p ->
  bp_at d p t = Ok (setHead (interp d (bp_initial p) (bp_final p) (t / bz_max (bp_curve p))) (bz_eval (bp_curve p) t)).
Proof.
  intros (M & F & O & P & X & _) [T1 T2]. unfold bp_at.
  rewrite (proj2 (Rltb_false _ _) T1), (proj2 (Rltb_false _ _) T2), (proj2 (Reqb_false (bp_second p) 0)) by lra.
  rewrite bz_in by lra. rewrite M. replace (0 + t / (bz_max (bp_curve p) - 0)) with (t / bz_max (bp_curve p)) by (field; lra).
  reflexivity.
Qed.
Lemma div_le_1 a b : 0 < b -> a <= b -> a / b <= 1.
Proof. intros Hb H. apply Rmult_le_reg_r with b; [exact Hb|]. unfold Rdiv. rewrite Rmult_assoc, Rinv_l by lra. lra. Qed.
Lemma div_ge_0 a b : 0 < b -> 0 <= a -> 0 <= a / b.
Proof. intros Hb H. apply Rmult_le_pos; [exact H|]. left. apply Rinv_0_lt_compat, Hb. Qed.
Lemma bp_ends d p : standard d p -> bp_init d p = bp_at d p (bp_first p) /\ bp_end d p = bp_at d p (bp_second p).
Proof.
  intros S. pose proof S as (M & F & O & P & X & _). rewrite !bp_inside by (try assumption; lra). unfold bp_init, bp_end.
  rewrite !bz_in by lra. rewrite M.
  replace (0 + bp_first p / (bz_max (bp_curve p) - 0)) with (bp_first p / bz_max (bp_curve p)) by (field; lra).
  replace (0 + bp_second p / (bz_max (bp_curve p) - 0)) with (bp_second p / bz_max (bp_curve p)) by (field; lra).
  assert (Q : 0 <= bp_first p / bz_max (bp_curve p)) by (apply div_ge_0; lra).
  assert (Q' : bp_second p / bz_max (bp_curve p) <= 1) by (apply div_le_1; lra).
  rewrite (proj2 (Rltb_false _ _) Q), (proj2 (Rltb_false _ _) Q'). split; reflexivity.
Qed.
Lemma bp_values d p t : lawful d -> standard d p -> bp_first p <= t <= bp_second p ->
  exists q, bp_at d p t = Ok q /\ length q = csize d /\ qpos q = bz_eval (bp_curve p) t /\
    forall i, (3 <= i)%nat -> qi q i = qi (interp d (bp_initial p) (bp_final p) (t / bz_max (bp_curve p))) i.
Proof.
  intros L S T. rewrite bp_inside by assumption. eexists. split; [reflexivity|].
  destruct L as (L3 & L & _). destruct S as (M & F & O & P & X & A1 & A2). specialize (L _ _ (t / bz_max (bp_curve p)) A1 A2).
  rewrite setHead_length. split; [exact L|]. split; [apply setHead_pos; lia|]. intros i Hi. apply setHead_other, Hi.
Qed.
Lemma bp_clamped d p t : standard d p ->
  (t < bp_first p -> bp_at d p t = bp_at d p (bp_first p)) /\ (bp_second p < t -> bp_at d p t = bp_at d p (bp_second p)).
Proof.
  intros S. destruct (bp_ends d p S) as [E1 E2]. pose proof S as (M & F & O & P & X & _). split; intros T.
  - rewrite <- E1. unfold bp_at at 1. rewrite (proj2 (Rltb_true _ _) T). reflexivity.
  - rewrite <- E2. unfold bp_at at 1. rewrite (proj2 (Rltb_false _ _)) by lra. rewrite (proj2 (Rltb_true _ _) T). reflexivity.
Qed.
(** a curve that does not start at 0: what is interpolated is not the fraction of the range *)
Lemma bp_parameter d p t : bz_min (bp_curve p) < bz_max (bp_curve p) -> bz_min (bp_curve p) <= bp_first p -> bp_second p <= bz_max (bp_curve p) ->
  bp_first p <= t <= bp_second p -> bp_second p <> 0 ->
  let T := bz_max (bp_curve p) - bz_min (bp_curve p) in
  let u := (t - bz_min (bp_curve p)) / T in
  bp_at d p t = Ok (setHead (interp d (bp_initial p) (bp_final p) (u + bz_min (bp_curve p) * (1 + / T))) (bz_eval (bp_curve p) t)).
Proof.
  intros M F X [T1 T2] Z T u. unfold bp_at.
  rewrite (proj2 (Rltb_false _ _) T1), (proj2 (Rltb_false _ _) T2), (proj2 (Reqb_false (bp_second p) 0)) by lra.
  rewrite bz_in by lra. do 3 f_equal. unfold u, T. field. lra.
Qed.
Lemma bp_outside d p t : bp_first p <= t <= bp_second p -> t < bz_min (bp_curve p) \/ bz_max (bp_curve p) < t -> bp_at d p t = Throw.
Proof.
  intros [T1 T2] H. unfold bp_at. rewrite (proj2 (Rltb_false _ _) T1), (proj2 (Rltb_false _ _) T2).
  rewrite bz_out by exact H. reflexivity.
Qed.
