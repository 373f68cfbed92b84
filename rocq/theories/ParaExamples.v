(** Cases for the properties of the parabolic jumps. *)
From Verif Require Import Maps Vec ParaModel ParaSpec ParaProofs ParaProofs2 ParaProofs3 ParaProofs4 ParaProofs5.
From Coq Require Import Psatz.
Local Open Scope R_scope.

(** a point with the six extra entries *)
Definition exdev : device := Dev 9 6 (fun a b u => zip_with (fun x y => (1 - u) * x + u * y) a b).
Definition exsteer : steering := Steer (981/100) 10 10 (1/1000) 6 100.
Definition exq0 : config := [0; 0; 0; 0; 0; 0; 0; 0; 0].
Definition exq1 : config := [1; 0; 0; 0; 0; 0; 0; 0; 0].
Definition exq2 : config := [0; 1; 0; 0; 0; 0; 0; 0; 0].
Definition exfar : config := [100; 0; 0; 0; 0; 0; 0; 0; 0].
Definition accept (p : ppath) : bool := true.
Definition refuse (p : ppath) : bool := false.
Definition noRoms (q : config) : list string := [].

Lemma ex_lawful : lawful exdev.
Proof.
  split; [simpl; lia|]. split; [|split].
  - intros q1 q2 u H1 H2. simpl in *. rewrite zip_with_length. lia.
  - intros q1 q2 u i H1 H2 Hi. simpl in *.
    rewrite !qi_lookup, lookup_zip_with.
    destruct (lookup_lt_is_Some_2 q1 i ltac:(lia)) as [x Ex]. destruct (lookup_lt_is_Some_2 q2 i ltac:(lia)) as [y Ey].
    rewrite Ex, Ey. simpl. reflexivity.
  - intros q1 q2 u H1 H2. simpl in *. apply list_eq. intros i. rewrite !lookup_zip_with.
    destruct (q2 !! i) as [y|] eqn:Ey, (q1 !! i) as [x|] eqn:Ex; simpl; auto. f_equal. ring.
Qed.

Lemma ex_params : 0 < s_g exsteer /\ 0 < s_Dalpha exsteer /\ 0 <= s_V0max exsteer /\ 0 <= s_Vimpmax exsteer /\ s_g exsteer = 981/100.
Proof. simpl. lra. Qed.

Lemma low v T u : 0 < T -> vnorm v <= 10 -> vz (fall (981/100) (qpos exq0) v u) <= 100.
Proof.
  intros HT Hv. apply le_vnorm in Hv. unfold vnorm2, vdot in Hv. unfold fall, vadd, vscale, qpos. cbn [vx vy vz exq0 qi nth].
  pose proof (sqr_pos (vx v)). pose proof (sqr_pos (vy v)).
  assert (vz v * vz v <= 100) by lra. assert (vz v <= 10) by nra.
  pose proof (sqr_pos (u * (981/100) - vz v)). nra.
Qed.

Lemma atan_margin : 1/1000 <= atan (981/200).
Proof.
  pose proof PI2_3_2. assert (atan 1 <= atan (981/200)). { apply Rlt_le, atan_increasing. lra. }
  rewrite atan_1 in H0. lra.
Qed.

Lemma ex_jump_gen q : length q = 9%nat -> apart exq0 q -> hdist exq0 q = 1 -> qi q 2 = 0 -> forall v,
  vx v * vx v + vy v * vy v = 1 -> vz v = 981/200 -> fall (981/100) (qpos exq0) v 1 = qpos q ->
  exists t tried, compute_3D_path accept noRoms exdev exsteer exq0 q = Ok (Some t, tried).
Proof.
  intros Hl Hap Hh Hz v Hv1 Hvz Hf. destruct ex_params as (Hg & HD & HV & HW & Hgv).
  destruct (compute_total accept noRoms exdev exsteer exq0 q) as (o & tried & E); [simpl; lia|simpl; lia|].
  destruct o as [t|]; [eauto|exfalso]. destruct tried as [|p tried].
  - destruct (jump_impossible accept noRoms exdev exsteer Hg HD HV exq0 q Hap E v 1) as [H|(u & Hu & H)]; try (simpl; lra); auto.
    + apply vnorm_le; [simpl; lra|]. unfold vnorm2, vdot. rewrite Hvz, Hv1. simpl. lra.
    + apply vnorm_le; [simpl; lra|]. unfold vnorm2, vdot, fallVelocity, vadd. cbn [vx vy vz]. rewrite Hvz. simpl. rewrite !Rplus_0_r, Hv1. lra.
    + rewrite Hv1, Hvz, sqrt_1, Hh, Hz in H. unfold exq0, qi in H. cbn [nth] in H. replace ((0 - 0) / 1) with 0 in H by field. rewrite atan_0 in H.
      replace (981 / 200 / 1) with (981/200) in H by field. pose proof atan_margin. simpl in H. lra.
    + simpl in H. assert (vnorm v <= 10) by (apply vnorm_le; [lra|]; unfold vnorm2, vdot; rewrite Hvz, Hv1; lra).
      pose proof (low v 1 u ltac:(lra) H0). unfold fall, vadd, vscale, qpos in *. cbn [vx vy vz] in *. simpl in *. lra.
  - destruct (jump_refused accept noRoms exdev exsteer Hg HD HV HW exq0 q Hap (p :: tried) ltac:(discriminate) E) as [_ HF].
    destruct (HF p ltac:(set_solver)) as (_ & _ & Hv & _ & T & HT & _ & [Hb|(u & _ & Hb)]); [discriminate|].
    pose proof (low (p_V0 p) T u HT Hv) as Hlow. cbn [s_g exsteer s_zmax] in Hb, Hlow. lra.
Qed.

Lemma ex_hdist1 : hdist exq0 exq1 = 1.
Proof. unfold hdist. cbn. replace ((1 - 0) * (1 - 0) + (0 - 0) * (0 - 0)) with 1 by ring. apply sqrt_1. Qed.
Lemma ex_hdist2 : hdist exq0 exq2 = 1.
Proof. unfold hdist. cbn. replace ((0 - 0) * (0 - 0) + (1 - 0) * (1 - 0)) with 1 by ring. apply sqrt_1. Qed.
Lemma ex_jump : exists t tried, compute_3D_path accept noRoms exdev exsteer exq0 exq1 = Ok (Some t, tried).
Proof.
  apply (ex_jump_gen exq1) with (v := V3 1 0 (981/200)); auto; [left; cbn; lra|apply ex_hdist1|cbn; lra|].
  apply vec3_eq; cbn; lra.
Qed.
Lemma ex_jump_y : exists t tried, compute_3D_path accept noRoms exdev exsteer exq0 exq2 = Ok (Some t, tried).
Proof.
  apply (ex_jump_gen exq2) with (v := V3 0 1 (981/200)); auto; [right; cbn; lra|apply ex_hdist2|cbn; lra|].
  apply vec3_eq; cbn; lra.
Qed.
Lemma ex_far : apart exq0 exfar /\ compute_3D_path accept noRoms exdev exsteer exq0 exfar = Ok (None, []).
Proof.
  assert (Hap : apart exq0 exfar) by (left; cbn; lra). split; auto.
  destruct (direction exq0 exfar Hap) as (HL & _ & _ & HXY & _).
  assert (Eh : hdist exq0 exfar = 100).
  { unfold hdist. cbn. replace ((100 - 0) * (100 - 0) + (0 - 0) * (0 - 0)) with (100 * 100) by ring. apply sqrt_square. lra. }
  unfold compute_3D_path. rewrite HXY, Eh. unfold second_constraint. cbn [s_g s_V0max exsteer].
  assert (Rltb (-2 * 100 * 10 * 10 * (-2 * 100 * 10 * 10) - 4 * (981 / 100 * 100 * 100) * (981 / 100 * 100 * 100 + 2 * (qi exfar 2 - qi exq0 2) * 10 * 10)) 0 = true) as ->; [|reflexivity].
  apply Rltb_true. cbn. lra.
Qed.
Lemma ex_refused : exists tried, tried <> [] /\ compute_3D_path refuse noRoms exdev exsteer exq0 exq1 = Ok (None, tried).
Proof.
  assert (Hap : apart exq0 exq1) by (left; cbn; lra). destruct ex_params as (Hg & HD & HV & HW & Hgv).
  destruct (compute_total refuse noRoms exdev exsteer exq0 exq1) as (o & tried & E); [simpl; lia|simpl; lia|].
  destruct o as [t|].
  - exfalso. destruct (jump_returned refuse noRoms exdev exsteer Hg HD HV HW exq0 exq1 Hap t tried E) as (_ & _ & _ & _ & _ & _ & H & _). discriminate.
  - exists tried. split; auto. intros ->.
    destruct (jump_impossible refuse noRoms exdev exsteer Hg HD HV exq0 exq1 Hap E (V3 1 0 (981/200)) 1) as [H|(u & Hu & H)]; try (simpl; lra); auto.
    + apply vec3_eq; cbn; lra.
    + apply vnorm_le; [simpl; lra|]. unfold vnorm2, vdot. simpl. lra.
    + apply vnorm_le; [simpl; lra|]. unfold vnorm2, vdot, fallVelocity, vadd. simpl. lra.
    + rewrite ex_hdist1 in H. cbn [vx vy vz] in H. replace (1 * 1 + 0 * 0) with 1 in H by ring. rewrite sqrt_1 in H.
      unfold exq0, exq1, qi in H. cbn [nth] in H. replace ((0 - 0) / 1) with 0 in H by field. rewrite atan_0 in H.
      replace (981 / 200 / 1) with (981/200) in H by field. pose proof atan_margin. simpl in H. lra.
    + assert (vnorm (V3 1 0 (981/200)) <= 10) by (apply vnorm_le; [lra|]; unfold vnorm2, vdot; simpl; lra).
      pose proof (low _ 1 u ltac:(lra) H0) as Hlow. cbn [s_g exsteer s_zmax] in H, Hlow. lra.
Qed.

Definition exppath : ppath := PPath exq0 exq1 1 (Coefs (-1) 1 0 0 (PI/4) 2 0) (V3 2 0 2) (V3 2 0 (-2)) ["foot"%string] [].
Lemma ex_path : jump_path exdev exppath.
Proof. unfold jump_path. simpl. rewrite cos_0, sin_0. cbn. repeat split; lra. Qed.
Lemma ex_offset : exists q1, qi q1 1 * cos 0 <> qi q1 0 * sin 0.
Proof. exists exq2. rewrite cos_0, sin_0. cbn. lra. Qed.
