(** Concrete cases for the theorems about the heuristics. *)
From Coq Require Import Psatz.
From Verif Require Import Maps MapsProofs Vec VecProofs GeomModel GeomSpec HeurModel HeurSpec HeurProofs HeurProofs2 HeurProofs3 HeurProofs4 HeurProofs5.
Local Open Scope R_scope.

Definition square : list vec3 := [V3 0 0 0; V3 4 0 0; V3 0 4 0; V3 4 4 0; V3 2 2 0].
Lemma square_clear : no_confusion square.
Proof.
  intros p q Hp Hq. unfold square in *. repeat rewrite elem_of_cons in Hp. repeat rewrite elem_of_cons in Hq.
  unfold near, same_xy.
  destruct Hp as [->|[->|[->|[->|[->|Hp]]]]]; [..|by apply elem_of_nil in Hp];
  (destruct Hq as [->|[->|[->|[->|[->|Hq]]]]]; [..|by apply elem_of_nil in Hq]); cbn [vx vy];
  (split; [|split]); intros [H1 H2]; apply Rabs_def2 in H1 as [? ?]; apply Rabs_def2 in H2 as [? ?]; first [split; lra|lra].
Qed.
(** two points nearer than the tolerance: the second is lost *)
Definition tight : list vec3 := [V3 0 0 0; V3 (1 / 2000000000) 0 0].
Lemma tight_lost h : convexHull2D tight = Ok h -> ~ enclosed_by h tight.
Proof.
  intros E. destruct (hull_any tight) as (h' & E' & Hsub & Hap & _ & Hmin & _). rewrite E in E'. injection E' as <-.
  destruct Hmin as (p & Hp & Hle); [done|].
  assert (p = V3 0 0 0) as ->.
  { pose proof (Hsub p Hp) as Hin. unfold tight in Hin. rewrite !elem_of_cons in Hin. destruct Hin as [->|[->|Hin]]; [done| |by apply elem_of_nil in Hin].
    specialize (Hle (V3 0 0 0) (elem_of_list_here _ _)). cbn [vx] in Hle. lra. }
  assert (Hall : forall q, q ∈ h -> q = V3 0 0 0).
  { intros q Hq. pose proof (Hsub q Hq) as Hin. unfold tight in Hin. rewrite !elem_of_cons in Hin. destruct Hin as [->|[->|Hin]]; [done| |by apply elem_of_nil in Hin].
    exfalso. apply elem_of_list_lookup in Hp as [i Hi]. apply elem_of_list_lookup in Hq as [j Hj].
    assert (Hn : near (V3 0 0 0) (V3 (1 / 2000000000) 0 0) /\ near (V3 (1 / 2000000000) 0 0) (V3 0 0 0)).
    { unfold near. cbn [vx vy]. split; (split; [unfold Rabs; destruct (Rcase_abs _); lra|rewrite Rminus_eq_0, Rabs_R0; lra]). }
    destruct (decide (i < j)%nat) as [Hij|Hij]; [exact (Hap i j _ _ Hij Hi Hj (proj1 Hn))|].
    destruct (decide (j < i)%nat) as [Hji|Hji]; [exact (Hap j i _ _ Hji Hj Hi (proj2 Hn))|].
    assert (i = j) as -> by lia. rewrite Hi in Hj. injection Hj as Hj. lra. }
  intros H. specialize (H 1 0 0). assert (K : 1 * vx (V3 (1 / 2000000000) 0 0) + 0 * vy (V3 (1 / 2000000000) 0 0) <= 0); [|cbn [vx vy] in K; lra].
  apply H; [|unfold tight; apply elem_of_list_further, elem_of_list_here]. intros q Hq. rewrite (Hall q Hq). cbn [vx vy]. lra.
Qed.
Lemma grav : 1 / gravity = - (100000 / 980665).
Proof. unfold gravity. field. Qed.
(** moving and accelerating along y only: the acceleration is not dominated *)
Definition alongY : hparam ((vec3 * vec3 * vec3) * vec3) unit :=
  mkHP ∅ (V3 0 0 1) (V3 0 1 0) (V3 0 1000 0) "foot"%string ((V3 1 0 0, V3 0 1 0, V3 0 0 1), V3 0 0 1) None None None.
Lemma alongY_interest fuel : let w2 := 1 / gravity in interest fuel alongY = Some (V3 0 (-100 * w2 + w2 * 1000) 0) /\ Rabs (-100 * w2 * 1) < Rabs (w2 * 1000).
Proof.
  cbn zeta. split.
  - unfold interest. cbn [comSpeed comAcceleration comPosition alongY vx vy vz].
    assert (neq0 0 = false) as ->. { unfold neq0. apply negb_false_iff. by apply Reqb_true. }
    assert (neq0 (1 / gravity * 0) = false) as ->. { unfold neq0. apply negb_false_iff. apply Reqb_true. ring. }
    rewrite !andb_false_r. cbn [andb]. f_equal; f_equal; ring.
  - rewrite grav. unfold Rabs. destruct (Rcase_abs _), (Rcase_abs _); lra.
Qed.
(** along x the weight grows *)
Definition alongX : hparam ((vec3 * vec3 * vec3) * vec3) unit :=
  mkHP ∅ (V3 0 0 1) (V3 1 0 0) (V3 1000 0 0) "foot"%string ((V3 1 0 0, V3 0 1 0, V3 0 0 1), V3 0 0 1) None None None.
Lemma alongX_power : least_power (-100 * (1 / gravity)) 1 (1 / gravity * 1000) 6.
Proof.
  rewrite grav. split.
  - simpl. unfold Rabs. destruct (Rcase_abs _), (Rcase_abs _); lra.
  - intros j Hj. do 6 (destruct j as [|j]; [simpl; unfold Rabs; destruct (Rcase_abs _), (Rcase_abs _); lra|]). lia.
Qed.
