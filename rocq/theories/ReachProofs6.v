From Coq Require Import Reals Lra Lia Psatz.
From Verif Require Import SampModel.
From Verif Require Import ReachSpec MapsProofs VecProofs ProjProofs ProjProofs2 StateSpec StateProofs StateRealProofs
  StabProofs StabProofs2 ReachProofs ReachProofs2 ReachProofs3 ReachProofs4 ReachProofs5.
From Verif Require Import StateModel.
Local Open Scope R_scope.

Section D.
Context (axis : vec3 -> vec3 -> vec3) (lib : eqlib) (B : rbody)
  (qp : list (vec3 * R) -> mat3 * vec3 -> vec3 -> bool * vec3) (solveTraj : problem -> list R -> option Z -> comTraj).
Notation dyn := (isReachableDynamic axis lib B qp solveTraj).

Lemma mid_contacts prev next : complete_state B prev ->
  (forall e, is_Some (positions (midState prev next) !! e) -> is_Some (rlimbs B !! e) /\ is_Some (normals (midState prev next) !! e) /\
     is_Some (rotations (midState prev next) !! e)) /\ known_limbs B (midState prev next).
Proof.
  intros (_ & H & Hk). unfold midState. destruct (contactBreaks moved3 next prev) as [|b l].
  - rewrite copy_eq. done.
  - rewrite remove_eq. unfold RemoveContact. destruct (has b _); cbn [snd]; [|done]. split.
    + cbn [positions normals rotations]. intros e He. destruct (String.eqb_spec e b) as [->|Hne]; [rewrite lookup_delete in He; destruct He; done|].
      rewrite !lookup_delete_ne in * by done. by apply H.
    + intros e. cbn [contacts]. intros He. apply lookup_delete_Some in He as [_ He]. by apply Hk.
Qed.
Lemma some_cone s : working_lib lib -> (forall e, is_Some (positions s !! e) -> is_Some (rlimbs B !! e) /\ is_Some (normals s !! e) /\ is_Some (rotations s !! e)) ->
  exists k, computeContactConeForState axis lib B s = Ok (Some k).
Proof.
  intros W H. destruct (cone_defined axis lib B s H) as [o Eo]. pose proof Eo as E'. rewrite cone_eq in Eo.
  destruct (setupLibrary _ _ _ _ _ _ _) as [[k c]| |]; [|done|done]. rewrite (proj1 (W k)) in Eo. injection Eo as <-. eauto.
Qed.
(** with complete states and long enough configurations the dynamic test returns *)
Lemma dynamic_defined prev next tm npts : complete_state B prev -> complete_state B next ->
  let n := (rconfSize B - rextra B + 6)%nat in
  (n <= length (configuration prev))%nat -> (n <= length (configuration next))%nat ->
  exists r, dyn prev next false tm npts = Ok r.
Proof.
  intros Hp Hn n L1 L2. unfold isReachableDynamic. cbn zeta. fold (midState prev next).
  assert (El : (length (configuration prev) <? 3)%nat || (length (configuration next) <? 3)%nat = false).
  { apply orb_false_iff. split; apply Nat.ltb_ge; lia. }
  rewrite El. clear El. destruct (_ && _) ; [eauto|]. destruct (_ && _); [eauto|]. destruct (_ || _); [eauto|].
  destruct (_ && _); [eauto|]. destruct (_ && _); [eauto|]. cbn [obind].
  destruct (mid_contacts prev next Hp) as [Hm Hmk].
  destruct (kinematics_defined B prev) as [Kp ->]; [apply Hp|]. cbn [obind].
  assert (exists Km, (if (0 <? length (contactBreaks moved3 next prev))%nat then computeKinematicsConstraintsForState B (midState prev next) else Ok []) = Ok Km) as [Km ->].
  { destruct (_ <? _)%nat; [|eauto]. by apply kinematics_defined. }
  cbn [obind]. destruct (kinematics_defined B next) as [Kn ->]; [apply Hn|]. cbn [obind]. unfold conesOf.
  destruct (cone_defined axis lib B prev) as [kp ->]; [apply Hp|]. cbn [obind].
  destruct (cone_defined axis lib B (midState prev next)) as [km ->]; [done|]. cbn [obind].
  destruct (cone_defined axis lib B next) as [kn ->]; [apply Hn|]. cbn [obind].
  destruct kp; [|eauto]. destruct km; [|eauto]. destruct kn; [|eauto].
  assert (Eq : (length (configuration prev) <? rconfSize B - rextra B + 6)%nat || (length (configuration next) <? rconfSize B - rextra B + 6)%nat = false).
  { apply orb_false_iff. split; apply Nat.ltb_ge; lia. }
  rewrite Eq. destruct (_ =? _)%nat; [eauto|]. unfold timingsMatrix. cbn [map]. eauto.
Qed.
End D.
Lemma missing_all d : exists NV, loadConstraintsFromObj None d = Ok NV /\ forall T p, inside NV T p.
Proof. exists []. split; [apply loaded_missing|]. intros T p n v H. inversion H. Qed.
Lemma kinematics_outcome B s : (known_limbs B s <-> exists Ab, computeKinematicsConstraintsForState B s = Ok Ab) /\
  (computeKinematicsConstraintsForState B s = Throw <-> ~ known_limbs B s).
Proof.
  split; [|apply kinematics_throws]. split; [apply kinematics_defined|]. intros [Ab H].
  destruct (Classical_Prop.classic (known_limbs B s)) as [X|X]; [done|]. apply kinematics_throws in X. congruence.
Qed.
