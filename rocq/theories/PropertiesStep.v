(** C169, C170: one step of the generator, exactly; the root of the robot (contact_generation.cc,
    algorithm.cc). *)
From Coq Require Import Reals ZArith.
From Verif Require Import Maps StateModel StateSpec StateProofs CombModel CombSpec GenModel GenSpec Vec SampModel ToolModel ToolSpec ProjModel ProjSpec HoldSpec HoldRobot HoldExamples
  StepSpec StepProofs StepProofs2 StepRobot StepExamples.
From Verif Require Import StateModel ToolSpec ProjModel.

(** C169.  A step either succeeds, and its state is that of the first set of contacts kept that can be
    completed (with the exact contact created, or none), or all attempts fail and the robot is
    repositioned.  It never does otherwise. *)
Theorem C169_step {Cfg Pos Rot Cand Smp} (S : services Cfg Pos Rot Cand Smp) moved fuel prev cfg threshold test quasi post cr h :
  consistent prev ->
  ComputeContacts_next S moved fuel prev cfg threshold test quasi post = Some (cr, h) ->
  let w := request prev cfg in
  (repositionedInPlace cr = false /\ success (cr_rep cr) = true /\
     exists r, succeeds S prev threshold test quasi post w (to_keep w) (rstatus (cr_rep cr)) r /\
       moved_to (copyExtra S (configuration r) cfg) r (result (cr_rep cr))) \/
  (repositionedInPlace cr = true /\ fails S prev threshold test quasi post w (to_keep w)).
Proof. exact (next_step_exact S moved fuel prev cfg threshold test quasi post cr h). Qed.
Print Assumptions C169_step.
(** success and failure exclude each other, and success determines the status and the state *)
Theorem C169_decided {Cfg Pos Rot Cand Smp} (S : services Cfg Pos Rot Cand Smp) prev threshold test quasi post w q status1 r1 :
  succeeds S prev threshold test quasi post w q status1 r1 ->
  ~ fails S prev threshold test quasi post w q /\
  forall status2 r2, succeeds S prev threshold test quasi post w q status2 r2 -> status1 = status2 /\ same_but_robustness r1 r2.
Proof.
  exact (fun H => conj (succeeds_fails S prev threshold test quasi post w q status1 r1 H)
    (fun status2 r2 H2 => succeeds_unique S prev threshold test quasi post w q status1 status2 r1 r2 H H2)).
Qed.
Print Assumptions C169_decided.
Example C169_step_case : (consistent nstart /\ (forall x, x ∈ order nstart -> x ∈ limbNames nserv) /\ held nserv nnear nstart) /\
  (exists cr h, ComputeContacts_next nserv (fun a b => negb (Nat.eqb a b)) 10 nstart (1, 2)%nat 3 false true false = Some (cr, h) /\
    success (cr_rep cr) = true /\ order (result (cr_rep cr)) = ["leg"; "arm"]%string /\ configuration (result (cr_rep cr)) = (1, 5)%nat) /\
  (exists cr h, ComputeContacts_next nserv (fun a b => negb (Nat.eqb a b)) 10 nstart (8, 2)%nat 3 false true false = Some (cr, h) /\
    positions (result (cr_rep cr)) !! "leg"%string = Some 5%nat /\ configuration (result (cr_rep cr)) <> (8, 2)%nat) /\
  completed kserv kstart 3 true true false ktwo STABLE_CONTACT (with_stable true ktwo).
Proof. exact (conj nstart_ok (conj nstep (conj nstep_reposition (ktwo_made kstart true true false)))). Qed.
(** The attempts are not independent: after a failed attempt the next candidate is compared with the
    state of that attempt.  Here breaking B from the request is a solution, but the step fails, as
    breaking A was tried before. *)
Theorem C169_not_reset : consistent kstart /\
  (exists r, maintained kserv true true (request kstart 1) ktwo ktwo /\ ktwo ∈ to_keep (request kstart 1) /\
     completed kserv kstart 3 true true false ktwo STABLE_CONTACT r) /\
  exists cr h, ComputeContacts_next kserv (fun a b => negb (Nat.eqb a b)) 10 kstart 1%nat 3 true true false = Some (cr, h) /\
    repositionedInPlace cr = true /\ success (cr_rep cr) = false.
Proof.
  split; [apply consistent_history|]. split; [|exact knot_reset]. exists (with_stable true ktwo). split; [exact ktwo_kept|].
  split; [|apply ktwo_made]. rewrite kstart_queue. right; right; left.
Qed.
Print Assumptions C169_not_reset.

(** C170.  After a step the root of the robot is exactly where it was asked for, whatever contacts are
    broken and created; if the robot had to be repositioned, it is exactly where it was before. *)
Theorem C170_root {Cfg Pos Rot Cand Smp} (S : services Cfg Pos Rot Cand Smp) moved same_root only fuel prev cfg threshold test quasi cr h :
  root_services S same_root only -> consistent prev -> (forall x, x ∈ order prev -> x ∈ limbNames S) ->
  ComputeContacts_next S moved fuel prev cfg threshold test quasi false = Some (cr, h) ->
  same_root (if repositionedInPlace cr then configuration prev else cfg) (configuration (result (cr_rep cr))).
Proof. exact (fun K => next_step_root S moved same_root only K fuel prev cfg threshold test quasi cr h). Qed.
Print Assumptions C170_root.
Example C170_root_case : root_services rserv (fun c c' => fst c = fst c') (fun _ c c' => fst c = fst c') /\
  (consistent rstart /\ forall x, x ∈ order rstart -> x ∈ limbNames rserv) /\
  (exists cr h, ComputeContacts_next rserv (fun a b => negb (Nat.eqb a b)) 10 rstart (4, (1, 2))%nat 3 false true false = Some (cr, h) /\
    repositionedInPlace cr = false /\ configuration (result (cr_rep cr)) = (4, (1, 5))%nat /\ rstatus (cr_rep cr) = REACHABLE_CONTACT) /\
  exists cr h, ComputeContacts_next rserv (fun a b => negb (Nat.eqb a b)) 10 rstart (4, (8, 2))%nat 3 false true false = Some (cr, h) /\
    repositionedInPlace cr = true /\ configuration (result (cr_rep cr)) = (0, (5, 2))%nat.
Proof. exact (conj rserv_root (conj rstart_ok rstep)). Qed.
(** With the robot's own projections: every joint above the limbs keeps its value.  [cut] are the first
    joints of the limbs, at least of those that make contact. *)
Theorem C170_robot {Cand} solve axis B (S : services (list R) vec3 mat3 Cand (sample R)) (cut : jnt -> Prop) moved fuel prev cfg threshold test quasi cr h :
  lawful_robot (dev B) -> sound_solver (dev B) solve -> (forall j, limb_root B j -> cut j) ->
  robot_services solve axis B S -> samples_of_limbs B cut S ->
  (forall x l ls, x ∈ limbNames S -> groupOf S x = l :: ls -> l ∈ limbNames S) ->
  consistent prev -> (forall x, x ∈ order prev -> x ∈ limbNames S) ->
  ComputeContacts_next S moved fuel prev cfg threshold test quasi false = Some (cr, h) ->
  forall j, reaches cut (tree (dev B)) j ->
    lockOf (configuration (result (cr_rep cr))) j = lockOf (if repositionedInPlace cr then configuration prev else cfg) j.
Proof.
  exact (fun LR SS Hcut H Hsm Hgr Hc Hl Hr => next_step_root S moved _ _ (robot_root solve axis B LR SS cut Hcut S H Hsm Hgr)
    fuel prev cfg threshold test quasi cr h Hc Hl Hr).
Qed.
Print Assumptions C170_robot.
Example C170_robot_case oct stab : lawful_robot (dev hbody) /\ sound_solver (dev hbody) hcheck /\
  robot_services hcheck (fun a _ => a) hbody (made hcheck (fun a _ => a) hbody oct stab hsamples) /\
  root_services (made hcheck (fun a _ => a) hbody oct stab hsamples) (same_base hbody (limb_root hbody))
    (fun x q q' => forall l, limbsOf hbody !! x = Some l -> elsewhere hbody l q q') /\
  samples_of_limbs hbody (limb_root hbody) (made hcheck (fun a _ => a) hbody oct stab hsamples) /\
  reaches (limb_root hbody) (tree (dev hbody)) htree.
Proof.
  split; [exact hrobot_lawful|]. split; [exact hcheck_sound|]. split; [apply hservices|]. split; [apply hbase_root|]. split; [apply hbase_samples|exact hbase_here].
Qed.
