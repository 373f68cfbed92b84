(** C172: generated configurations are free of collision (contact_generation.cc, algorithm.cc,
    rbprm-path-interpolation.cc, projection.cc, rbprm-fullbody.cc). *)
From Coq Require Import Reals ZArith Lra.
From Verif Require Import Maps CombModel GenModel GenSpec Vec StateModel StateSpec StateReal SampModel ToolModel ToolSpec ProjModel ProjSpec SeqModel SeqSpec
  SeqProofs2 SeqProofs7 SeqExamples HoldSpec HoldRobot HoldProofs HoldProofs2 HoldProofs3 HoldExamples StepSpec SafeSpec SafeProofs SafeProofs2 SafeExamples.
From Verif Require Import StateModel ToolSpec ProjModel.
Local Open Scope R_scope.

(** C172.  One call of the generator: the configuration returned is accepted by the validation of the
    whole robot; for this the previous one only matters when the contacts were repositioned in place. *)
Theorem C172_step {Cfg Pos Rot Cand Smp} (S : services Cfg Pos Rot Cand Smp) moved only fuel prev cfg threshold test quasi cr h :
  safe_services S only ->
  consistent prev -> (forall x, x ∈ order prev -> x ∈ limbNames S) ->
  ComputeContacts_next S moved fuel prev cfg threshold test quasi false = Some (cr, h) ->
  (repositionedInPlace cr = true -> validate S (configuration prev) = true) ->
  validate S (configuration (result (cr_rep cr))) = true.
Proof. exact (fun K => next_step_valid S moved only K fuel prev cfg threshold test quasi cr h). Qed.
Print Assumptions C172_step.
Theorem C172_initial {Cfg Pos Rot Cand Smp} (S : services Cfg Pos Rot Cand Smp) only cfg threshold r post :
  safe_services S only ->
  ComputeContacts_initial S cfg threshold false = (r, post) -> validate S cfg = true -> validate S (configuration r) = true.
Proof. exact (fun K => initial_valid S only K cfg threshold r post). Qed.
Print Assumptions C172_initial.
(** an obstacle is at 5: the arm, asked to be there, is put at 6; the robot that cannot follow repositions its leg at 6 *)
Example C172_step_case : safe_services vserv vonly /\
  ((consistent vstart /\ forall x, x ∈ order vstart -> x ∈ limbNames vserv) /\ validate vserv (configuration vstart) = true) /\
  ((exists cr h, ComputeContacts_next vserv (fun a b => negb (Nat.eqb a b)) 10 vstart (1, 5)%nat 3 false true false = Some (cr, h) /\
      repositionedInPlace cr = false /\ configuration (result (cr_rep cr)) = (1, 6)%nat /\ rstatus (cr_rep cr) = REACHABLE_CONTACT) /\
   exists cr h, ComputeContacts_next vserv (fun a b => negb (Nat.eqb a b)) 10 vstart (8, 2)%nat 3 false true false = Some (cr, h) /\
      repositionedInPlace cr = true /\ configuration (result (cr_rep cr)) = (6, 2)%nat) /\
  exists r, ComputeContacts_initial vserv (1, 2)%nat 3 false = (r, false) /\ configuration r = (6, 6)%nat /\ validate vserv (1, 2)%nat = true.
Proof. exact (conj vserv_safe (conj vstart_ok (conj vstep vfirst))). Qed.

(** With the robot's own projections and samples. *)
Theorem C172_robot {Cand} solve axis B (Sv : nat -> vec3 -> vec3 -> R -> services (list R) vec3 mat3 Cand (sample R)) threshold test quasi compute limbs :
  lawful_robot (dev B) -> sound_solver (dev B) solve ->
  generated Sv threshold test quasi false compute ->
  (forall k d a t, robot_services solve axis B (Sv k d a t) /\ safe_robot B (Sv k d a t) /\
     (forall x, x ∈ limbs -> groupOf (Sv k d a t) x = [x]) /\ limbNames (Sv k d a t) = limbs) ->
  keeps_valid B compute (fun s => consistent s /\ forall x, x ∈ order s -> x ∈ limbs).
Proof. exact (generated_safe solve axis B Sv threshold test quasi compute limbs). Qed.
Print Assumptions C172_robot.
Example C172_robot_case oct stab : lawful_robot (dev vbody) /\ sound_solver (dev vbody) hcheck /\
  robot_services hcheck (fun a _ => a) vbody (made hcheck (fun a _ => a) vbody oct stab hsamples) /\
  safe_robot vbody (made hcheck (fun a _ => a) vbody oct stab hsamples) /\
  (exists compute, generated (fun _ _ _ _ => made hcheck (fun a _ => a) vbody oct stab hsamples) 3 true true false compute) /\
  (wholeValid vbody (configuration hbegin) = true /\ wholeValid vbody (configuration hend) = true /\ wholeValid vbody (hq (-2)) = false).
Proof.
  split; [exact hrobot_lawful|]. split; [exact hcheck_sound|]. split; [apply vservices|]. split; [apply vsafe|]. split; [|exact vends].
  apply generated_exists. intros _ _ _ _. apply (sl_nodup _ (made_separate hcheck (fun a _ => a) vbody oct stab hsamples)).
Qed.

(** The whole sequence: also the states added on the way to the goal and those made by the filters. *)
Theorem C172_sequence compute confSize extra useReach reachable solve axis B start goal fuel pathEnd configs step init filt r (good : PSt -> Prop) :
  lawful_robot (dev B) -> sound_solver (dev B) solve ->
  reliable compute good -> keeps_valid B compute good -> good start ->
  wholeValid B (configuration start) = true -> wholeValid B (configuration goal) = true ->
  InterpolateConfigs compute confSize extra useReach reachable solve axis B start goal fuel pathEnd configs step init filt = Some (Ok r) ->
  forall f, f ∈ r -> wholeValid B (configuration (snd f)) = true.
Proof.
  exact (fun LR SS => whole_valid solve axis B LR SS useReach reachable compute confSize extra start goal fuel pathEnd configs step init filt r good).
Qed.
Print Assumptions C172_sequence.
Example C172_sequence_case : reliable hcomp (holds hbody) /\ keeps_valid vbody hcomp (holds hbody) /\ holds hbody hbegin /\
  (wholeValid vbody (configuration hbegin) = true /\ wholeValid vbody (configuration hend) = true /\ wholeValid vbody (hq (-2)) = false) /\
  exists r, InterpolateConfigs hcomp 9 0 false (fun _ _ => false) hcheck (fun a _ => a) vbody hbegin hend 10 None [hq 0; hq 1; hq 2] 1 0 false = Some (Ok r) /\
    r !! 0%nat = Some (0, hbegin) /\ last r = Some (0 + 1, hend).
Proof. exact (conj hcomp_reliable (conj vcomp_valid (conj (proj1 hcomp_run) (conj vends vcomp_run)))). Qed.
(** Both together: the library's generator, the goal and the filters. *)
Theorem C172_whole {Cand} solve axis B (Sv : nat -> vec3 -> vec3 -> R -> services (list R) vec3 mat3 Cand (sample R)) threshold test quasi compute limbs
  confSize extra useReach reachable start goal fuel pathEnd configs step init filt r :
  lawful_robot (dev B) -> sound_solver (dev B) solve ->
  generated Sv threshold test quasi false compute ->
  (forall k d a t, robot_services solve axis B (Sv k d a t) /\ safe_robot B (Sv k d a t) /\
     (forall x, x ∈ limbs -> groupOf (Sv k d a t) x = [x]) /\ limbNames (Sv k d a t) = limbs) ->
  NoDup limbs -> consistent start -> (forall x, x ∈ order start -> x ∈ limbs) ->
  wholeValid B (configuration start) = true -> wholeValid B (configuration goal) = true ->
  InterpolateConfigs compute confSize extra useReach reachable solve axis B start goal fuel pathEnd configs step init filt = Some (Ok r) ->
  forall f, f ∈ r -> wholeValid B (configuration (snd f)) = true.
Proof.
  exact (whole_safe solve axis B Sv threshold test quasi compute limbs confSize extra useReach reachable start goal fuel pathEnd configs step init filt r).
Qed.
Print Assumptions C172_whole.
