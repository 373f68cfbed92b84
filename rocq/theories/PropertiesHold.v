(** C159: the contacts of every generated state hold in its configuration (contact_generation.cc,
    rbprm-path-interpolation.cc, projection.cc). *)
From Coq Require Import Reals ZArith Lra.
From Verif Require Import Maps CombModel GenModel GenSpec Vec StateModel StateSpec StateReal SampModel ToolModel ToolSpec ProjModel ProjSpec SeqModel SeqSpec
  SeqProofs7 SeqExamples HoldSpec HoldRobot HoldProofs HoldProofs2 HoldProofs3 HoldExamples.
From Verif Require Import StateModel ToolSpec ProjModel.
Local Open Scope R_scope.

(** C159.  One call of the generator: whatever happens (contacts kept, one broken, one created, the
    repositioning after a failure), in the returned state every effector with a contact is where the
    contact is recorded, if this is so in the previous state. *)
Theorem C159_step {Cfg Pos Rot Cand Smp} (S : services Cfg Pos Rot Cand Smp) moved near only fuel prev cfg threshold test quasi cr h :
  kinematics S near only -> separate_limbs S ->
  consistent prev -> (forall x, x ∈ order prev -> x ∈ limbNames S) -> held S near prev ->
  ComputeContacts_next S moved fuel prev cfg threshold test quasi false = Some (cr, h) ->
  held S near (result (cr_rep cr)).
Proof. exact (fun K L => next_step_held S moved near only K L fuel prev cfg threshold test quasi cr h). Qed.
Print Assumptions C159_step.
Theorem C159_initial {Cfg Pos Rot Cand Smp} (S : services Cfg Pos Rot Cand Smp) near only cfg threshold r post :
  kinematics S near only -> separate_limbs S ->
  ComputeContacts_initial S cfg threshold false = (r, post) -> held S near r.
Proof. exact (fun K L => initial_held S near only K L cfg threshold r post). Qed.
Print Assumptions C159_initial.
Example C159_step_case : (kinematics nserv nnear (fun e c c' => forall e', e' ∈ ["arm"; "leg"]%string -> e' <> e -> ntwo e' c = ntwo e' c') /\ separate_limbs nserv) /\
  (consistent nstart /\ (forall x, x ∈ order nstart -> x ∈ limbNames nserv) /\ held nserv nnear nstart) /\
  (exists cr h, ComputeContacts_next nserv (fun a b => negb (Nat.eqb a b)) 10 nstart (1, 2)%nat 3 false true false = Some (cr, h) /\
    success (cr_rep cr) = true /\ order (result (cr_rep cr)) = ["leg"; "arm"]%string /\ configuration (result (cr_rep cr)) = (1, 5)%nat) /\
  (exists cr h, ComputeContacts_next nserv (fun a b => negb (Nat.eqb a b)) 10 nstart (8, 2)%nat 3 false true false = Some (cr, h) /\
    positions (result (cr_rep cr)) !! "leg"%string = Some 5%nat /\ configuration (result (cr_rep cr)) <> (8, 2)%nat) /\
  exists r, ComputeContacts_initial nserv (1, 2)%nat 3 false = (r, false) /\ configuration r = (5, 5)%nat /\ length (order r) = 2%nat.
Proof. exact (conj (conj nserv_kinematics nserv_separate) (conj nstart_ok (conj nstep (conj nstep_reposition nfirst)))). Qed.

(** With the robot's own projections: the placements are within 0.1 mm (and 0.0001 rad for surfaces). *)
Theorem C159_robot {Cand} solve axis B (Sv : nat -> vec3 -> vec3 -> R -> services (list R) vec3 mat3 Cand (sample R)) threshold test quasi compute limbs :
  lawful_robot (dev B) -> sound_solver (dev B) solve -> chain_law (dev B) ->
  generated Sv threshold test quasi false compute ->
  (forall k d a t, robot_services solve axis B (Sv k d a t)) ->
  (forall k d a t, separate_limbs (Sv k d a t)) ->
  (forall k d a t, limbNames (Sv k d a t) = limbs) ->
  reliable compute (fun s => (consistent s /\ forall x, x ∈ order s -> x ∈ limbs) /\ holds B s).
Proof. exact (fun LR SS => generated_holds solve axis B LR SS Sv threshold test quasi compute limbs). Qed.
Print Assumptions C159_robot.
(** a robot with a leg and an arm, whose services call the projections *)
Example C159_robot_case oct stab : lawful_robot (dev hbody) /\ sound_solver (dev hbody) hcheck /\ chain_law (dev hbody) /\
  robot_services hcheck (fun a _ => a) hbody (made hcheck (fun a _ => a) hbody oct stab hsamples) /\
  separate_limbs (made hcheck (fun a _ => a) hbody oct stab hsamples) /\
  (exists compute, generated (fun _ _ _ _ => made hcheck (fun a _ => a) hbody oct stab hsamples) 3 true true false compute) /\
  forall limbs : list string, "leg"%string ∈ limbs -> consistent hstart /\ (forall x, x ∈ order hstart -> x ∈ limbs) /\ holds hbody hstart.
Proof.
  split; [exact hrobot_lawful|]. split; [exact hcheck_sound|]. split; [exact hchain|]. split; [apply hservices|].
  split; [apply made_separate|]. split; [|exact hstart_good].
  apply generated_exists. intros _ _ _ _. apply (sl_nodup _ (made_separate hcheck (fun a _ => a) hbody oct stab hsamples)).
Qed.
(** in general, such services can be made for any robot whose limbs are apart *)
Example C159_robot_made solve axis B oct stab smps :
  (forall e l, limbsOf B !! e = Some l -> is_Some (frames (dev B) !! effName l)) ->
  (forall e le fe x l, limbsOf B !! e = Some le -> frames (dev B) !! effName le = Some fe -> limbsOf B !! x = Some l -> e <> x ->
    forall j, above (dev B) (fjoint fe) j -> jname j <> limbJoint l) ->
  (forall limb x e le fe, is_Some (limbsOf B !! limb) -> x ∈ smps limb -> limbsOf B !! e = Some le -> frames (dev B) !! effName le = Some fe -> e <> limb ->
    forall j i, above (dev B) (fjoint fe) j -> entry_of j i -> ~ sets x i) ->
  robot_services solve axis B (made solve axis B oct stab smps).
Proof. exact (made_services solve axis B oct stab smps). Qed.

(** The whole sequence: states of the generator, states added on the way to the goal, states replaced
    by the filters. *)
Theorem C159_sequence compute confSize extra useReach reachable solve axis B start goal fuel pathEnd configs step init filt r (good : PSt -> Prop) :
  lawful_robot (dev B) -> sound_solver (dev B) solve ->
  reliable compute good -> (forall s, good s -> holds B s) -> good start -> holds B goal ->
  InterpolateConfigs compute confSize extra useReach reachable solve axis B start goal fuel pathEnd configs step init filt = Some (Ok r) ->
  forall f, f ∈ r -> holds B (snd f).
Proof.
  exact (fun LR SS => whole_holds solve axis B LR SS useReach reachable compute confSize extra start goal fuel pathEnd configs step init filt r good).
Qed.
Print Assumptions C159_sequence.
Example C159_sequence_case : reliable hcomp (holds hbody) /\ holds hbody hbegin /\ holds hbody hend /\ exists r,
  InterpolateConfigs hcomp 9 0 false (fun _ _ => false) hcheck (fun a _ => a) hbody hbegin hend 10 None [hq 0; hq 1; hq 2] 1 0 false = Some (Ok r) /\
  r !! 0%nat = Some (0, hbegin) /\ last r = Some (0 + 1, hend).
Proof. exact (conj hcomp_reliable hcomp_run). Qed.
(** Both together: the library's generator, the goal and the filters. *)
Theorem C159_whole {Cand} solve axis B (Sv : nat -> vec3 -> vec3 -> R -> services (list R) vec3 mat3 Cand (sample R)) threshold test quasi compute limbs
  confSize extra useReach reachable start goal fuel pathEnd configs step init filt r :
  lawful_robot (dev B) -> sound_solver (dev B) solve -> chain_law (dev B) ->
  generated Sv threshold test quasi false compute ->
  (forall k d a t, robot_services solve axis B (Sv k d a t) /\ separate_limbs (Sv k d a t) /\ limbNames (Sv k d a t) = limbs) ->
  consistent start -> (forall x, x ∈ order start -> x ∈ limbs) -> holds B start -> holds B goal ->
  InterpolateConfigs compute confSize extra useReach reachable solve axis B start goal fuel pathEnd configs step init filt = Some (Ok r) ->
  forall f, f ∈ r -> holds B (snd f).
Proof. exact (whole_generated solve axis B Sv threshold test quasi compute limbs confSize extra useReach reachable start goal fuel pathEnd configs step init filt r). Qed.
Print Assumptions C159_whole.
(** the hypotheses are those of [C159_robot_case]; with one configuration the answer is the start *)
Example C159_whole_case compute : InterpolateConfigs compute 9 0 false (fun _ _ => false) hcheck (fun a _ => a) hbody hstart hstart 1 None [hq 0] 1 0 true = Some (Ok [(0, hstart)]).
Proof. reflexivity. Qed.
