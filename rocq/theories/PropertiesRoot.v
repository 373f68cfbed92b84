(** C171: the root of the robot along a generated sequence (rbprm-path-interpolation.cc,
    contact_generation.cc). *)
From Coq Require Import Reals ZArith Lra Lia.
From Verif Require Import Maps CombModel GenModel GenSpec Vec StateModel StateSpec StateReal SampModel ToolModel ToolSpec ProjModel ProjSpec SeqModel SeqSpec
  HoldSpec HoldRobot HoldExamples StepSpec StepRobot SeqExamples SeqProofs8 RootSpec RootProofs RootExamples.
From Verif Require Import StateModel ToolSpec ProjModel.
Local Open Scope R_scope.

(** C171.  Every state found along a list of configurations has its root exactly where the start has it, at
    the initial time, or where some configuration of the list has it, at the time of this configuration or
    always one step before. *)
Theorem C171_loop B (cut : jnt -> Prop) compute confSize extra configs step init start good fuel b l :
  sized compute confSize extra configs start -> reliable compute good -> rooted B cut compute good -> root_joints B cut -> good start ->
  interpLoop compute confSize extra configs step fuel (initial init start) = Some (Ok (b, l)) ->
  exists o, (o <= 1)%nat /\ forall f, f ∈ l -> at_start B cut start init f \/ at_config B cut configs step init o f.
Proof. intros [known H1] H2 H3 H4. exact (loop_root B cut compute confSize extra configs step init start good known H1 H2 H3 H4 fuel b l). Qed.
Print Assumptions C171_loop.
(** the library's generator is [rooted] *)
Theorem C171_generator {Cand} solve axis B (cut : jnt -> Prop) (Sv : nat -> vec3 -> vec3 -> R -> services (list R) vec3 mat3 Cand (sample R)) threshold test quasi compute limbs :
  lawful_robot (dev B) -> sound_solver (dev B) solve -> (forall j, limb_root B j -> cut j) ->
  generated Sv threshold test quasi false compute ->
  (forall k d a t, robot_services solve axis B (Sv k d a t) /\ samples_of_limbs B cut (Sv k d a t) /\
     (forall x, x ∈ limbs -> groupOf (Sv k d a t) x = [x]) /\ limbNames (Sv k d a t) = limbs) ->
  rooted B cut compute (fun s => consistent s /\ forall x, x ∈ order s -> x ∈ limbs).
Proof. exact (generated_rooted solve axis B cut Sv threshold test quasi compute limbs). Qed.
Print Assumptions C171_generator.
Example C171_generator_case oct stab : lawful_robot (dev hbody) /\ sound_solver (dev hbody) hcheck /\
  robot_services hcheck (fun a _ => a) hbody (made hcheck (fun a _ => a) hbody oct stab hsamples) /\
  samples_of_limbs hbody (limb_root hbody) (made hcheck (fun a _ => a) hbody oct stab hsamples) /\
  (forall x : string, groupOf (made hcheck (fun a _ => a) hbody oct stab hsamples) x = [x]) /\
  exists compute, generated (fun _ _ _ _ => made hcheck (fun a _ => a) hbody oct stab hsamples) 3 true true false compute.
Proof.
  split; [exact hrobot_lawful|]. split; [exact hcheck_sound|]. split; [apply hservices|]. split; [apply hbase_samples|]. split; [reflexivity|].
  apply generated_exists. intros _ _ _ _. apply (sl_nodup _ (made_separate hcheck (fun a _ => a) hbody oct stab hsamples)).
Qed.

(** The filters keep the time and the root: a frame of the answer has those of a frame given. *)
Theorem C171_filters solve axis B (cut : jnt -> Prop) useReach reachable fuel l deep r :
  lawful_robot (dev B) -> sound_solver (dev B) solve -> (forall j, limb_root B j -> cut j) ->
  FilterStates useReach reachable solve axis B fuel l deep = Some (Ok r) ->
  forall f, f ∈ r -> exists g, g ∈ l /\ fst g = fst f /\ same_base B cut (configuration (snd g)) (configuration (snd f)).
Proof. exact (filtered_root solve axis B cut useReach reachable fuel l deep r). Qed.
Print Assumptions C171_filters.

(** The whole function: the same, but for the states added at the end to reach the goal's contacts one by
    one ([limbs_moved] does not say where their roots are), at the time of the last state or of the end of
    the path. *)
Theorem C171_sequence solve axis B (cut : jnt -> Prop) compute confSize extra useReach reachable start goal fuel pathEnd configs step init filt r good :
  lawful_robot (dev B) -> sound_solver (dev B) solve -> (forall j, limb_root B j -> cut j) -> root_joints B cut ->
  sized compute confSize extra configs start -> reliable compute good -> rooted B cut compute good -> good start ->
  InterpolateConfigs compute confSize extra useReach reachable solve axis B start goal fuel pathEnd configs step init filt = Some (Ok r) ->
  exists o, (o <= 1)%nat /\
    ((forall f, f ∈ r -> at_start B cut start init f \/ at_config B cut configs step init o f) \/
     exists t s moves mids s2, (at_start B cut start init (t, s) \/ at_config B cut configs step init o (t, s)) /\
       limbs_moved B goal moves s mids s2 /\
       forall f, f ∈ r -> at_start B cut start init f \/ at_config B cut configs step init o f \/
         exists g, (g ∈ mids \/ g = goal) /\ same_base B cut (configuration g) (configuration (snd f)) /\ (fst f = t \/ Some (fst f) = pathEnd)).
Proof. exact (whole_root B cut solve axis compute confSize extra useReach reachable start goal fuel pathEnd configs step init filt r good). Qed.
Print Assumptions C171_sequence.
(** Along a path sampled every [step]: the root is that of the path at the time of the state, or always one
    step later. *)
Theorem C171_path solve axis B (cut : jnt -> Prop) compute confSize extra useReach reachable start goal fuel (p : R -> list R) n t0 t1 step filt r good :
  lawful_robot (dev B) -> sound_solver (dev B) solve -> (forall j, limb_root B j -> cut j) -> root_joints B cut ->
  0 < step -> (forall t, length (p t) = n) -> (7 + extra <= n)%nat /\ (n <= confSize)%nat ->
  sized compute confSize extra [] start -> reliable compute good -> rooted B cut compute good -> good start ->
  InterpolatePath compute confSize extra useReach reachable solve axis B start goal fuel (Some (p, t0, t1)) step filt = Some (Ok r) ->
  exists o, (o <= 1)%nat /\
    ((forall f, f ∈ r -> at_start B cut start t0 f \/ on_path B cut p t0 t1 step o f) \/
     exists t s moves mids s2, (at_start B cut start t0 (t, s) \/ on_path B cut p t0 t1 step o (t, s)) /\
       limbs_moved B goal moves s mids s2 /\
       forall f, f ∈ r -> at_start B cut start t0 f \/ on_path B cut p t0 t1 step o f \/
         exists g, (g ∈ mids \/ g = goal) /\ same_base B cut (configuration g) (configuration (snd f)) /\ (fst f = t \/ fst f = t1)).
Proof. exact (path_root solve axis B cut compute confSize extra useReach reachable start goal fuel p n t0 t1 step filt r good). Qed.
Print Assumptions C171_path.
(** a generator whose first call repositions a contact: the states follow the configurations with [o] = 1 *)
Example C171_case : lawful_robot (dev hbody) /\ sound_solver (dev hbody) hcheck /\ root_joints hbody (limb_root hbody) /\
  (forall configs, (forall c, c ∈ configs -> length c = 9%nat) -> sized rcomp 9 0 configs hbegin) /\
  reliable rcomp (fun _ => True) /\ rooted hbody (limb_root hbody) rcomp (fun _ => True) /\
  (forall t, length (hq t) = 9%nat) /\
  interpLoop rcomp 9 0 [hq 0; hq 1; hq 2] 1 10 (initial 0 hbegin) =
    Some (Ok (true, [(0, hbegin); (0, rafter 0); (0 + 1, rafter 1); (0 + 1 + 1, rafter 2)])) /\
  configuration hbegin = hq 0 /\ forall x, configuration (rafter x) = hq x.
Proof.
  exact (conj hrobot_lawful (conj hcheck_sound (conj hroot_joints (conj rcomp_sized (conj rcomp_reliable (conj (rcomp_rooted _)
    (conj (fun t => eq_refl) (conj rcomp_loop (conj eq_refl (fun x => eq_refl)))))))))).
Qed.

(** A generator that answers what the contact generation of the library reports, with services that keep
    the size of the configurations, meets the requirement of sizes. *)
Theorem C171_sizes {Cand} (Sv : nat -> vec3 -> vec3 -> R -> services (list R) vec3 mat3 Cand (sample R)) threshold test quasi compute limbs n extra configs start :
  generated Sv threshold test quasi false compute -> NoDup limbs ->
  (forall k d a t, keeps_size (Sv k d a t) n /\ (forall x, x ∈ limbs -> groupOf (Sv k d a t) x = [x]) /\ limbNames (Sv k d a t) = limbs) ->
  (7 <= n)%nat -> (extra <= n)%nat -> (extra <= 3)%nat \/ (6 <= extra)%nat ->
  consistent start -> (forall x, x ∈ order start -> x ∈ limbs) -> length (configuration start) = n -> (forall c, c ∈ configs -> length c = n) ->
  sized compute n extra configs start.
Proof. exact (generated_sized Sv threshold test quasi compute limbs n extra configs start). Qed.
Print Assumptions C171_sizes.
(** From the services to the sequence: with the contact generation of the library, the sequence of a path
    ends for every path, starts with the start state, and its roots are those of the path. *)
Theorem C171_library {Cand} solve axis B (cut : jnt -> Prop) (Sv : nat -> vec3 -> vec3 -> R -> services (list R) vec3 mat3 Cand (sample R)) threshold test quasi compute limbs
  confSize extra useReach reachable start goal (p : R -> list R) n t0 t1 step filt :
  lawful_robot (dev B) -> sound_solver (dev B) solve -> (forall j, limb_root B j -> cut j) -> root_joints B cut ->
  generated Sv threshold test quasi false compute -> NoDup limbs ->
  (forall k d a t, robot_services solve axis B (Sv k d a t) /\ samples_of_limbs B cut (Sv k d a t) /\ keeps_size (Sv k d a t) confSize /\
     (forall x, x ∈ limbs -> groupOf (Sv k d a t) x = [x]) /\ limbNames (Sv k d a t) = limbs) ->
  consistent start -> (forall x, x ∈ order start -> x ∈ limbs) -> length (configuration start) = confSize ->
  0 < step -> (forall t, length (p t) = n) -> (7 + extra <= n)%nat /\ (n <= confSize)%nat -> (extra <= 3)%nat \/ (6 <= extra)%nat ->
  exists m o, (forall fuel, (m <= fuel)%nat ->
    InterpolatePath compute confSize extra useReach reachable solve axis B start goal fuel (Some (p, t0, t1)) step filt = Some o) /\
  forall r, o = Ok r -> r !! 0%nat = Some (t0, start) /\ exists k, (k <= 1)%nat /\
    ((forall f, f ∈ r -> at_start B cut start t0 f \/ on_path B cut p t0 t1 step k f) \/
     exists t s moves mids s2, (at_start B cut start t0 (t, s) \/ on_path B cut p t0 t1 step k (t, s)) /\
       limbs_moved B goal moves s mids s2 /\
       forall f, f ∈ r -> at_start B cut start t0 f \/ on_path B cut p t0 t1 step k f \/
         exists g, (g ∈ mids \/ g = goal) /\ same_base B cut (configuration g) (configuration (snd f)) /\ (fst f = t \/ fst f = t1)).
Proof. exact (library_path solve axis B cut Sv threshold test quasi compute limbs confSize extra useReach reachable start goal p n t0 t1 step filt). Qed.
Print Assumptions C171_library.
(** a robot with a leg and an arm, a solver that checks, and the samples of the limbs *)
Example C171_library_case oct stab : lawful_robot (dev hbody) /\ sound_solver (dev hbody) hcheck /\ root_joints hbody (limb_root hbody) /\
  robot_services hcheck (fun a _ => a) hbody (hserv oct stab) /\ samples_of_limbs hbody (limb_root hbody) (hserv oct stab) /\ keeps_size (hserv oct stab) 9 /\
  (forall x, groupOf (hserv oct stab) x = [x]) /\ NoDup (limbNames (hserv oct stab)) /\
  (exists compute, generated (fun _ _ _ _ => hserv oct stab) 3 true true false compute) /\
  consistent hstart /\ (forall x, x ∈ order hstart -> x ∈ limbNames (hserv oct stab)) /\ length (configuration hstart) = 9%nat /\ (forall t, length (hq t) = 9%nat).
Proof.
  destruct (hserv_limbs oct stab) as [Hn Hl]. destruct (hstart_good _ Hl) as (Hc & Ho & _).
  split; [exact hrobot_lawful|]. split; [exact hcheck_sound|]. split; [exact hroot_joints|]. split; [apply hserv_robot|]. split; [apply hserv_samples|].
  split; [apply hserv_size|]. split; [reflexivity|]. split; [exact Hn|].
  split; [apply generated_exists; intros _ _ _ _; exact Hn|]. split; [exact Hc|]. split; [exact Ho|]. split; [reflexivity|]. reflexivity.
Qed.

(** The root is not that of the path, nor that of the goal, in the states added for the goal's contacts:
    with a robot, a solver and a generator as in [C171_sequence], the sequence of two configurations has a
    state whose root is neither theirs nor the goal's. *)
Theorem C171_goal_root_refuted : exists solve axis B compute start goal configs r,
  lawful_robot (dev B) /\ sound_solver (dev B) solve /\ root_joints B (limb_root B) /\
  sized compute 9 0 configs start /\ reliable compute (fun _ => True) /\ rooted B (limb_root B) compute (fun _ => True) /\
  InterpolateConfigs compute 9 0 false (fun _ _ => false) solve axis B start goal 10 (Some 1) configs 1 0 false = Some (Ok r) /\
  configs !! 0%nat = Some (configuration start) /\ last configs = Some (configuration goal) /\
  exists f, f ∈ r /\ ~ same_base B (limb_root B) (configuration start) (configuration (snd f)) /\
    ~ same_base B (limb_root B) (configuration goal) (configuration (snd f)) /\
    forall conf, conf ∈ configs -> ~ same_base B (limb_root B) conf (configuration (snd f)).
Proof.
  exists hmove, (fun a _ => a), hbody, jcomp, hbegin, hgoal, [hq 0; hq 1], [(0, hbegin); (0, hflying); (0, hreach); (1, hgoal)].
  split; [exact hrobot_lawful|]. split; [exact hmove_sound|]. split; [exact hroot_joints|].
  split; [apply jcomp_sized; intros c; rewrite !elem_of_cons, elem_of_nil; by intros [->|[->|[]]]|].
  split; [exact jcomp_reliable|]. split; [apply jcomp_rooted|]. split; [exact jump_run|]. split; [reflexivity|]. split; [reflexivity|].
  exists (0, hreach). split; [do 2 apply elem_of_list_further; apply elem_of_list_here|].
  split; [apply hreach_elsewhere; exists 0; split; [lra|reflexivity]|]. split; [apply hreach_elsewhere; exists 1; split; [lra|reflexivity]|].
  intros conf. rewrite !elem_of_cons, elem_of_nil. intros [->|[->|[]]]; apply hreach_elsewhere; [exists 0|exists 1]; (split; [lra|reflexivity]).
Qed.
Print Assumptions C171_goal_root_refuted.
