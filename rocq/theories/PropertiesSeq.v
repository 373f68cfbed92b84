(** C125-C133: the sequence of contact states along a path (rbprm-path-interpolation.cc). *)
From Coq Require Import Reals ZArith Lra.
From Verif Require Import Maps Vec StateModel StateSpec StateReal ProjModel ProjSpec CombModel GenModel SeqModel SeqSpec
  SeqProofs SeqProofs2 SeqProofs3 SeqProofs4 SeqProofs5 SeqProofs6 SeqProofs7 SeqProofs8 SeqProofs9 SeqExamples.
Local Open Scope R_scope.

(** C125.  The path is sampled every [step], and at its end: the first configuration is that of the
    start state; the others have the values of the path (its configurations have [n] entries, the
    last [extra] are extra dofs) and the start state's values for the joints the path does not
    describe. *)
Theorem C125_sampling extra (path : R -> list R) n (start : list R) t0 t1 step :
  0 < step -> (forall t, length (path t) = n) -> (extra <= n)%nat -> (n <= length start)%nat ->
  exists K configs, (1 <= K)%nat /\ (forall k, (1 <= k < K)%nat -> t0 + INR k * step < t1) /\ t1 <= t0 + INR K * step /\
    (forall fuel, (K <= fuel)%nat -> pathConfigs fuel extra path t0 t1 step start = Some (Ok configs)) /\
    length configs = S K /\ configs !! 0%nat = Some start /\
    (forall k, (1 <= k < K)%nat -> exists c, configs !! k = Some c /\ mixed (n - extra) extra start (path (t0 + INR k * step)) c) /\
    exists c, configs !! K = Some c /\ mixed (n - extra) extra start (path t1) c.
Proof. exact (C125_lemma extra path n start t0 t1 step). Qed.
Print Assumptions C125_sampling.
Example C125_case : 0 < 1 / 2 /\ (forall t, length ((fun t : R => [t; 0; 1; 0; 0; 0; 1; 5]) t) = 8%nat) /\ (1 <= 8)%nat /\ (8 <= length (sq 0))%nat.
Proof. split; [lra|]. split; [reflexivity|]. split; [lia|simpl; lia]. Qed.

(** C126.  The loop ends, after at most 21 iterations per configuration, when the generator only
    fails (or breaks several contacts) after having repositioned contacts; with configurations of
    the robot's size, every state list is defined.  The library's generator is such, for limbs in
    groups of their own. *)
Theorem C126_ends compute confSize extra configs step init start (good : PSt -> Prop) :
  reliable compute good -> good start ->
  exists r, interpLoop compute confSize extra configs step (21 * length configs) (initial init start) = Some r.
Proof. exact (C126_lemma compute confSize extra configs step init start good). Qed.
Print Assumptions C126_ends.
Theorem C126_defined compute confSize extra configs step init start fuel o :
  sized compute confSize extra configs start ->
  interpLoop compute confSize extra configs step fuel (initial init start) = Some o -> exists b l, o = Ok (b, l).
Proof.
  intros [known H]. exact (interpLoop_sized compute confSize extra configs step start known H fuel _ o (inv2_initial compute confSize extra configs init start known H)).
Qed.
Print Assumptions C126_defined.
Theorem C126_generator {Cand Smp} (Sv : nat -> vec3 -> vec3 -> R -> services (list R) vec3 mat3 Cand Smp) threshold test quasi postural compute limbs :
  generated Sv threshold test quasi postural compute ->
  (forall k d a t, limbNames (Sv k d a t) = limbs) -> NoDup limbs ->
  (forall k d a t x, x ∈ limbs -> groupOf (Sv k d a t) x = [x]) ->
  reliable compute (fun s => consistent s /\ forall x, x ∈ order s -> x ∈ limbs).
Proof. exact (generated_reliable Sv threshold test quasi postural compute limbs). Qed.
Print Assumptions C126_generator.
(** with any robot and environment there is such a function *)
Example C126_generator_case {Cand Smp} (Sv : nat -> vec3 -> vec3 -> R -> services (list R) vec3 mat3 Cand Smp) threshold test quasi post :
  (forall k d a t, NoDup (limbNames (Sv k d a t))) -> exists compute, generated Sv threshold test quasi post compute.
Proof. exact (generated_exists Sv threshold test quasi post). Qed.
Example C126_case : reliable scomp (fun _ => True) /\ sized scomp 8 0 [sq 0; sq 1; sq 2] sstart.
Proof.
  split; [exact scomp_reliable|]. apply scomp_sized. intros c Hc. rewrite !elem_of_cons, elem_of_nil in Hc.
  destruct Hc as [->|[->|[->|[]]]]; reflexivity.
Qed.
(** a generator that is not reliable may keep the loop going for ever *)
Example C126_needed : forall fuel, interpLoop sbad 8 0 [sq 0; sq 1] 1 fuel (initial 0 sstart) = None.
Proof. exact sbad_never. Qed.

(** C127.  The states follow each other: the first one is the start state, at the initial time; times
    do not decrease; each state is the generator's answer from the state before, at one of the
    configurations, and is there because the contacts changed. *)
Theorem C127_chain compute confSize extra configs step init start (good : PSt -> Prop) fuel b l :
  reliable compute good -> good start -> 0 <= step ->
  interpLoop compute confSize extra configs step fuel (initial init start) = Some (Ok (b, l)) ->
  head l = Some (init, start) /\
  consecutive (fun x y => fst x <= fst y /\ exists o, (o <= 1)%nat /\ computed_from compute confSize extra configs step init o x y) l.
Proof. exact (fun Hr Hg Hs => C127_lemma compute confSize extra configs step init start good Hr Hg Hs fuel b l). Qed.
Print Assumptions C127_chain.
(** The list is cut short only after two calls that failed (or broke several contacts), or 21 calls
    that repositioned contacts. *)
Theorem C127_cut_short compute confSize extra configs step fuel init start l :
  interpLoop compute confSize extra configs step fuel (initial init start) = Some (Ok (false, l)) ->
  (exists fs, NoDup fs /\ (2 <= length fs)%nat /\ forall k, k ∈ fs -> refused compute k) \/
  (exists rs, NoDup rs /\ length rs = 21%nat /\ forall k, k ∈ rs -> repositions compute k).
Proof. exact (cut_short compute confSize extra configs step fuel init start l). Qed.
Print Assumptions C127_cut_short.
Example C127_cut_case : exists l, interpLoop srefuse 8 0 [sq 0; sq 1; sq 2; sq 0] 1 10 (initial 5 sstart) = Some (Ok (false, l)) /\ length l = 2%nat.
Proof. exact srefuse_cut. Qed.
Example C127_case : exists l, interpLoop scomp 8 0 [sq 0; sq 1; sq 2] 1 10 (initial 5 sstart) = Some (Ok (true, l)) /\
  map (fun f : sframe => (fst f, positions (snd f) !! "leg"%string, positions (snd f) !! "arm"%string, configuration (snd f))) l =
  [(5, Some (V3 0 0 0), None, sq 0); (5, Some (V3 1 0 0), None, sq 2);
   (5 + 1, Some (V3 1 0 0), Some (V3 1 0 1), sq 1); (5 + 1 + 1, Some (V3 1 0 0), Some (V3 1 0 1), sq 2)].
Proof. exact scomp_run. Qed.

(** C128.  Reaching the goal: the limbs whose contacts differ from the goal's are moved one at a time,
    and the goal is the last state if one only was left; otherwise none of the limbs left can be
    moved.  The robot's postural task is put back, unless an exception goes through. *)
Theorem C128_goal solve B goal pathEnd states t s r b :
  lawful_robot (dev B) -> sound_solver (dev B) solve ->
  last states = Some (t, s) -> addGoalConfig solve B goal pathEnd states = (Ok r, b) ->
  b = postural B /\
  exists V moves mids s2, NoDup V /\ (forall k, k ∈ V <-> differs goal s k) /\ NoDup moves /\ moves ⊆ V /\
    limbs_moved B goal moves s mids s2 /\
    ((length moves + 1 = length V)%nat /\
       r = states ++ map (pair t) mids ++ [(if (length V <=? 1)%nat then t else default t pathEnd, goal)] \/
     (length moves + 1 <> length V)%nat /\ r = states ++ map (pair t) mids /\
       forall x, x ∈ V -> x ∉ moves -> exists rep, replaceLimbContactForState solve B goal s2 x = Ok rep /\ psuccess rep = false).
Proof. exact (fun L S => C128_lemma solve B goal pathEnd L S states t s r b). Qed.
Print Assumptions C128_goal.
Theorem C128_one_limb B goal limb s s' k :
  limb_moved B goal limb s s' -> new_or_moved s s' k \/ new_or_moved s' s k -> k = limb.
Proof. exact (moved_one B goal limb s s' k). Qed.
Print Assumptions C128_one_limb.
Theorem C128_towards B goal limb s s' k :
  limb_moved B goal limb s s' -> (differs goal s' k <-> differs goal s k /\ k <> limb).
Proof. exact (moved_differs B goal limb s s' k). Qed.
Print Assumptions C128_towards.
(** a contact the goal does not have, looked at first: an exception, and the postural task stays
    disabled *)
Theorem C128_exception solve B goal pathEnd states t s : last states = Some (t, s) ->
  forall k1 k2 ks, contactVariations moved3 s goal = k1 :: k2 :: ks -> positions goal !! k1 = None -> rotations goal !! k1 = None ->
  addGoalConfig solve B goal pathEnd states = (Throw, false).
Proof. exact (C128_throw solve B goal pathEnd states t s). Qed.
Print Assumptions C128_exception.
Example C128_case : lawful_robot (dev sbody) /\ sound_solver (dev sbody) scheck /\
  exists s1, addGoalConfig scheck sbody sgoal (Some 7) [(3, snone)] = (Ok [(3, snone); (3, s1); (7, sgoal)], false) /\
  limb_moved sbody sgoal "arm" snone s1.
Proof. split; [exact srobot_lawful|]. split; [exact scheck_sound|exact ex_goal]. Qed.
Example C128_exception_case : addGoalConfig scheck sbody snone None [(3, sgoal)] = (Throw, false).
Proof. exact ex_goal_throw. Qed.

(** C129.  The filters: which states they take away. *)
Theorem C129_filters useReach reachable l :
  let reach := fun a b => useReach = true -> reachable a b = true in
  let FR := FilterRepositioning useReach reachable in let FB := FilterBreakCreate useReach reachable in
  (forall a l', l = a :: l' -> l' <> [] ->
     (exists res, FR l = a :: res /\ thinned (moves_again reach) a l' res) /\
     (exists res, FB l = a :: res /\ thinned (leaves_and_returns reach) a l' res) /\
     (exists res, FilterObsolete l = a :: res /\ pruned same_place a l' res)) /\
  (forall f, f ∈ [FR; FB; FilterObsolete] -> f l !! 0%nat = l !! 0%nat /\ last (f l) = last l /\ sublist (f l) l) /\
  consecutive (neighbours (moves_again reach) l) (FR l) /\ consecutive (neighbours (leaves_and_returns reach) l) (FB l).
Proof. exact (C129_lemma useReach reachable l). Qed.
Print Assumptions C129_filters.
Example C129_repositioning : FilterRepositioning false (fun _ _ => false) [f0; f1; f2] = [f0; f2].
Proof. exact ex_repositioning. Qed.
Example C129_break_create : FilterBreakCreate false (fun _ _ => false) [f0; f3; f0; f2] = [f0; f0; f2].
Proof. exact ex_break_create. Qed.
Example C129_obsolete : FilterObsolete [f0; f0; f2] = [f0; f2].
Proof. exact ex_obsolete. Qed.

(** C130.  A limb that moves twice: the two states in the middle are replaced by one where it has
    moved at once, or not yet. *)
Theorem C130_replace useReach reachable solve axis B l r :
  let reach := fun a b => useReach = true -> reachable a b = true in
  lawful_robot (dev B) -> sound_solver (dev B) solve ->
  (tryReplaceStates useReach reachable solve axis B l = Ok r ->
     replaced (moves_at_once reach axis B) false l r /\ r !! 0%nat = l !! 0%nat /\ last r = last l) /\
  (trySkipStates useReach reachable solve axis B l = Ok r ->
     replaced (moves_later reach axis B) true l r /\ r !! 0%nat = l !! 0%nat /\ last r = last l).
Proof. exact (C130_lemma useReach reachable solve axis B l r). Qed.
Print Assumptions C130_replace.
Example C130_replaced : exists s, tryReplaceStates false (fun _ _ => false) scheck (fun a _ => a) sbody [g0; g1; g2; g3] = Ok [g0; (1, s); g3].
Proof. exact ex_replacement. Qed.
Example C130_skipped : exists s, trySkipStates false (fun _ _ => false) scheck (fun a _ => a) sbody [h0; h1; h2; h3] = Ok [h0; (2, s); h3].
Proof. exact ex_skipping. Qed.

(** C131.  Filtering ends, and there is nothing left to filter. *)
Theorem C131_filtered useReach reachable solve axis B l fuel :
  let reach := fun a b => useReach = true -> reachable a b = true in
  let FS := FilterStates useReach reachable solve axis B in
  (length l < fuel)%nat -> exists o, FS fuel l true = Some o /\
  forall r, o = Ok r -> r !! 0%nat = l !! 0%nat /\ last r = last l /\ (length r <= length l)%nat /\
    FS fuel r true = Some (Ok r) /\
    no_three (fun a b c => moves_again reach (snd a) (snd b) (snd c)) r /\
    no_three (fun a b c => leaves_and_returns reach (snd a) (snd b) (snd c)) r /\
    no_three (fun a b c => same_place (snd a) (snd b)) r.
Proof. exact (C131_lemma useReach reachable solve axis B l fuel). Qed.
Print Assumptions C131_filtered.
Example C131_case : (length [f0; f1; f2] < 4)%nat /\ moves_again (fun _ _ => True) (snd f0) (snd f1) (snd f2).
Proof. split; [simpl; lia|exact ex_moves_again]. Qed.

(** C132.  The filters keep one change at a time. *)
Theorem C132_one_change useReach reachable l :
  consecutive (fun a b => one_change (snd a) (snd b)) l ->
  consecutive (fun a b => one_change (snd a) (snd b)) (FilterRepositioning useReach reachable l) /\
  (separated l -> consecutive (fun a b => one_change (snd a) (snd b)) (FilterBreakCreate useReach reachable l)) /\
  (separated l -> placed l -> consecutive (fun a b => one_change (snd a) (snd b)) (FilterObsolete l)).
Proof. exact (C132_lemma useReach reachable l). Qed.
Print Assumptions C132_one_change.
Example C132_case : consecutive (fun a b => one_change (snd a) (snd b)) [f0; f3; f1] /\ separated [f0; f3; f1] /\ placed [f0; f3; f1].
Proof. exact ex_one_change. Qed.

(** ... and so do the two functions that put one state in place of two, but for the contact they
    redo: it may end more than 1 cm from where it should be, because the offset of the limb is
    added to its position without being turned; not if the aimed rotation leaves the offset alone
    (and the solver is accurate to 1 mm, and normals have length at most 1). *)
Theorem C132_replaced useReach reachable solve axis B l r :
  lawful_robot (dev B) -> sound_solver (dev B) solve -> consecutive (fun a b => one_change (snd a) (snd b)) l -> separated l ->
  tryReplaceStates useReach reachable solve axis B l = Ok r \/ trySkipStates useReach reachable solve axis B l = Ok r ->
  consecutive (fun a b => one_change (snd a) (snd b) \/ exists limb, slipped limb (snd a) (snd b)) r /\
  (steady_offsets axis B l -> tol B <= 1 / 1000 -> consecutive (fun a b => one_change (snd a) (snd b)) r).
Proof. exact (C132_replaced_lemma useReach reachable solve axis B l r). Qed.
Print Assumptions C132_replaced.
(** the states of [C130_replaced] and [C130_skipped] *)
Example C132_replace_case : consecutive (fun a b => one_change (snd a) (snd b)) [g0; g1; g2; g3] /\ separated [g0; g1; g2; g3] /\
  steady_offsets (fun a _ => a) sbody [g0; g1; g2; g3] /\ tol sbody <= 1 / 1000.
Proof. exact ex_replace_case. Qed.
Example C132_skip_case : consecutive (fun a b => one_change (snd a) (snd b)) [h0; h1; h2; h3] /\ separated [h0; h1; h2; h3] /\
  steady_offsets (fun a _ => a) sbody [h0; h1; h2; h3] /\ tol sbody <= 1 / 1000.
Proof. exact ex_skip_case. Qed.

(** C133.  The whole function.  It ends (when the generator is reliable) and starts with the start
    state; without failures, every configuration is considered once, in order, and the goal comes
    last when it differs by one contact from the last state. *)
Theorem C133_ends compute confSize extra useReach reachable solve axis B start goal configs step init (good : PSt -> Prop) pathEnd filt :
  sized compute confSize extra configs start -> configs <> [] -> reliable compute good -> good start -> exists n o,
  (forall fuel, (n <= fuel)%nat ->
     InterpolateConfigs compute confSize extra useReach reachable solve axis B start goal fuel pathEnd configs step init filt = Some o) /\
  forall r, o = Ok r -> r !! 0%nat = Some (init, start).
Proof. exact (fun Hs Hn => whole_reliable compute confSize extra useReach reachable solve axis B start goal configs step init Hs Hn good pathEnd filt). Qed.
Print Assumptions C133_ends.
Theorem C133_no_failure compute confSize extra useReach reachable solve axis B start goal configs step init pathEnd filt :
  sized compute confSize extra configs start -> configs <> [] ->
  smooth compute confSize extra step 0 init (init, start) (configuration start) (tail configs) -> exists n o out,
  (forall fuel, (n <= fuel)%nat ->
     InterpolateConfigs compute confSize extra useReach reachable solve axis B start goal fuel pathEnd configs step init filt = Some o) /\
  followed compute confSize extra step 0 init (init, start) (configuration start) (tail configs) out /\
  forall r, o = Ok r -> r !! 0%nat = Some (init, start) /\
    forall t s k, last out = Some (t, s) -> (forall e, differs goal s e <-> e = k) -> last r = Some (t, goal).
Proof. exact (fun Hs Hn => whole_goal compute confSize extra useReach reachable solve axis B start goal configs step init Hs Hn pathEnd filt). Qed.
Print Assumptions C133_no_failure.
Theorem C133_states compute confSize extra configs step init start fuel :
  sized compute confSize extra configs start ->
  smooth compute confSize extra step 0 init (init, start) (configuration start) (tail configs) -> (length configs <= fuel)%nat -> exists out,
  interpLoop compute confSize extra configs step fuel (initial init start) = Some (Ok (true, (init, start) :: out)) /\
  followed compute confSize extra step 0 init (init, start) (configuration start) (tail configs) out.
Proof. intros [known Hs]. exact (smooth_lemma compute confSize extra configs step init start known Hs fuel). Qed.
Print Assumptions C133_states.
Example C133_case : sized ssm 8 0 [sq 0; sq 1; sq 2] sstart /\
  smooth ssm 8 0 1 0 0 (0, sstart) (configuration sstart) (tail [sq 0; sq 1; sq 2]) /\
  forall out, followed ssm 8 0 1 0 0 (0, sstart) (configuration sstart) (tail [sq 0; sq 1; sq 2]) out ->
    exists s, last out = Some (0 + 1, s) /\ forall e, differs send s e <-> e = "leg"%string.
Proof. split; [exact (ssm_sized _ sq_size)|]. split; [apply ssm_smooth|exact ssm_last]. Qed.
(** The same with a path: the configurations are those of the path every [step] ([path_sampled]). *)
Theorem C133_path compute confSize extra useReach reachable solve axis B start goal (p : R -> list R) n t0 t1 step (good : PSt -> Prop) filt :
  0 < step -> (forall t, length (p t) = n) -> (extra <= n)%nat /\ (n <= confSize)%nat ->
  sized compute confSize extra [] start -> reliable compute good -> good start -> exists m o,
  (forall fuel, (m <= fuel)%nat ->
     InterpolatePath compute confSize extra useReach reachable solve axis B start goal fuel (Some (p, t0, t1)) step filt = Some o) /\
  forall r, o = Ok r -> r !! 0%nat = Some (t0, start).
Proof. exact (fun H1 H2 H3 => path_ends compute confSize extra useReach reachable solve axis B start goal p n t0 t1 step H1 H2 H3 good filt). Qed.
Print Assumptions C133_path.
Theorem C133_path_states compute confSize extra useReach reachable solve axis B start goal (p : R -> list R) n t0 t1 step filt :
  0 < step -> (forall t, length (p t) = n) -> (extra <= n)%nat /\ (n <= confSize)%nat ->
  sized compute confSize extra [] start ->
  (forall K configs, path_sampled extra p n (configuration start) t0 t1 step K configs ->
     smooth compute confSize extra step 0 t0 (t0, start) (configuration start) (tail configs)) -> exists m o K configs out,
  path_sampled extra p n (configuration start) t0 t1 step K configs /\
  (forall fuel, (m <= fuel)%nat ->
     InterpolatePath compute confSize extra useReach reachable solve axis B start goal fuel (Some (p, t0, t1)) step filt = Some o) /\
  followed compute confSize extra step 0 t0 (t0, start) (configuration start) (tail configs) out /\
  forall r, o = Ok r -> r !! 0%nat = Some (t0, start) /\
    forall t s k, last out = Some (t, s) -> (forall e, differs goal s e <-> e = k) -> last r = Some (t, goal).
Proof. exact (fun H1 H2 H3 => path_smooth compute confSize extra useReach reachable solve axis B start goal p n t0 t1 step H1 H2 H3 filt). Qed.
Print Assumptions C133_path_states.
(** without a path the call throws *)
Theorem C133_no_path compute confSize extra useReach reachable solve axis B start goal fuel step filt :
  InterpolatePath compute confSize extra useReach reachable solve axis B start goal fuel None step filt = Some Throw.
Proof. exact (no_path compute confSize extra useReach reachable solve axis B start goal fuel step filt). Qed.
Print Assumptions C133_no_path.
Example C133_path_case : 0 < 1 / 2 /\ (forall t, length (sq t) = 8%nat) /\ ((0 <= 8)%nat /\ (8 <= 8)%nat) /\
  sized ssm 8 0 [] sstart /\ (forall configs, smooth ssm 8 0 (1 / 2) 0 0 (0, sstart) (configuration sstart) (tail configs)) /\ sized scomp 8 0 [] sstart /\ reliable scomp (fun _ => True).
Proof.
  split; [lra|]. split; [reflexivity|]. split; [split; lia|]. split; [|split; [intros; apply ssm_smooth|split; [|exact scomp_reliable]]].
  - apply ssm_sized. intros c Hc. inversion Hc.
  - apply scomp_sized. intros c Hc. inversion Hc.
Qed.
