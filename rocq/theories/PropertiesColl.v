(** C164: the collision tests left for the interpolation between two contact states. *)
From Verif Require Import Maps MapsProofs Vec VecProofs StateModel StateSpec StateReal StateRealProofs StateExamples.
From Verif Require Import ToolModel ToolSpec ToolProofs2 ToolProofs3 ToolExamples CollModel CollSpec CollProofs.
From Coq Require Import Reals Lra.

(** When some limb moves, and every joint was tested with the obstacles, the pairs left are
    those of the joints of the limbs that move, without those at or below their effectors
    when these may touch; the other obstacles are untouched. *)
Theorem C164_tested {Cfg Rot Rob} root os limbs (from to : State Cfg vec3 Rot Rob) S : NoDup (names root) -> NoDup os ->
  (forall j o, in_tree root j -> o ∈ os -> (jname j, o) ∈ S) -> effectors_in_limbs root limbs from to -> (exists v l, moving limbs from to v l) ->
  exists S', testedBetween root os limbs from to S = Ok S' /\
    forall j o, in_tree root j -> (jname j, o) ∈ S' <->
      (jname j, o) ∈ S /\ (o ∈ os -> ~ still_joint root limbs from to j /\ ~ touching_joint root limbs from to j).
Proof. exact (fun Hnd Hos => tested_spec root os limbs Hnd Hos from to S). Qed.
Print Assumptions C164_tested.
(** If no limb moves, everything stays tested. *)
Theorem C164_no_move {Cfg Rot Rob} root os limbs (from to : State Cfg vec3 Rot Rob) S :
  (forall v l, ~ moving limbs from to v l) -> testedBetween root os limbs from to S = Ok S.
Proof. exact (tested_still root os limbs from to S). Qed.
Print Assumptions C164_no_move.
(** An exception: exactly when the effector of a limb that moves, and that may touch, is not
    named as a joint. *)
Theorem C164_throws {Cfg Rot Rob} root os limbs (from to : State Cfg vec3 Rot Rob) S :
  testedBetween root os limbs from to S = Throw <->
  exists v l, moving limbs from to v l /\ cl_disable l = true /\ forall e, in_tree root e -> jname e <> cl_eff l.
Proof. exact (tested_throws root os limbs from to S). Qed.
Print Assumptions C164_throws.
(** If the root was not tested with one of the obstacles, all the other joints but the
    effectors stay tested with all of them. *)
Theorem C164_stuck {Cfg Rot Rob} root os limbs (from to : State Cfg vec3 Rot Rob) S S' o j o' : NoDup (names root) -> NoDup os ->
  testedBetween root os limbs from to S = Ok S' -> o ∈ os -> (jname root, o) ∉ S ->
  in_tree root j -> j <> root -> ~ touching_joint root limbs from to j -> (jname j, o') ∈ S -> (jname j, o') ∈ S'.
Proof. exact (fun Hnd Hos => tested_stuck root os limbs Hnd Hos from to S S' o j o'). Qed.
Print Assumptions C164_stuck.

(** the robot with two legs (ToolExamples.v): the left foot stays, the right one moves by 1 m
    (StateExamples.v) *)
Definition legs : gmap string climb := {[ "lf"%string := CL "lhip" "lankle" true; "rf"%string := CL "rhip" "rankle" true ]}.
Lemma rf_moves : moving legs exFrom exTo "rf"%string (CL "rhip" "rankle" true).
Proof.
  split; [reflexivity|]. intros (d & H & Hd). pose proof ex_displacement as H'.
  destruct H as (a & b & Ha & Hb & ->), H' as (a' & b' & Ha' & Hb' & E). assert (a' = a) as -> by congruence. assert (b' = b) as -> by congruence. lra.
Qed.
Lemma lf_stays : kept_in_place exFrom exTo "lf"%string.
Proof.
  exists 0%R. split; [|lra]. exists pA, pA. split_and!; [reflexivity..|]. symmetry. apply dist3_refl.
Qed.
Lemma only_rf v l : moving legs exFrom exTo v l -> v = "rf"%string /\ l = CL "rhip" "rankle" true.
Proof.
  intros [Hl Hk]. unfold legs in Hl. apply lookup_insert_Some in Hl as [[<- <-]|[_ Hl]]; [by destruct (Hk lf_stays)|].
  apply lookup_singleton_Some in Hl as [<- <-]. done.
Qed.
Lemma in_robot j : in_tree robot j <-> j = robot \/ j = lhip \/ j = lankle \/ j = rhip \/ j = rankle.
Proof.
  split.
  - intros H. apply tree_kids in H as [->|(k & Hk & H)]; [auto|]. cbn in Hk. apply elem_of_cons in Hk as [->|Hk]; [|apply elem_of_list_singleton in Hk as ->];
      apply tree_kids in H as [->|(k & Hk & H)]; auto; cbn in Hk; apply elem_of_list_singleton in Hk as ->; apply tree_kids in H as [->|(k & Hk & H)]; auto; cbn in Hk; by apply elem_of_nil in Hk.
  - assert (Hl : lhip ∈ jkids robot) by apply elem_of_list_here. assert (Hr : rhip ∈ jkids robot) by (apply elem_of_list_further, elem_of_list_here).
    intros [->|[->|[->|[->| ->]]]]; [apply in_here|eapply in_down; [exact Hl|apply in_here]|eapply in_down; [exact Hl|]|eapply in_down; [exact Hr|apply in_here]|eapply in_down; [exact Hr|]];
      (eapply in_down; [apply elem_of_list_here|apply in_here]).
Qed.
Example C164_case : NoDup (names robot) /\ (forall j o, in_tree robot j -> o ∈ ["floor"; "wall"]%string -> (jname j, o) ∈ allPairs) /\
  effectors_in_limbs robot legs exFrom exTo /\ moving legs exFrom exTo "rf"%string (CL "rhip" "rankle" true) /\
  still_joint robot legs exFrom exTo lankle /\ ~ still_joint robot legs exFrom exTo rhip /\ ~ touching_joint robot legs exFrom exTo rhip /\ touching_joint robot legs exFrom exTo rankle.
Proof.
  split; [exact ex_names|]. split; [exact ex_allPairs|]. split; [|split; [exact rf_moves|]].
  { intros v l Hv _. apply only_rf in Hv as [-> ->]. exists rhip, rankle. split; [apply in_robot; auto|]. split; [done|].
    split; [eapply in_down; [apply elem_of_list_here|apply in_here]|done]. }
  split; [|split; [|split]].
  - intros (v & l & f & Hv & Hf & Hn & Hj). apply only_rf in Hv as [-> ->]. cbn in Hn. apply in_robot in Hf as [->|[->|[->|[->| ->]]]]; try discriminate.
    apply in_tree_name in Hj. cbn in Hj. set_solver.
  - intros H. apply H. exists "rf"%string, (CL "rhip" "rankle" true), rhip. split; [exact rf_moves|]. split; [apply in_robot; auto|]. split; [done|apply in_here].
  - intros (v & l & e & Hv & _ & He & Hn & Hj). apply only_rf in Hv as [-> ->]. cbn in Hn. apply in_robot in He as [->|[->|[->|[->| ->]]]]; try discriminate.
    apply in_tree_name in Hj. cbn in Hj. set_solver.
  - exists "rf"%string, (CL "rhip" "rankle" true), rankle. split; [exact rf_moves|]. split; [done|]. split; [apply in_robot; auto|]. split; [done|apply in_here].
Qed.
(** a toe frame that is not a joint; the pelvis without its pair with the floor *)
Example C164_throws_case : let l := CL "rhip" "rtoe" true in
  moving {[ "rf"%string := l ]} exFrom exTo "rf"%string l /\ forall e, in_tree robot e -> jname e <> cl_eff l.
Proof.
  split; [split; [reflexivity|exact (proj2 rf_moves)]|]. intros e He. apply in_robot in He as [->|[->|[->|[->| ->]]]]; discriminate.
Qed.
Example C164_stuck_case : ("pelvis", "floor")%string ∉ pelvisFree /\ in_tree robot lankle /\ ~ touching_joint robot legs exFrom exTo lankle /\
  ("lankle", "floor")%string ∈ pelvisFree.
Proof.
  split; [exact (proj1 ex_stuck)|]. split; [apply in_robot; auto|]. split; [|apply (bool_decide_unpack _); vm_compute; done].
  intros (v & l & e & Hv & _ & He & Hn & Hj). apply only_rf in Hv as [-> ->]. cbn in Hn. apply in_robot in He as [->|[->|[->|[->| ->]]]]; try discriminate.
  apply in_tree_name in Hj. cbn in Hj. set_solver.
Qed.
