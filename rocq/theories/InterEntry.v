(** The interpolations of limb-rrt.cc and com-rrt.cc (C134-C140 apply to all): what they ask and return. *)
From Coq Require Import Reals Lia Lra.
From Verif Require Import SampModel TrajModel TrajSpec.
From Verif Require Import Maps Vec StateModel StateSpec StateReal ProjModel ProjSpec InterModel InterSpec InterProofs InterProofs2 InterProofs3 InterProofs4.
Local Open Scope nat_scope.

Section E.
Variables P E : Type.
Variable B : fullbody.
Variable cur : list R.
Variable solve : nat -> nat -> rrtProblem P -> solveResult E.
Variables randomShortcut partialShortcut : nat -> nat -> nat -> rrtProblem P -> list E -> outcome (list E).
Variable numOpt : nat.

(** the [i]-th part of a path, [seg], is an answer of the planner, optimised, for two states: the problem
    goes from the first at time 0 to the second at time 1, its constraints are the contacts common to both, up to
    [th]; the random configurations are taken along [along], for the limbs without such contact *)
Definition part (th : R) (maxIter : nat) (k i : nat) (along : P) (from to : PSt) (seg : list E) : Prop :=
  exists pb l0 l1, rStart P pb = configuration from ++ [0%R] /\ rGoal P pb = configuration to ++ [1%R] /\
    thr (rProj P pb) = th /\ rIter P pb = maxIter /\ rTds P pb = [] /\ rShootPath P pb = along /\
    (forall n, n ∈ rShootLimbs P pb <-> is_Some (limbsOf B !! n) /\ ~ stays from to n) /\
    (forall c, c ∈ cs (rProj P pb) <-> exists n le, stays from to n /\ contactConstraint B from n = Ok le /\ c ∈ le) /\
    solve k i pb = Solved E (Some l0) /\ optimised E (fun j => randomShortcut k i j pb) numOpt 0 l0 l1 /\
    optimised E (fun j => partialShortcut k i j pb) numOpt 0 l1 seg.

Lemma parts {X} (sf : shooterFactory P) th maxIter (get : X -> PSt) getPath keep states fuel sched l :
  match sf with EffectorShooter _ _ => False | _ => True end ->
  sized cur X get states -> fair (length states - 1) sched ->
  interpolate P E B cur solve randomShortcut partialShortcut sf (contactsOnly P) th maxIter numOpt get getPath keep states fuel sched = Some (IPath E l) ->
  exists k segs, length segs = length states - 1 /\ l = map (if keep then Full E else Reduced E) (concat segs) /\
    forall i a b, pair_at X states i a b -> exists seg ref, segs !! i = Some seg /\ getPath a b = Ok ref /\
      part th maxIter k i (match sf with LimbShooter _ => ref | ComShooter _ g => g | EffectorShooter _ g => g end) (get a) (get b) seg.
Proof.
  intros Hsf Hz Hf H.
  apply (result P E B cur solve randomShortcut partialShortcut sf (contactsOnly P) th maxIter numOpt X get getPath keep states fuel sched l Hf) in H.
  destruct H as (_ & k & segs & _ & Hl & Hs & _ & ->). exists k, segs. split; [done|]. split; [done|].
  intros i a b Hab. destruct (Hs i a b Hab) as (seg & Hseg & pb & l0 & l1 & (ref & Hr & Hpb) & H1 & H2 & H3).
  exists seg, ref. split; [done|]. split; [done|].
  apply problem_content in Hpb as (Q1 & Q2 & Q3 & _ & Q5 & Q6 & Q7 & more & tds & Qc & Q9 & Q8).
  2:{ apply Hz. destruct Hab as [Ha _]. by eapply elem_of_list_lookup_2. }
  2:{ apply Hz. destruct Hab as [_ Hb]. by eapply elem_of_list_lookup_2. }
  injection Qc as <- <-. exists pb, l0, l1. split_and!; try done.
  - intros n. rewrite Q7. by destruct sf.
  - intros c. rewrite Q8. split; [|by right]. by intros [Hc%elem_of_nil|Hc].
Qed.

Lemma limb_parts steer states maxIter fuel sched l : sized cur PSt (fun s => s) states -> fair (length states - 1) sched ->
  limbRRT P E B cur solve randomShortcut partialShortcut steer states numOpt maxIter fuel sched = Some (IPath E l) ->
  exists k segs, length segs = length states - 1 /\ l = map (Reduced E) (concat segs) /\
    forall i a b, pair_at PSt states i a b -> exists seg ref, segs !! i = Some seg /\
      steer (configuration a) (configuration b) = Ok ref /\ part (1 / 1000) maxIter k i ref a b seg.
Proof. intros Hz Hf H. exact (parts (LimbShooter P) _ _ _ _ _ _ _ _ _ I Hz Hf H). Qed.
Lemma limb_from_path_parts extract states fuel sched l : sized cur (R * PSt) snd states -> fair (length states - 1) sched ->
  limbRRTFromPath P E B cur solve randomShortcut partialShortcut extract states numOpt fuel sched = Some (IPath E l) ->
  exists k segs, length segs = length states - 1 /\ l = map (Reduced E) (concat segs) /\
    forall i a b, pair_at (R * PSt) states i a b -> exists seg ref, segs !! i = Some seg /\
      extract (fst a) (fst b) = Ok ref /\ part (1 / 1000) 0 k i ref (snd a) (snd b) seg.
Proof. intros Hz Hf H. exact (parts (LimbShooter P) _ _ _ _ _ _ _ _ _ I Hz Hf H). Qed.
Lemma com_from_path_parts extract guide states fuel sched l : sized cur (R * PSt) snd states -> fair (length states - 1) sched ->
  comRRTFromPath P E B cur solve randomShortcut partialShortcut extract guide states numOpt fuel sched = Some (IPath E l) ->
  exists k segs, length segs = length states - 1 /\ l = map (Reduced E) (concat segs) /\
    forall i a b, pair_at (R * PSt) states i a b -> exists seg ref, segs !! i = Some seg /\
      extract (fst a) (fst b) = Ok ref /\ part (1 / 1000) 0 k i guide (snd a) (snd b) seg.
Proof. intros Hz Hf H. exact (parts (ComShooter P guide) _ _ _ _ _ _ _ _ _ I Hz Hf H). Qed.
End E.
