(** The path from state to state, the contacts held, the com path, the shooter, projectOnCom. *)
From Coq Require Import Reals Lia Lra.
From Verif Require Import SampModel SampProofs2 TrajModel TrajSpec TrajProofs2 MapsProofs StateProofs ProjProofs.
From Verif Require Export InterSpec InterProofs InterProofs2.
From Verif Require Import StateModel.
Local Open Scope nat_scope.

Lemma removelast_snoc {A} (l : list A) x : removelast (l ++ [x]) = l.
Proof. rewrite removelast_app by discriminate. apply app_nil_r. Qed.
Lemma joins_app {T} (i e : T -> list R) a b c l1 l2 : joins i e a b l1 -> joins i e b c l2 -> joins i e a c (l1 ++ l2).
Proof.
  revert a. induction l1 as [|x l1 IH]; intros a H1 H2; cbn [joins app] in *; [congruence|].
  destruct H1 as [H0 H1]. split; [exact H0|]. apply IH; assumption.
Qed.

Section S.
Variables P E : Type.
Variables (einit eend : E -> list R).
Variable on : E -> list R -> Prop.
Variable B : fullbody.
Variable cur : list R.
Variable solve : nat -> nat -> rrtProblem P -> solveResult E.
Variables randomShortcut partialShortcut : nat -> nat -> nat -> rrtProblem P -> list E -> outcome (list E).

Lemma joins_reduced a b l : joins einit eend a b l ->
  joins (pieceInit E einit) (pieceEnd E eend) (removelast a) (removelast b) (map (Reduced E) l).
Proof.
  revert a. induction l as [|x l IH]; intros a H; cbn [joins map] in *; [congruence|].
  destruct H as [<- H]. split; [reflexivity|]. apply IH, H.
Qed.
Lemma joins_full a b l : joins einit eend a b l ->
  joins (pieceInit E einit) (pieceEnd E eend) a b (map (Full E) l).
Proof.
  revert a. induction l as [|x l IH]; intros a H; cbn [joins map] in *; [exact H|].
  destruct H as [<- H]. split; [reflexivity|]. apply IH, H.
Qed.

Hypothesis SP : sound_planner P E einit eend on B solve randomShortcut partialShortcut.

Lemma optimised_answers (pb : rrtProblem P) f : (forall j l l', answers P E einit eend on B pb l -> f j l = Ok l' -> answers P E einit eend on B pb l') ->
  forall n j l l', optimised E f n j l l' -> answers P E einit eend on B pb l -> answers P E einit eend on B pb l'.
Proof. intros Hf n j l l' H. induction H as [|n j l l1 l2 H1 _ IH]; auto. intros Ha. apply IH. eapply Hf; eassumption. Qed.

Section L.
Variables (sf : shooterFactory P) (cf : constraintFactory P) (th : R) (maxIter numOpt : nat).
Variable X : Type.
Variable get : X -> PSt.
Variable getPath : X -> X -> outcome P.
Notation Inter := (@interpolate P E B cur solve randomShortcut partialShortcut X sf cf th maxIter numOpt get getPath).
Notation SolvedAs := (solved_as P E B cur solve randomShortcut partialShortcut sf cf th maxIter numOpt X get getPath).

Lemma solved_answers k i a b l : SolvedAs k i a b l ->
  exists pb, asked P B cur sf cf th maxIter X get getPath a b pb /\ answers P E einit eend on B pb l.
Proof.
  intros (pb & l0 & l1 & Hp & Hs & H1 & H2). exists pb. split; [exact Hp|].
  assert (H0 := sp_solve _ _ _ _ _ _ _ _ _ SP _ _ _ _ Hs).
  eapply optimised_answers; [|exact H2|eapply optimised_answers; [|exact H1|exact H0]].
  - intros j x y. apply (sp_partial _ _ _ _ _ _ _ _ _ SP).
  - intros j x y. apply (sp_random _ _ _ _ _ _ _ _ _ SP).
Qed.

Lemma segments keep states fuel sched l : fair (length states - 1) sched -> sized cur X get states ->
  Inter keep states fuel sched = Some (IPath E l) ->
  exists segs, length segs = length states - 1 /\ l = map (if keep then Full E else Reduced E) (concat segs) /\
    forall i a b, pair_at X states i a b -> exists seg, segs !! i = Some seg /\ seg <> [] /\
      joins einit eend (configuration (get a) ++ [0%R]) (configuration (get b) ++ [1%R]) seg /\
      exists pb, asked P B cur sf cf th maxIter X get getPath a b pb /\ answers P E einit eend on B pb seg.
Proof.
  intros Hf Hz H. rewrite (result P E B cur solve randomShortcut partialShortcut sf cf th maxIter numOpt X get getPath keep states fuel sched l Hf) in H. destruct H as [_ (k & segs & _ & L & Hp & _ & ->)].
  exists segs. split; [exact L|]. split; [reflexivity|]. intros i a b Hab.
  destruct (Hp _ _ _ Hab) as (seg & Hi & Hs). destruct (solved_answers _ _ _ _ _ Hs) as (pb & Hq & Ha).
  exists seg. split; [exact Hi|]. destruct Ha as (Hne & Hj & Hc). split; [exact Hne|].
  assert (Hq' := Hq). destruct Hq' as (ref & _ & Hpb).
  destruct Hab as [H1 H2]. apply elem_of_list_lookup_2 in H1, H2.
  apply problem_content in Hpb as (Q1 & Q2 & _); [|apply Hz; assumption..].
  rewrite Q1, Q2 in Hj. split; [exact Hj|]. exists pb. split; [exact Hq|]. split; [exact Hne|]. split; [|exact Hc]. rewrite Q1, Q2. exact Hj.
Qed.

Lemma chain (states : list X) : forall x0 segs, length segs = length states ->
  (forall i a b, pair_at X (x0 :: states) i a b -> exists seg, segs !! i = Some seg /\
     joins einit eend (configuration (get a) ++ [0%R]) (configuration (get b) ++ [1%R]) seg) ->
  joins (pieceInit E einit) (pieceEnd E eend) (configuration (get x0)) (configuration (get (List.last states x0))) (map (Reduced E) (concat segs)).
Proof.
  induction states as [|x1 states IH]; intros x0 segs L H.
  - destruct segs; [|cbn in L; lia]. cbn. reflexivity.
  - destruct segs as [|seg segs]; [cbn in L; lia|].
    destruct (H 0 x0 x1) as (seg' & Hi & Hj); [split; reflexivity|]. injection Hi as <-.
    cbn [concat]. rewrite map_app. apply joins_app with (configuration (get x1)).
    + apply joins_reduced in Hj. rewrite !removelast_snoc in Hj. exact Hj.
    + assert (EL : List.last (x1 :: states) x0 = List.last states x1).
      { clear. revert x1. induction states as [|y states IH]; intros x1; [reflexivity|].
        change (List.last (x1 :: y :: states) x0) with (List.last (y :: states) x0). rewrite IH.
        destruct states as [|z l]; [reflexivity|]. cbn. clear. revert z. induction l as [|w l IH]; intros z; [reflexivity|]. apply IH. }
      rewrite EL. apply IH; [cbn in L; lia|]. intros i a b [Ha Hb]. apply (H (S i) a b). split; [exact Ha|exact Hb].
Qed.

Lemma continuous x0 states fuel sched l : fair (length states) sched -> sized cur X get (x0 :: states) ->
  Inter false (x0 :: states) fuel sched = Some (IPath E l) ->
  l <> [] /\ joins (pieceInit E einit) (pieceEnd E eend) (configuration (get x0)) (configuration (get (List.last states x0))) l.
Proof.
  intros Hf Hz H. assert (Hf' : fair (length (x0 :: states) - 1) sched) by (cbn; rewrite Nat.sub_0_r; exact Hf).
  assert (Hlen : 2 <= length (x0 :: states)) by (rewrite (result P E B cur solve randomShortcut partialShortcut sf cf th maxIter numOpt X get getPath false _ fuel sched l Hf') in H; lia).
  apply segments in H as (segs & L & -> & Hp); [|exact Hf'|exact Hz]. split.
  - destruct states as [|x1 states]; [cbn in Hlen; lia|].
    destruct (Hp 0 x0 x1) as (seg & Hi & Hne & _); [split; reflexivity|].
    destruct segs as [|s segs]; [discriminate|]. injection Hi as ->. destruct seg; [congruence|]. discriminate.
  - apply chain; [cbn in L; lia|]. intros i a b Hab. destruct (Hp _ _ _ Hab) as (seg & Hi & _ & Hj & _). eauto.
Qed.

Lemma held_one (s : PSt) (LR : lawful_robot (dev B)) t q e le : contactConstraint B s e = Ok le ->
  (forall c, c ∈ le -> satisfied (dev B) t q c) -> contact_held B t s q e.
Proof.
  intros Hc Hs L f p HL Hf Hp. unfold contactConstraint in Hc. rewrite HL, Hp, Hf in Hc.
  destruct (ltype L) eqn:Et; cbn [is6] in Hc.
  - destruct (rotations s !! e) as [r|] eqn:Er; [|discriminate]. injection Hc as <-. split.
    + apply cpos_effector, Hs. left.
    + intros _ r' [= <-] Hr.
      assert (Hsat : satisfied (dev B) t q (COri (fjoint f) mid (mmul r (mtr (rot (placement f)))) (true, true, true)))
        by (apply Hs; right; left).
      cbn [satisfied masked] in Hsat. rewrite mmul_id_r in Hsat.
      assert (EV : forall v, V3 (vx v) (vy v) (vz v) = v) by (intros []; reflexivity). rewrite EV in Hsat.
      rewrite (lr_log _ LR) in Hsat.
      * change (angle_between (mmul r (mtr (rot (placement f)))) (rot (jpose (dev B) q (fjoint f))) <= t)%R in Hsat.
        rewrite angle_placement in Hsat. rewrite fpose_rot. exact Hsat.
      * apply rotation_mmul; [apply rotation_mtr, rotation_mmul; [assumption|apply rotation_mtr, (lr_frame _ LR _ _ Hf)]|apply (lr_joint _ LR)].
  - injection Hc as <-. split; [|discriminate]. apply cpos_effector, Hs. left.
Qed.

Lemma held_same t s q q' e : (forall j, jpose (dev B) q j = jpose (dev B) q' j) -> contact_held B t s q e -> contact_held B t s q' e.
Proof.
  intros H Hh L f p HL Hf Hp. destruct (Hh L f p HL Hf Hp) as [H1 H2].
  assert (EF : fpose (dev B) q' f = fpose (dev B) q f) by (unfold fpose; rewrite H; reflexivity). rewrite EF. auto.
Qed.

Lemma stays_ok ref from to pb n : problemBetween P B cur sf cf th maxIter ref from to = Ok pb -> stays from to n ->
  exists le, contactConstraint B from n = Ok le.
Proof.
  unfold problemBetween, addContactConstraints. intros H Hn.
  destruct (fixedContacts_correct moved3 to from) as [HF _]; [intros; apply moved3_sym|]. apply HF in Hn.
  destruct (contactConstraintsOf _ _ _) as [cl| |] eqn:Ec; cbn [ibind] in H; try discriminate.
  destruct (contacts_elem _ _ _ _ Ec _ Hn) as (le & Hle & _). eauto.
Qed.

Lemma held keep states fuel sched l (LR : lawful_robot (dev B)) : fair (length states - 1) sched -> sized cur X get states ->
  (keep = false -> time_is_extra (dev B) (pred (length cur))) ->
  Inter keep states fuel sched = Some (IPath E l) ->
  exists segs, length segs = length states - 1 /\ l = concat segs /\
    forall i a b, pair_at X states i a b -> exists seg, segs !! i = Some seg /\ seg <> [] /\
      forall p q n, p ∈ seg -> onPiece E on p q -> stays (get a) (get b) n -> contact_held B th (get a) q n.
Proof.
  intros Hf Hz Hx H. destruct (segments _ _ _ _ _ Hf Hz H) as (segs & L & -> & Hp).
  exists (map (map (if keep then Full E else Reduced E)) segs). split; [rewrite map_length; exact L|].
  split; [apply concat_map|]. intros i a b Hab.
  destruct (Hp _ _ _ Hab) as (seg & Hi & Hne & _ & pb & (ref & _ & Hpb) & (_ & _ & Hc)).
  exists (map (if keep then Full E else Reduced E) seg). split.
  { change (map (map (if keep then Full E else Reduced E)) segs) with ((map (if keep then Full E else Reduced E)) <$> segs).
    rewrite list_lookup_fmap, Hi. reflexivity. }
  split; [destruct seg; [congruence|discriminate]|].
  destruct Hab as [H1 H2]. apply elem_of_list_lookup_2 in H1, H2. assert (Hok := fun n => stays_ok _ _ _ _ n Hpb).
  apply problem_content in Hpb as (Q1 & _ & Q3 & _ & _ & _ & _ & more & tds & _ & _ & Q5); [|apply Hz; assumption..].
  assert (HE : forall e q n, e ∈ seg -> on e q -> stays (get a) (get b) n -> contact_held B th (get a) q n).
  { intros e q n He Hq Hn. destruct (Hok n Hn) as [le Ele].
    apply (held_one _ LR _ _ _ _ Ele). intros c Hcc. rewrite <- Q3. apply (Hc _ _ He Hq). apply Q5. right. eauto. }
  intros p q n Hin Hq Hn. apply elem_of_list_In, in_map_iff in Hin as (e & <- & He). apply elem_of_list_In in He.
  destruct keep; cbn [onPiece] in Hq; [exact (HE e q n He Hq Hn)|].
  destruct Hq as (q0 & Hq0 & ->). assert (Ht := Hx eq_refl).
  eapply held_same; [|exact (HE e q0 n He Hq0 Hn)]. intros j. apply Ht.
  rewrite (proj1 (Hc _ _ He Hq0)), Q1, app_length. cbn [length].
  assert (S (length (configuration (get a))) = length cur) by (apply Hz; assumption). lia.
Qed.
End L.
End S.
