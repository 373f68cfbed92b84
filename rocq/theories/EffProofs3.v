(** Proofs about the end effector trajectories (3): the public functions. *)
From Coq Require Import Reals Lia Lra ZArith.
From Verif Require Import SampModel TrajModel MapsProofs VecProofs StateProofs InterProofs InterProofs2.
From Verif Require Export EffProofs2.
From Verif Require Import StateModel.
Local Open Scope R_scope.

Lemma middle_is len : timeMiddle len = len - 7/10.
Proof. unfold timeMiddle, totalTime, timeTakeoff. lra. Qed.
Lemma total_is len : totalTime len = len - 1/10.
Proof. unfold totalTime. lra. Qed.
Lemma add_once s id en (l : list bezier) : kept_once s (fst (addEffectorTrajectories id en l s)) id en l.
Proof.
  unfold kept_once, kept_at, addEffectorTrajectories. destruct (s !! id) as [m|] eqn:Em.
  - destruct (m !! en) as [l'|] eqn:Ee; cbn [fst].
    + rewrite Em, Ee. split; [reflexivity|]. reflexivity.
    + rewrite lookup_insert, lookup_insert. split; [reflexivity|]. intros id' en' Hne.
      destruct (decide (id' = id)) as [->|Hi].
      * rewrite lookup_insert, Em. apply lookup_insert_ne. congruence.
      * rewrite lookup_insert_ne by congruence. reflexivity.
  - cbn [fst]. rewrite lookup_insert, lookup_singleton. split; [reflexivity|]. intros id' en' Hne.
    destruct (decide (id' = id)) as [->|Hi].
    + rewrite lookup_insert, Em. apply lookup_singleton_ne. congruence.
    + rewrite lookup_insert_ne by congruence. reflexivity.
Qed.

Section C.
Variable ff : device.
Variable pd0 : pdata.
Variables junkV junkA : R.
Variables predefInit predefGoal : pdata -> R -> list vec3.
Variable bezierOf : list vec3 -> R -> bezier.
Variable deriv : bezier -> nat -> R -> vec3.
Variable fit : nat -> pdata -> (R -> vec3) -> R -> R -> option bezier.
Variable P : Type.
Variable plen : P -> R.
Variable pend : P -> list R.
Variable pat : P -> R -> list R.
Variable B : fullbody.
Variable quatOf : mat3 -> quat.
Variable junkT : vec3.
Notation Good := (good_curves predefInit predefGoal bezierOf deriv fit).
Notation EndEff := (endEffectorPath P plen pend pat B junkT).
Notation Generate := (generateEndEffectorBezier ff pd0 junkV junkA predefInit predefGoal bezierOf deriv fit P plen pend pat B quatOf junkT).
Notation FitAll := (fitAll ff fit P).
Notation FitBez := (fitBeziersToPath ff pd0 junkV junkA predefInit predefGoal bezierOf deriv fit P plen pend pat B quatOf junkT).
Notation pos s f := (tra (fpose (dev B) (configuration s) f)).
Notation ori s f := (quatOf (rot (fpose (dev B) (configuration s) f))).

Lemma end_effector f p off u : exists i, first_index (fun c => List.last (pat p c) 0) (plen p) (u * List.last (pend p) 0) i /\
  EndEff f p off u = vadd (vsub (tra (fpose (dev B) (pat p i) f)) junkT) off.
Proof. eexists. split; [apply index_found|]. reflexivity. Qed.

Lemma generate_ok com start next w n en f : Good -> free_flyer ff -> 7/10 < plen com -> moves_first start next n -> effector_of B n en f ->
  exists data,
    match fit 1 data (EndEff f com vzero) (plen com - 7/10) 0 with
    | None => Generate com start next w = Ok (None, w)
    | Some z => exists off a b c w', Generate com start next w = Ok (Some [a; b; c], w') /\ bp_curve b = z /\
        height_is (if bool_decide (n = "hrp2_rleg_rom" \/ n = "hrp2_lleg_rom") then 3/100 else 5/100) (plen com - 1/10) off /\
        swing ff deriv off (plen com - 7/10) (default (V3 0 0 1) (normals start !! n)) (default (V3 0 0 1) (normals next !! n))
          (pos start f) (ori start f) (pos next f) (ori next f) a b c /\
        paths P w' = paths P w ++ [[PBez P a; PBez P b; PBez P c]] /\
        kept_once (stored P w) (stored P w') (length (paths P w)) en [bp_curve a; bp_curve b; bp_curve c]
    end.
Proof.
  intros G F HT Hn Hf. unfold generateEndEffectorBezier.
  rewrite (proj2 (effector_ok B start next en f)) by eauto. apply limb_some in Hn as Hl. rewrite Hl. cbn [ibind].
  rewrite middle_is, total_is.
  set (pm := if _ || _ then 3/100 else 5/100). set (off := computePredefConstants pm (plen com - 1/10) timeTakeoff).
  assert (Hpm : pm = (if bool_decide (n = "hrp2_rleg_rom" \/ n = "hrp2_lleg_rom") then 3/100 else 5/100)).
  { unfold pm. rewrite bool_decide_or. reflexivity. }
  assert (Hnorm : forall s : PSt, match normals s !! n with Some v => v | None => V3 0 0 1 end = default (V3 0 0 1) (normals s !! n)).
  { intros s. destruct (normals s !! n); reflexivity. }
  rewrite !Hnorm.
  destruct (phases ff pd0 junkV junkA predefInit predefGoal bezierOf deriv fit off (default (V3 0 0 1) (normals start !! n)) (default (V3 0 0 1) (normals next !! n))
     (pos start f) (ori start f) (pos next f) (ori next f) (plen com - 7/10) G F ltac:(lra)) as (a & c & d & E3 & Hd).
  rewrite E3. cbn [ibind]. exists d. specialize (Hd 1%nat (EndEff f com vzero) 0).
  destruct (fit 1 d (EndEff f com vzero) (plen com - 7/10) 0) as [z|].
  - destruct Hd as (b & Ed & Hz & Hs). rewrite Ed. cbn [ibind]. exists off, a, b, c. eexists. split; [reflexivity|]. split; [exact Hz|].
    split; [rewrite <- Hpm; apply height_at|]. split; [exact Hs|]. cbn [addTrajectory addPath paths stored map]. split; [reflexivity|].
    rewrite app_length. cbn [length]. replace (length (paths P w) + 1 - 1)%nat with (length (paths P w)) by lia. apply add_once.
  - rewrite Hd. reflexivity.
Qed.
Lemma generate_unknown com start next w n : moves_first start next n -> (forall en f, ~ effector_of B n en f) -> Generate com start next w = Throw.
Proof.
  intros Hn Hf. unfold generateEndEffectorBezier. rewrite (proj2 (effector_throw B start next)) by eauto. reflexivity.
Qed.
Lemma generate_none com start next w : (forall n, ~ created moved3 start next n) -> Generate com start next w = Ub.
Proof. intros H. unfold generateEndEffectorBezier. rewrite (proj2 (effector_ub B start next) H). reflexivity. Qed.
Lemma generate_ndcurves com start next w : (forall pts T, bz_min (bezierOf pts T) = T) -> (exists n, created moved3 start next n) -> Generate com start next w = Throw.
Proof.
  intros H [n Hn]. unfold generateEndEffectorBezier. destruct (getEffector B start next) as [[en f]| |] eqn:Ee; cbn [ibind]; [|reflexivity|].
  - apply effector_ok in Ee as (m & Hm & _). apply limb_some in Hm. rewrite Hm. cbn [ibind]. rewrite phases_throw by exact H. reflexivity.
  - apply effector_ub with (n := n) in Ee. contradiction.
Qed.

Lemma weights_are : weightRRT = [0; 1/2; 3/4; 17/20; 9/10; 19/20; 1].
Proof.
  unfold weightRRT. replace (75/100) with (3/4) by lra. replace (85/100) with (17/20) by lra.
  replace (90/100) with (9/10) by lra. replace (95/100) with (19/20) by lra. reflexivity.
Qed.
Lemma fit_all_ok vars d eff T a c whole : (forall wt, exists r, computeBezierPath ff fit vars d eff T wt a c = Ok r) -> forall ws,
  exists l, FitAll vars d eff T a c whole ws = Ok l /\ length l = length ws /\
    forall i wt, ws !! i = Some wt -> exists r, computeBezierPath ff fit vars d eff T wt a c = Ok r /\
      l !! i = Some (match r with Some l => map (PBez P) l | None => [PWhole P whole] end).
Proof.
  intros H. induction ws as [|wt ws (l & El & Ll & IH)]; cbn [fitAll].
  - exists []. split; [reflexivity|]. split; [reflexivity|]. intros i wt Hi. destruct i; discriminate.
  - destruct (H wt) as [r Er]. rewrite Er, El. cbn [ibind]. eexists. split; [reflexivity|]. split; [cbn; congruence|].
    intros [|i] wt' Hi; cbn in Hi.
    + injection Hi as <-. exists r. split; [exact Er|reflexivity].
    + apply IH, Hi.
Qed.
Lemma fit_ok f len whole start next n n0 n1 : Good -> free_flyer ff -> 7/10 < len -> moves_first start next n ->
  normals start !! n = Some n0 -> normals next !! n = Some n1 ->
  exists off a c data cands, height_is (3/100) (len - 1/10) off /\ FitBez f len whole start next = Ok cands /\ length cands = 19%nat /\
    forall i vars wt, fits_tried !! i = Some (vars, wt) ->
      match fit vars data (EndEff f whole vzero) (len - 7/10) wt with
      | None => cands !! i = Some [PWhole P whole]
      | Some z => exists b, cands !! i = Some [PBez P a; PBez P b; PBez P c] /\ bp_curve b = z /\
          swing ff deriv off (len - 7/10) n0 n1 (pos start f) (ori start f) (pos next f) (ori next f) a b c
      end.
Proof.
  intros G F HT Hn H0 H1. unfold fitBeziersToPath. rewrite (proj2 (limb_some start next n) Hn). cbn [ibind]. rewrite H0, H1, middle_is, total_is.
  set (off := computePredefConstants _ _ _).
  destruct (phases ff pd0 junkV junkA predefInit predefGoal bezierOf deriv fit off n0 n1
     (pos start f) (ori start f) (pos next f) (ori next f) (len - 7/10) G F ltac:(lra)) as (a & c & d & E3 & Hd).
  rewrite E3. cbn [ibind]. set (eff := EndEff f whole vzero).
  assert (HC : forall vars wt, exists r, computeBezierPath ff fit vars d eff (len - 7/10) wt a c = Ok r).
  { intros vars wt. specialize (Hd vars eff wt). destruct (fit vars d eff (len - 7/10) wt) as [z|]; [destruct Hd as (b & Ed & _)|]; eauto. }
  destruct (fit_all_ok 1 d eff (len - 7/10) a c whole (HC 1%nat) weightRRT) as (l1 & E1 & L1 & I1).
  destruct (fit_all_ok 3 d eff (len - 7/10) a c whole (HC 3%nat) (tl weightRRT)) as (l3 & E3' & L3 & I3).
  destruct (fit_all_ok 5 d eff (len - 7/10) a c whole (HC 5%nat) (tl weightRRT)) as (l5 & E5 & L5 & I5).
  rewrite E1, E3', E5. cbn [ibind]. exists off, a, c, d. eexists. split; [apply height_at|]. split; [reflexivity|].
  rewrite weights_are in *. cbn [tl] in *. split; [rewrite !app_length, L1, L3, L5; reflexivity|].
  assert (HX : forall i vars wt, fits_tried !! i = Some (vars, wt) -> exists r, computeBezierPath ff fit vars d eff (len - 7/10) wt a c = Ok r /\
    (l1 ++ l3 ++ l5) !! i = Some (match r with Some l => map (PBez P) l | None => [PWhole P whole] end)).
  { intros i vars wt Hi. cbn [length] in L1, L3, L5.
    destruct (decide (i < 7)%nat) as [Hi1|Hi1].
    - rewrite lookup_app_l by lia. do 7 (destruct i as [|i]; [injection Hi as <- <-; apply I1; reflexivity|]). lia.
    - rewrite lookup_app_r, L1 by lia. destruct (decide (i < 13)%nat) as [Hi2|Hi2].
      + rewrite lookup_app_l by lia. do 7 (destruct i as [|i]; [lia|]).
        do 6 (destruct i as [|i]; [injection Hi as <- <-; apply I3; reflexivity|]). lia.
      + rewrite lookup_app_r, L3 by lia. do 13 (destruct i as [|i]; [lia|]).
        do 6 (destruct i as [|i]; [injection Hi as <- <-; apply I5; reflexivity|]). discriminate Hi. }
  intros i vars wt Hi. destruct (HX i vars wt Hi) as (r & Er & Hr). specialize (Hd vars eff wt).
  destruct (fit vars d eff (len - 7/10) wt) as [z|].
  - destruct Hd as (b & Ed & Hz & Hs). exists b. rewrite Ed in Er. injection Er as <-. split; [exact Hr|]. split; assumption.
  - rewrite Hd in Er. injection Er as <-. exact Hr.
Qed.
Lemma fit_throw f len whole start next n : moves_first start next n -> normals start !! n = None \/ normals next !! n = None ->
  FitBez f len whole start next = Throw.
Proof.
  intros Hn H. unfold fitBeziersToPath. rewrite (proj2 (limb_some start next n) Hn). cbn [ibind].
  destruct H as [->| ->]; [reflexivity|]. destruct (normals start !! n); reflexivity.
Qed.

(** * Whole body paths *)
Variable E : Type.
Variable cur : list R.
Variable solve : nat -> nat -> rrtProblem P -> solveResult E.
Variables randomShortcut partialShortcut : nat -> nat -> nat -> rrtProblem P -> list E -> outcome (list E).
Variable asPath : list (vpart P) -> P.
Variable wholeOf : list (piece E) -> P.
Variable reduce : P -> P.
Variable hasJoint : string -> bool.
Notation With := (effectorRRTWithPath ff pd0 junkV junkA predefInit predefGoal bezierOf deriv fit P plen pend pat B quatOf junkT E cur solve randomShortcut partialShortcut asPath wholeOf reduce hasJoint).
Notation From := (effectorRRTFromPath ff pd0 junkV junkA predefInit predefGoal bezierOf deriv fit P plen pend pat B quatOf junkT E cur solve randomShortcut partialShortcut asPath wholeOf reduce hasJoint).
Notation Try := (tryCandidates P E hasJoint).
Notation Cons := (setEffectorConstraints P B junkT).
Notation Followed := (followed P E B junkT solve randomShortcut partialShortcut).
Notation FPath := (FPath P).

Lemma constrain_ok r names c t : constrainJoints P B r names = Ok (c, t) ->
  exists gs, Forall2 (fun n g => frames (dev B) !! n = Some g) names gs /\ t = map (fun g => TdOri P g r) gs /\ c = map (fun g => createOrientationMethod g mid) gs.
Proof.
  revert c t. induction names as [|n names IH]; intros c t; cbn [constrainJoints].
  - intros [= <- <-]. exists []. split; [constructor|]. split; reflexivity.
  - destruct (frames (dev B) !! n) as [g|] eqn:Eg; [|discriminate]. destruct (constrainJoints P B r names) as [[c' t']| |]; cbn [ibind]; try discriminate.
    intros [= <- <-]. destruct (IH _ _ eq_refl) as (gs & HF & -> & ->). exists (g :: gs). split; [constructor; assumption|]. split; reflexivity.
Qed.
Lemma cons_ok com eff full f names c t : Cons com eff full f names = Ok (c, t) ->
  references P B com eff full f names t /\
  forall x, x ∈ c <-> x = CCom junkT \/ x = createPositionMethod f junkT \/
    (full <> None /\ exists n g, n ∈ names /\ frames (dev B) !! n = Some g /\ x = createOrientationMethod g mid).
Proof.
  unfold setEffectorConstraints, references. destruct full as [r|].
  - destruct (constrainJoints P B r names) as [[c' t']| |] eqn:Ec; cbn [ibind]; try discriminate. intros [= <- <-].
    destruct (constrain_ok _ _ _ _ Ec) as (gs & HF & -> & ->). split; [exists gs; split; [exact HF|reflexivity]|].
    intros x. rewrite !elem_of_cons. rewrite elem_of_list_In, in_map_iff. split.
    + intros [H|[H|(g & <- & Hg)]]; auto. right. right. split; [discriminate|]. apply elem_of_list_In, elem_of_list_lookup in Hg as [i Hi].
      destruct (Forall2_lookup_r _ _ _ _ _ HF Hi) as (n & Hn & Hg). exists n, g. split; [eapply elem_of_list_lookup_2, Hn|]. auto.
    + intros [H|[H|(_ & n & g & Hn & Hg & ->)]]; auto. right. right. exists g. split; [reflexivity|].
      apply elem_of_list_lookup in Hn as [i Hi]. destruct (Forall2_lookup_l _ _ _ _ _ HF Hi) as (g' & Hg' & Hfg).
      apply elem_of_list_In. eapply elem_of_list_lookup_2. rewrite Hg'. congruence.
  - cbn [ibind]. intros [= <- <-]. split; [reflexivity|]. intros x. rewrite !elem_of_cons. split.
    + intros [H|[H|H]]; [auto..|inversion H].
    + intros [H|[H|[[] _]]]; auto.
Qed.
Lemma inter_no_throw sf cf th mi no X get gp keep (states : list X) fuel sched :
  interpolate P E B cur solve randomShortcut partialShortcut sf cf th mi no get gp keep states fuel sched <> Some (IThrow E).
Proof.
  unfold interpolate. destruct (100 <=? _)%nat; [discriminate|]. destruct (attempts _ _ _ _ _ _ _ _ _ _ _ _ _ _ _ _ _ _ _ _) as [[tbl| |]|]; try discriminate.
  destruct (pairsOf X states); discriminate.
Qed.
(** only the first candidate is ever used *)
Lemma try_first run names locked v cands l v' : (forall v, run v <> Some (IThrow E)) ->
  Try run names locked (v :: cands) = Some (inl (Ok (Some (l, v')))) -> v' = v /\ run v = Some (IPath E l).
Proof.
  intros H. cbn [tryCandidates]. destruct (getJointsByName hasJoint names), (getJointsByName hasJoint locked); try discriminate.
  destruct (run v) as [[l0| | |]|] eqn:Er; try discriminate; [|destruct (H v Er)]. intros [= <- <-]. auto.
Qed.
Lemma try_not_none run names locked v cands : (forall v, run v <> Some (IThrow E)) -> Try run names locked (v :: cands) <> Some (inl (Ok None)).
Proof.
  intros H. cbn [tryCandidates]. destruct (getJointsByName hasJoint names), (getJointsByName hasJoint locked); try discriminate.
  destruct (run v) as [[l0| | |]|] eqn:Er; try discriminate. destruct (H v Er).
Qed.

Lemma follow_inter com range extract whole start next keep full f constrained v fuel sched l :
  S (length (configuration start)) = length cur -> S (length (configuration next)) = length cur -> fair 1 sched ->
  interpolate P E B cur solve randomShortcut partialShortcut (EffectorShooter P (reduce whole))
     (Cons com v full f constrained) (1 / 1000) 500 1 snd (fromPath P extract) keep
     [(fst range, start); (snd range, next)] fuel sched = Some (IPath E l) ->
  Followed com v (reduce whole) full f constrained start next keep l.
Proof.
  intros Z1 Z2 Hf H. apply result in H; [|exact Hf]. destruct H as [_ (k & segs & _ & L & Hp & _ & El)].
  destruct (Hp 0%nat (fst range, start) (snd range, next)) as (seg & Hi & pb & l0 & l1 & (ref & _ & Hpb) & Hs & Ho1 & Ho2); [split; reflexivity|].
  destruct segs as [|s [|]]; try (cbn in L; lia). injection Hi as ->.
  apply problem_content in Hpb as (Q1 & Q2 & Q3 & _ & Q4 & Q5 & Q6 & more & tds & Qc & Q7 & Q8); [|assumption..].
  apply cons_ok in Qc as [Qr Qc]. exists pb, k, l0, l1, seg. split; [exact Q1|]. split; [exact Q2|]. split; [exact Q5|].
  split. { destruct (rShootLimbs P pb) as [|x xs]; [reflexivity|]. destruct (proj1 (Q6 x)). left. }
  split; [exact Q4|]. split; [exact Q3|]. split; [rewrite Q7; exact Qr|]. split.
  { intros c. rewrite Q8, Qc. unfold constrained_by. tauto. }
  split; [exact Hs|]. inversion Ho1 as [|? ? ? ? ? F1 O1]; subst. inversion O1; subst. inversion Ho2 as [|? ? ? ? ? F2 O2]; subst. inversion O2; subst.
  split; [exact F1|]. split; [exact F2|]. cbn [concat]. rewrite app_nil_r. reflexivity.
Qed.

Lemma with_path com range extract whole start next keep full constrained locked fuel sched w p w' :
  Good -> free_flyer ff -> 7/10 < plen com ->
  S (length (configuration start)) = length cur -> S (length (configuration next)) = length cur -> fair 1 sched ->
  With com range extract whole start next keep full constrained locked fuel sched w = Some (FPath p w') ->
  exists n en f n0 n1 off a b c l, moves_first start next n /\ effector_of B n en f /\ normals start !! n = Some n0 /\ normals next !! n = Some n1 /\
    height_is (3/100) (plen com - 1/10) off /\
    swing ff deriv off (plen com - 7/10) n0 n1 (pos start f) (ori start f) (pos next f) (ori next f) a b c /\
    (exists data, fit 1 data (EndEff f whole vzero) (plen com - 7/10) 0 = Some (bp_curve b)) /\
    Followed com (asPath [PBez P a; PBez P b; PBez P c]) (reduce whole) full f constrained start next keep l /\
    p = wholeOf l /\ paths P w' = paths P w ++ [[PBez P a; PBez P b; PBez P c]] /\
    kept_once (stored P w) (stored P w') (S (length (paths P w))) en [bp_curve a; bp_curve b; bp_curve c].
Proof.
  intros G F HT Z1 Z2 Hf. unfold effectorRRTWithPath. destruct (getEffector B start next) as [[en f]| |] eqn:Ee; try discriminate.
  apply effector_ok in Ee as (n & Hn & He).
  destruct (normals start !! n) as [n0|] eqn:N0; [|rewrite (fit_throw f _ whole start next n Hn (or_introl N0)); discriminate].
  destruct (normals next !! n) as [n1|] eqn:N1; [|rewrite (fit_throw f _ whole start next n Hn (or_intror N1)); discriminate].
  destruct (fit_ok f (plen com) whole start next n n0 n1 G F HT Hn N0 N1) as (off & a & c & d & cands & Hh & Ec & Lc & Hc).
  rewrite Ec. destruct cands as [|v cands]; [discriminate|].
  set (run := fun v0 : list (vpart P) => interpolate _ _ _ _ _ _ _ _ _ _ _ _ _ _ _ _ _ _).
  assert (HN : forall v0, run v0 <> Some (IThrow E)) by (intros v0; apply inter_no_throw).
  destruct (Try run constrained locked (v :: cands)) as [[[[[l v']|]| |]|]|] eqn:Et; try discriminate.
  2: { destruct (try_not_none _ _ _ _ _ HN Et). }
  apply (try_first run _ _ v cands) in Et as [-> Er]; [|exact HN].
  specialize (Hc 0%nat 1%nat 0 eq_refl). destruct (fit 1 d (EndEff f whole vzero) (plen com - 7/10) 0) as [z|] eqn:Ez.
  - destruct Hc as (b & Hv & Hz & Hs). injection Hv as ->. cbn [trajectoryOf]. intros [= <- <-].
    exists n, en, f, n0, n1, off, a, b, c, l. split; [exact Hn|]. split; [exact He|]. split; [exact N0|]. split; [exact N1|]. split; [exact Hh|]. split; [exact Hs|].
    split; [exists d; congruence|]. split; [eapply follow_inter; eassumption|]. split; [reflexivity|]. cbn [addTrajectory addPath paths stored]. split; [reflexivity|].
    rewrite app_length, Nat.add_1_r. apply add_once.
  - injection Hc as ->. discriminate.
Qed.
Lemma with_no_fit com range extract whole start next keep full constrained locked fuel sched w p w' :
  Good -> free_flyer ff -> 7/10 < plen com ->
  S (length (configuration start)) = length cur -> S (length (configuration next)) = length cur -> fair 1 sched ->
  (forall d eff, fit 1 d eff (plen com - 7/10) 0 = None) ->
  With com range extract whole start next keep full constrained locked fuel sched w <> Some (FPath p w').
Proof.
  intros G F HT Z1 Z2 Hf H HW. apply with_path in HW as (n & en & f & n0 & n1 & off & a & b & c & l & HW); try assumption.
  destruct HW as (_ & _ & _ & _ & _ & _ & (d & Hd) & _). rewrite H in Hd. discriminate.
Qed.
Lemma with_throw com range extract whole start next keep full constrained locked fuel sched w :
  (exists n, moves_first start next n /\ ((forall en f, ~ effector_of B n en f) \/ normals start !! n = None \/ normals next !! n = None)) ->
  With com range extract whole start next keep full constrained locked fuel sched w = Some (FThrow P w).
Proof.
  intros (n & Hn & H). unfold effectorRRTWithPath. destruct (getEffector B start next) as [[en f]| |] eqn:Ee; [|reflexivity|].
  - destruct H as [H|H]; [|rewrite (fit_throw f _ whole start next n Hn H); reflexivity].
    apply effector_ok in Ee as (m & Hm & He). apply limb_some in Hm, Hn. assert (m = n) as -> by congruence. destruct (H _ _ He).
  - exfalso. destruct Hn as [Hn _]. exact (proj1 (effector_ub B start next) Ee n Hn).
Qed.

Lemma joints_known names : Forall (fun n => hasJoint n = true) names -> getJointsByName hasJoint names = Ok names.
Proof.
  intros H. unfold getJointsByName. replace (forallb hasJoint names) with true; [reflexivity|].
  symmetry. apply forallb_forall. rewrite Forall_forall in H. intros x Hx. apply H, elem_of_list_In, Hx.
Qed.
Lemma try_names run names names' locked locked' cands : Forall (fun n => hasJoint n = true) names -> Forall (fun n => hasJoint n = true) names' ->
  Forall (fun n => hasJoint n = true) locked -> Forall (fun n => hasJoint n = true) locked' ->
  Try run names locked cands = Try run names' locked' cands.
Proof.
  intros H1 H2 H3 H4. induction cands as [|v cands IH]; [reflexivity|]. cbn [tryCandidates].
  rewrite !joints_known by assumption. destruct (run v) as [[]|]; try reflexivity. exact IH.
Qed.
Lemma locked_ignored com range extract whole start next keep full constrained locked locked' fuel sched w :
  Forall (fun n => hasJoint n = true) constrained -> Forall (fun n => hasJoint n = true) locked -> Forall (fun n => hasJoint n = true) locked' ->
  With com range extract whole start next keep full constrained locked fuel sched w =
  With com range extract whole start next keep full constrained locked' fuel sched w.
Proof.
  intros H1 H2 H3. unfold effectorRRTWithPath. destruct (getEffector B start next) as [[en f]| |]; [|reflexivity..].
  destruct (FitBez f (plen com) whole start next) as [cands| |]; [|reflexivity..]. rewrite (try_names _ constrained constrained locked locked') by assumption. reflexivity.
Qed.
Lemma constrained_ignored com range extract whole start next keep constrained constrained' locked locked' fuel sched w :
  Forall (fun n => hasJoint n = true) constrained -> Forall (fun n => hasJoint n = true) constrained' ->
  Forall (fun n => hasJoint n = true) locked -> Forall (fun n => hasJoint n = true) locked' ->
  With com range extract whole start next keep None constrained locked fuel sched w =
  With com range extract whole start next keep None constrained' locked' fuel sched w.
Proof.
  intros H1 H2 H3 H4. unfold effectorRRTWithPath. destruct (getEffector B start next) as [[en f]| |]; [|reflexivity..].
  destruct (FitBez f (plen com) whole start next) as [cands| |]; [|reflexivity..].
  unfold setEffectorConstraints. rewrite (try_names _ constrained constrained' locked locked') by assumption. reflexivity.
Qed.
Lemma unknown_joint com range extract whole start next keep full constrained locked fuel sched w n :
  n ∈ constrained ++ locked -> hasJoint n = false ->
  forall p w', With com range extract whole start next keep full constrained locked fuel sched w = Some (FPath p w') -> False.
Proof.
  intros Hn Hj p w'. unfold effectorRRTWithPath. destruct (getEffector B start next) as [[en f]| |]; try discriminate.
  destruct (FitBez f (plen com) whole start next) as [cands| |] eqn:Ef; try discriminate.
  destruct cands as [|v cands].
  { exfalso. unfold fitBeziersToPath in Ef. destruct (getEffectorLimb start next) as [m| |]; try discriminate. cbn [ibind] in Ef.
    destruct (normals start !! m), (normals next !! m); try discriminate.
    destruct (threePhases _ _ _ _ _ _ _ _ _ _ _ _ _ _) as [[[a c] d]| |]; try discriminate. cbn [ibind] in Ef.
    unfold weightRRT in Ef. cbn [fitAll] in Ef. 
    destruct (computeBezierPath ff fit 1 d _ _ 0 a c) as [r| |]; try discriminate. cbn [ibind] in Ef.
    match type of Ef with ibind ?x _ = _ => destruct x as [l1| |] eqn:E1; try discriminate end. cbn [ibind] in Ef.
    match type of E1 with ibind ?x _ = _ => destruct x as [l1'| |] eqn:E1'; try discriminate end. cbn [ibind] in E1. injection E1 as <-.
    match type of Ef with ibind ?x _ = _ => destruct x as [l3| |]; try discriminate end. cbn [ibind] in Ef.
    match type of Ef with ibind ?x _ = _ => destruct x as [l5| |]; try discriminate end. }
  cbn [tryCandidates]. assert (HJ : forall names, n ∈ names -> getJointsByName hasJoint names = Throw).
  { intros names Hin. unfold getJointsByName. replace (forallb hasJoint names) with false; [reflexivity|]. symmetry.
    apply not_true_iff_false. rewrite forallb_forall. intros H. rewrite (H n) in Hj by (apply elem_of_list_In, Hin). discriminate. }
  apply elem_of_app in Hn as [Hn|Hn]; rewrite (HJ _ Hn); [discriminate|]. destruct (getJointsByName hasJoint constrained); discriminate.
Qed.

(** conversely: a path is followed if the first fit succeeds and the planner solves the problem *)
Lemma with_runs com range extract whole start next keep full constrained locked fuel sched w n en f n0 n1 :
  Good -> free_flyer ff -> 7/10 < plen com -> moves_first start next n -> effector_of B n en f ->
  normals start !! n = Some n0 -> normals next !! n = Some n1 ->
  Forall (fun n => hasJoint n = true) constrained -> Forall (fun n => hasJoint n = true) locked ->
  (forall d, exists z, fit 1 d (EndEff f whole vzero) (plen com - 7/10) 0 = Some z) ->
  (forall v, exists l, interpolate P E B cur solve randomShortcut partialShortcut (EffectorShooter P (reduce whole))
     (Cons com (asPath v) full f constrained) (1 / 1000) 500 1 snd (fromPath P extract) keep
     [(fst range, start); (snd range, next)] fuel sched = Some (IPath E l)) ->
  exists p w', With com range extract whole start next keep full constrained locked fuel sched w = Some (FPath p w').
Proof.
  intros G F HT Hn He N0 N1 J1 J2 HF HI. unfold effectorRRTWithPath. rewrite (proj2 (effector_ok B start next en f)) by eauto.
  destruct (fit_ok f (plen com) whole start next n n0 n1 G F HT Hn N0 N1) as (off & a & c & d & cands & Hh & Ec & Lc & Hc).
  rewrite Ec. destruct cands as [|v cands]; [discriminate|].
  specialize (Hc 0%nat 1%nat 0 eq_refl). destruct (HF d) as [z Ez]. rewrite Ez in Hc. destruct Hc as (b & Hv & _). injection Hv as ->.
  cbn [tryCandidates]. rewrite !joints_known by assumption. destruct (HI [PBez P a; PBez P b; PBez P c]) as [l Hl]. rewrite Hl. cbn [trajectoryOf]. eauto.
Qed.

Lemma from_path steer free com range extract start next numOpt keep full constrained locked fuel1 fuel2 fuel sched1 sched2 sched w l :
  comRRT P E B cur solve randomShortcut partialShortcut steer free wholeOf range extract start next numOpt true fuel1 fuel2 sched1 sched2 = Some (IPath E l) ->
  (effectorDistance start next < 3/100 ->
   From steer free com range extract start next numOpt keep full constrained locked fuel1 fuel2 fuel sched1 sched2 sched w =
   Some (FPath (wholeOf l) (SST P (paths P w ++ [[PWhole P (wholeOf l)]]) (stored P w)))) /\
  (3/100 <= effectorDistance start next ->
   From steer free com range extract start next numOpt keep full constrained locked fuel1 fuel2 fuel sched1 sched2 sched w =
   With com range extract (wholeOf l) start next keep full constrained locked fuel sched (SST P (paths P w ++ [[PWhole P (wholeOf l)]]) (stored P w))).
Proof.
  intros H. unfold effectorRRTFromPath. rewrite H. split; intros Hd.
  - rewrite (proj2 (Rltb_true _ _) Hd). reflexivity.
  - rewrite (proj2 (Rltb_false _ _) Hd). reflexivity.
Qed.
Notation Eff := (effectorRRT ff pd0 junkV junkA predefInit predefGoal bezierOf deriv fit P plen pend pat B quatOf junkT E cur solve randomShortcut partialShortcut asPath wholeOf reduce hasJoint).
Lemma effector_ignored steer free com range extract start next numOpt keep constrained constrained' locked locked' fuel1 fuel2 fuel sched1 sched2 sched w :
  Forall (fun n => hasJoint n = true) constrained -> Forall (fun n => hasJoint n = true) constrained' ->
  Forall (fun n => hasJoint n = true) locked -> Forall (fun n => hasJoint n = true) locked' ->
  Eff steer free com range extract start next numOpt keep constrained locked fuel1 fuel2 fuel sched1 sched2 sched w =
  Eff steer free com range extract start next numOpt keep constrained' locked' fuel1 fuel2 fuel sched1 sched2 sched w.
Proof.
  intros H1 H2 H3 H4. unfold effectorRRT, effectorRRTFromPath. destruct (comRRT _ _ _ _ _ _ _ _ _ _ _ _ _ _ _ _ _ _ _ _) as [[l| | |]|]; try reflexivity.
  destruct (Rltb _ _); [reflexivity|]. apply constrained_ignored; assumption.
Qed.
End C.
