(** An arm that moves its contact, curves, a planner: the hypotheses of the theorems on the end
    effector trajectories hold. *)
From Coq Require Import Reals Lia Lra.
From Verif Require Import SampModel TrajModel TrajSpec MapsProofs VecProofs StateProofs StateRealProofs ProjProofs ProjExamples InterExamples.
From Verif Require Export EffProofs3 EffCurves.
From Verif Require Import StateModel.
Local Open Scope R_scope.

(** the arm goes up by half a metre, by two centimetres *)
Definition fup (h : R) : PSt :=
  mkState [0;0;1;0;0;0;1;0;h] (<["leg" := true]> (<["arm" := true]> ∅))%string
    (<["leg" := V3 0 0 1]> (<["arm" := V3 0 1 0]> ∅))%string
    (<["leg" := V3 0 0 0]> (<["arm" := V3 1 0 (1 + h)]> ∅))%string
    (<["leg" := Pz]> (<["arm" := Pz]> ∅))%string ["leg"; "arm"]%string 2 true 0.
Definition ffar : PSt := fup (1/2).
Definition fnear : PSt := fup (2/100).
Lemma fdist h : 0 <= h -> vnorm (vsub (V3 1 0 1) (V3 1 0 (1 + h))) = h.
Proof.
  intros H. unfold vnorm, vnorm2, vdot, vsub. cbn [vx vy vz].
  match goal with |- R_sqrt.sqrt ?x = _ => replace x with (h * h) by ring end. apply sqrt_square, H.
Qed.
Lemma fpos h n p : positions (fup h) !! n = Some p -> (n = "leg"%string /\ p = V3 0 0 0) \/ (n = "arm"%string /\ p = V3 1 0 (1 + h)).
Proof. cbn. rewrite !lookup_insert_Some, lookup_empty. naive_solver. Qed.
Lemma fcreated h : 1/100 < h -> created moved3 estate (fup h) "arm" /\ forall n, created moved3 estate (fup h) n -> n = "arm"%string.
Proof.
  intros Hh. split.
  - eexists. split; [reflexivity|]. right. exists (V3 1 0 1). split; [reflexivity|].
    unfold moved3. apply Rltb_true. rewrite fdist; lra.
  - intros n (p & Hp & Hc). apply fpos in Hp as [[-> ->]|[-> _]]; [|reflexivity].
    destruct Hc as [Hc|(q & Hq & Hc)]; [discriminate|]. cbn in Hq. injection Hq as <-. rewrite moved3_refl in Hc. discriminate.
Qed.
Lemma fmoves h : 1/100 < h -> moves_first estate (fup h) "arm".
Proof. intros Hh. destruct (fcreated h Hh) as [H1 H2]. split; [exact H1|]. intros m Hm. rewrite (H2 m Hm). reflexivity. Qed.
Lemma feffector : effector_of ebody "arm" "hand" ehand.
Proof. exists earm. split_and!; reflexivity. Qed.
Lemma fstill : forall n, ~ created moved3 estate estate n.
Proof.
  intros n (p & Hp & Hc). destruct Hc as [Hc|(q & Hq & Hc)]; [congruence|]. assert (q = p) as -> by congruence. rewrite moved3_refl in Hc. discriminate.
Qed.
Lemma feffdist h : 1/100 < h -> effectorDistance estate (fup h) = h.
Proof.
  intros Hh. destruct (effectorDistance_correct estate (fup h)) as [_ H].
  assert (D : displacement estate (fup h) "arm" h).
  { exists (V3 1 0 1), (V3 1 0 (1 + h)). split; [reflexivity|]. split; [reflexivity|]. symmetry. apply fdist. lra. }
  destruct H as (H1 & (k & q & p & Hq & Hp & Hd) & H3); [exists "arm"%string, h; split; [exact D|lra]|].
  apply H1 in D. apply fpos in Hp as [[-> ->]|[-> ->]]; cbn in Hq.
  - injection Hq as <-. rewrite Hd in H3. rewrite dist3_refl in H3. lra.
  - injection Hq as <-. rewrite Hd. apply fdist. lra.
Qed.

(** a free flyer, interpolated linearly *)
Definition fff : device := Dev 7 0 (fun q1 q2 u => zip_with (fun a b => a + u * (b - a)) q1 q2).
Lemma fflyer : free_flyer fff.
Proof.
  intros q1 q2 L1 L2. do 8 (destruct q1 as [|? q1]; try discriminate). do 8 (destruct q2 as [|? q2]; try discriminate).
  cbn [interp fff zip_with]. split; repeat (apply f_equal2; [ring|]); reflexivity.
Qed.
Definition fpd : pdata := PD vzero vzero vzero vzero vzero vzero (V3 1 2 3) (V3 4 5 6).
(** a path of duration 2; its last coordinate goes from 0 to 1 *)
Definition fplen (p : unit) : R := 2.
Definition fpend (p : unit) : list R := eq0 ++ [1].
Definition fpat (p : unit) (t : R) : list R := eq0 ++ [t / 2].
Definition fquat (m : mat3) : quat := (0, 0, 0, 1).
Lemma fhalf : first_index (fun c => List.last (fpat tt c) 0) (fplen tt) (1/2 * List.last (fpend tt) 0) 1.
Proof.
  left. exists 100%nat. cbn [fpat fpend eq0 app List.last fplen]. unfold fplen.
  assert (E : INR 100 = 100) by (cbn; ring). rewrite E. split; [lra|]. split; [lra|]. split; [lra|].
  intros k Hk. apply lt_INR in Hk. rewrite E in Hk. lra.
Qed.
Definition fstart : solverState unit := SST unit [[PWhole unit tt]] ∅.
(** ndcurves: the third argument of the constructor is the first time *)
Definition nbezier (pts : list vec3) (T : R) : bezier := Bez T 1 (fun _ => vzero).
(** a solver that fits nothing *)
Definition nfit (v : nat) (d : pdata) (eff : R -> vec3) (T wt : R) : option bezier := None.
Lemma nfit_good : good_curves epoints epoints ebezier ederiv nfit.
Proof. destruct ecurves_good as [G1 G2 G3 _]. split; [exact G1|exact G2|exact G3|]. intros; discriminate. Qed.
Lemma efit_first d eff T : exists z, efit 1 d eff T 0 = Some z.
Proof. unfold efit. destruct (Rle_dec 0 (1/2)); [eauto|lra]. Qed.

(** a planner that answers at once *)
Definition fsolve (k i : nat) (pb : rrtProblem unit) : solveResult iE := Solved iE (Some [(rStart unit pb, rGoal unit pb)]).
Definition fhas (n : string) : bool := bool_decide (n = "hip"%string) || bool_decide (n = "hand"%string).
Lemma fknown h : 1/100 < h -> known_common ebody estate (fup h).
Proof.
  intros Hh n (p & q & H1 & H2 & H3). apply fpos in H1 as [[-> ->]|[-> ->]].
  - exists eleg, efoot. split_and!; [reflexivity..|intros _; eexists; reflexivity].
  - exists earm, ehand. split_and!; [reflexivity..|intros _; eexists; reflexivity].
Qed.
Lemma finter h (X : Type) (get : X -> PSt) getPath (x y : X) sf cf th mi numOpt keep : 1/100 < h -> get x = estate -> get y = fup h ->
  (exists more, cf = Ok more) -> getPath x y = Ok tt ->
  exists l, interpolate unit iE ebody icur fsolve ishort ishort sf cf th mi numOpt get getPath keep [x; y] 1 ione = Some (IPath iE l).
Proof.
  intros Hh Hx Hy Hc Hg.
  destruct (proj2 (problem_defined unit ebody icur sf cf th mi tt estate (fup h) ltac:(cbn; lia) ltac:(cbn; lia)) (conj (fknown h Hh) Hc)) as [pb Hpb].
  eexists. apply (result unit iE ebody icur fsolve ishort ishort sf cf th mi numOpt X get getPath keep [x; y] 1 ione _ ione_fair).
  split; [cbn; lia|]. exists 0%nat, [[(rStart unit pb, rGoal unit pb)]].
  split; [lia|]. split; [reflexivity|]. split; [|split; [lia|reflexivity]].
  intros [|[|i]] a b [H1 H2]; cbn in H1, H2; try discriminate. injection H1 as <-. injection H2 as <-. eexists. split; [reflexivity|].
  exists pb, [(rStart unit pb, rGoal unit pb)], [(rStart unit pb, rGoal unit pb)].
  split; [exists tt; rewrite Hx, Hy; auto|]. split; [reflexivity|]. split; apply iopt.
Qed.
Notation fWith := (effectorRRTWithPath fff fpd 8 9 epoints epoints ebezier ederiv efit unit fplen fpend fpat ebody fquat (V3 7 7 7) iE icur fsolve ishort ishort (fun _ => tt) (fun _ => tt) (fun p => p) fhas).
Notation fFrom := (effectorRRTFromPath fff fpd 8 9 epoints epoints ebezier ederiv efit unit fplen fpend fpat ebody fquat (V3 7 7 7) iE icur fsolve ishort ishort (fun _ => tt) (fun _ => tt) (fun p => p) fhas).
Lemma fcons full : exists more, setEffectorConstraints unit ebody (V3 7 7 7) tt tt full ehand ["hand"]%string = Ok more.
Proof. destruct full as [[]|]; eexists; reflexivity. Qed.
Lemma ex_with keep full : exists p w', fWith tt (0, 2) iextract tt estate ffar keep full ["hand"]%string ["hip"]%string 1 ione fstart = Some (FPath unit p w').
Proof.
  apply (with_runs fff fpd 8 9 epoints epoints ebezier ederiv efit unit fplen fpend fpat ebody fquat (V3 7 7 7) iE icur fsolve ishort ishort (fun _ => tt) (fun _ => tt) (fun p => p) fhas)
    with (n := "arm"%string) (en := "hand"%string) (f := ehand) (n0 := V3 0 0 1) (n1 := V3 0 1 0).
  - exact ecurves_good.
  - exact fflyer.
  - unfold fplen. lra.
  - apply fmoves. lra.
  - exact feffector.
  - reflexivity.
  - reflexivity.
  - repeat constructor.
  - repeat constructor.
  - intros d. apply efit_first.
  - intros v. apply (finter (1/2)); [lra|reflexivity|reflexivity|apply fcons|reflexivity].
Qed.
Lemma ex_com h : 1/100 < h -> exists l, comRRT unit iE ebody icur fsolve ishort ishort isteer ifree (fun _ => tt) (0, 2) iextract estate (fup h) 1 true 1 1 ione ione = Some (IPath iE l).
Proof.
  intros Hh. assert (HC : exists more, contactsOnly unit = Ok more) by (eexists; reflexivity).
  unfold comRRT. destruct (allVariations _ _ _ _) as [|v vs].
  - cbn [ifree]. apply (finter h); [exact Hh|reflexivity|reflexivity|exact HC|reflexivity].
  - unfold limbRRT. destruct (finter h PSt (fun s => s) (fun a b : PSt => isteer (configuration a) (configuration b)) estate (fup h) (LimbShooter unit) (contactsOnly unit) (1/1000) 10000 1 false Hh eq_refl eq_refl HC eq_refl) as [l Hl].
    rewrite Hl. apply (finter h); [exact Hh|reflexivity|reflexivity|exact HC|reflexivity].
Qed.
Lemma ex_unknown_joint keep p w' : fWith tt (0, 2) iextract tt estate ffar keep None []%string ["elbow"]%string 1 ione fstart = Some (FPath unit p w') -> False.
Proof.
  apply (unknown_joint fff fpd 8 9 epoints epoints ebezier ederiv efit unit fplen fpend fpat ebody fquat (V3 7 7 7) iE icur fsolve ishort ishort (fun _ => tt) (fun _ => tt) (fun p => p) fhas)
    with (n := "elbow"%string); [left|reflexivity].
Qed.
(** a state in which the arm has no contact: the trajectory needs its normal *)
Definition fleg : PSt :=
  mkState eq0 (<["leg" := true]> ∅)%string (<["leg" := V3 0 0 1]> ∅)%string (<["leg" := V3 0 0 0]> ∅)%string (<["leg" := Pz]> ∅)%string ["leg"]%string 1 true 0.
Lemma fleg_moves : moves_first fleg ffar "arm" /\ normals fleg !! "arm"%string = None.
Proof.
  split; [|reflexivity]. split.
  - eexists. split; [reflexivity|]. left. reflexivity.
  - intros m (p & Hp & Hc). apply fpos in Hp as [[-> ->]|[-> _]]; [|reflexivity].
    destruct Hc as [Hc|(q & Hq & Hc)]; [discriminate|]. cbn in Hq. injection Hq as <-. rewrite moved3_refl in Hc. discriminate.
Qed.
(** a robot that does not know the arm *)
Definition fonly : fullbody :=
  mkFullbody erobot (<["leg" := eleg]> ∅)%string [0;0;1;0;0;0;1;0;0] [] false (fun _ => true) ∅ 0.
Lemma fonly_unknown : forall en f, ~ effector_of fonly "arm" en f.
Proof. intros en f (l & H & _). discriminate. Qed.
