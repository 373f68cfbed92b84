(** A planner, three states and a schedule on which the hypotheses of the interpolation
    theorems hold. *)
From Coq Require Import Reals Lia Lra.
From Verif Require Import SampModel TrajModel TrajSpec MapsProofs VecProofs StateProofs ProjProofs ProjExamples.
From Verif Require Export InterSpec InterProofs InterProofs2 InterProofs3 InterProofs4.
From Verif Require Import StateModel.
Local Open Scope nat_scope.

(** the arm leaves its contact and goes up, then comes back *)
Definition iq1 : list R := [0;0;1;0;0;0;1;0;1/2]%R.
Definition istate1 : PSt :=
  mkState iq1 (<["leg" := true]> ∅)%string (<["leg" := V3 0 0 1]> ∅)%string (<["leg" := V3 0 0 0]> ∅)%string
    (<["leg" := Pz]> ∅)%string ["leg"]%string 1 true 0%R.
Definition istates : list PSt := [estate; istate1; estate].
Definition icur : list R := replicate 10 7%R.

(** segments, known by their ends *)
Notation iE := (list R * list R)%type.
Definition ion (e : iE) (q : list R) : Prop := q = fst e \/ q = snd e.
(** finds nothing at the first attempt; then, the segment if the constraints hold at its ends *)
Definition isolve (k i : nat) (pb : rrtProblem unit) : solveResult iE :=
  match k with
  | O => RuntimeError iE
  | S _ => if (length (rGoal unit pb) =? length (rStart unit pb)) && forallb (fun c => satb erobot (thr (rProj unit pb)) (rStart unit pb) c && satb erobot (thr (rProj unit pb)) (rGoal unit pb) c) (cs (rProj unit pb))
           then Solved iE (Some [(rStart unit pb, rGoal unit pb)]) else Solved iE None
  end.
Definition ishort (k i j : nat) (pb : rrtProblem unit) (l : list iE) : outcome (list iE) := Ok l.
Definition ipath (a b : PSt) : outcome unit := Ok tt.

Lemma isound : sound_planner unit iE fst snd ion ebody isolve ishort ishort.
Proof.
  split.
  - intros [|k] i pb l H; [discriminate|]. cbn [isolve] in H.
    destruct (_ && _) eqn:Ef; [|discriminate]. injection H as <-. apply andb_true_iff in Ef as [El Ef]. apply Nat.eqb_eq in El. rewrite forallb_forall in Ef.
    split; [discriminate|]. split; [split; reflexivity|]. intros e q He Hq. apply elem_of_list_singleton in He as ->. split.
    { destruct Hq as [->| ->]; [reflexivity|]. exact El. }
    intros c Hc. apply elem_of_list_In in Hc. specialize (Ef c Hc). apply andb_true_iff in Ef as [E1 E2]. apply satb_spec.
    destruct Hq as [->| ->]; assumption.
  - intros k i j pb l l' Ha [= <-]. exact Ha.
  - intros k i j pb l l' Ha [= <-]. exact Ha.
Qed.
Lemma isized : sized icur PSt (fun s => s) istates.
Proof. intros x Hx. unfold istates in Hx. rewrite !elem_of_cons in Hx. destruct Hx as [->|[->|[->|Hx]]]; [reflexivity..|inversion Hx]. Qed.
Lemma idefined : defined_calls unit iE icur ishort ishort (contactsOnly unit) PSt (fun s => s) ipath istates.
Proof.
  split; try discriminate. intros x Hx. assert (H := isized x Hx). cbv beta in *. lia.
Qed.
Definition isched (k : nat) : list nat := [1; 0].
Lemma ifair : fair 2 isched.
Proof. intros k. cbn. apply perm_swap. Qed.
Definition isched2 (k : nat) : list nat := if Nat.even k then [0; 1] else [1; 0].
Lemma ifair2 : fair 2 isched2.
Proof. intros k. unfold isched2. destruct (Nat.even k); [reflexivity|apply perm_swap]. Qed.

(** the foot does not depend on the arm nor on the time *)
Lemma hip_same q : take 8 q = take 8 eq0 -> jpose erobot q "hip" = jpose erobot eq0 "hip".
Proof.
  intros H. cbn [jpose erobot]. rewrite !hip_pose.
  assert (N : forall i, i < 8 -> nth i q 0%R = nth i eq0 0%R).
  { intros i Hi. assert (L : q !! i = eq0 !! i) by (rewrite <- (lookup_take q 8 i Hi), H; apply lookup_take, Hi).
    destruct (q !! i) as [x|] eqn:E1.
    - rewrite (nth_lookup_Some _ _ _ _ E1). symmetry. apply nth_lookup_Some. congruence.
    - rewrite !nth_lookup, E1, <- L. reflexivity. }
  rewrite !N by lia. reflexivity.
Qed.
Lemma leg_ok (s : PSt) q th le c : (0 <= th)%R -> take 8 q = take 8 eq0 ->
  positions s !! "leg"%string = Some (V3 0 0 0) -> rotations s !! "leg"%string = Some Pz ->
  contactConstraint ebody s "leg" = Ok le -> c ∈ le -> satisfied erobot th q c.
Proof.
  intros Hth Hq Hp Hr Hle Hc.
  assert (H0 : satisfied erobot th eq0 c).
  { eapply (one_contact th "leg" eleg efoot s); [exact Hth|reflexivity|reflexivity|reflexivity|reflexivity|rewrite leg_foot; exact Hp|exact Hr|exact Hle|exact Hc]. }
  unfold contactConstraint in Hle. replace (limbsOf ebody !! "leg"%string) with (Some eleg) in Hle by reflexivity. rewrite Hp in Hle.
  cbn [effName eleg dev ebody ltype is6] in Hle. rewrite foot_lookup, Hr in Hle. injection Hle as <-.
  rewrite !elem_of_cons in Hc. destruct Hc as [->|[->|Hc]]; [| |inversion Hc]; cbn [satisfied fjoint efoot] in *; rewrite (hip_same q Hq); exact H0.
Qed.

(** a pair of these states *)
Definition itwo (a b : PSt) : Prop := (a = estate /\ b = istate1) \/ (a = istate1 /\ b = estate).
Lemma ipairs i a b : pair_at PSt istates i a b -> itwo a b.
Proof.
  unfold pair_at, istates, itwo. intros [H1 H2]. destruct i as [|[|[|i]]]; cbn in H1, H2; try discriminate.
  - injection H1 as <-. injection H2 as <-. auto.
  - injection H1 as <-. injection H2 as <-. auto.
Qed.
Lemma istays a b n : itwo a b -> stays a b n -> n = "leg"%string.
Proof.
  intros [[-> ->]|[-> ->]] (p & q & H1 & H2 & _); cbn in H1, H2; rewrite !lookup_insert_Some, !lookup_empty in *; naive_solver.
Qed.
Lemma istays_leg : stays estate istate1 "leg" /\ ~ stays estate istate1 "arm".
Proof.
  split; [exists (V3 0 0 0), (V3 0 0 0); split; [reflexivity|]; split; [reflexivity|apply moved3_refl]|].
  intros (p & q & H & _). cbn in H. rewrite lookup_insert_Some, lookup_empty in H. destruct H as [[H _]|[_ H]]; discriminate.
Qed.
Lemma iknown a b : itwo a b -> known_common ebody a b.
Proof.
  intros H n Hn. apply (istays _ _ _ H) in Hn as ->. exists eleg, efoot. split; [reflexivity|]. split; [reflexivity|].
  intros _. destruct H as [[-> _]|[-> _]]; eexists; reflexivity.
Qed.
Lemma iproblem (cfg : shooterFactory unit) th mi a b : itwo a b -> (0 <= th)%R -> exists pb,
  problemBetween unit ebody icur cfg (contactsOnly unit) th mi tt a b = Ok pb /\
  forall k i, isolve (S k) i pb = Solved iE (Some [(configuration a ++ [0%R], configuration b ++ [1%R])]).
Proof.
  intros H Hth. assert (L : S (length (configuration a)) = length icur /\ S (length (configuration b)) = length icur) by (destruct H as [[-> ->]|[-> ->]]; split; reflexivity).
  destruct (proj2 (problem_defined unit ebody icur cfg (contactsOnly unit) th mi tt a b ltac:(lia) ltac:(lia))) as [pb Hpb].
  { split; [apply iknown, H|]. eexists. reflexivity. }
  exists pb. split; [exact Hpb|].
  apply problem_content in Hpb as (Q1 & Q2 & Q3 & _ & _ & _ & _ & more & tds & Qc & _ & Q8); [|apply L..].
  injection Qc as <- <-.
  intros k i. cbn [isolve]. rewrite (proj2 (Nat.eqb_eq _ _)) by (rewrite Q1, Q2, !app_length; cbn [length]; lia). cbn [andb].
  replace (forallb _ _) with true; [rewrite Q1, Q2; reflexivity|]. symmetry. apply forallb_forall. intros c Hc.
  apply elem_of_list_In, Q8 in Hc. destruct Hc as [Hc|(n & le & Hn & Hle & Hc)]; [inversion Hc|].
  apply (istays _ _ _ H) in Hn as ->. rewrite Q1, Q2, Q3. apply andb_true_iff. split; apply satb_spec; 
  (eapply (leg_ok a); [exact Hth| | | |exact Hle|exact Hc]; destruct H as [[-> ->]|[-> ->]]; reflexivity).
Qed.

Notation iInter := (interpolate unit iE ebody icur isolve ishort ishort (LimbShooter unit) (contactsOnly unit) (1/1000) 0 3 (fun s : PSt => s) ipath).
Notation iSolved := (solved_as unit iE ebody icur isolve ishort ishort (LimbShooter unit) (contactsOnly unit) (1/1000) 0 3 PSt (fun s => s) ipath).
Lemma iopt n j l : optimised iE (fun j0 l0 => Ok l0) n j l l.
Proof. revert j. induction n as [|n IH]; intros j; econstructor; [reflexivity|apply IH]. Qed.
Lemma isolved k i a b : itwo a b -> iSolved (S k) i a b [(configuration a ++ [0%R], configuration b ++ [1%R])].
Proof.
  intros H. destruct (iproblem (LimbShooter unit) (1/1000) 0 a b H) as (pb & Hpb & Hs); [lra|].
  exists pb, [(configuration a ++ [0%R], configuration b ++ [1%R])], [(configuration a ++ [0%R], configuration b ++ [1%R])].
  split; [exists tt; split; [reflexivity|exact Hpb]|]. split; [apply Hs|]. split; apply iopt.
Qed.
Lemma iunsolved i a b : itwo a b -> unsolved unit iE ebody icur isolve (LimbShooter unit) (contactsOnly unit) (1/1000) 0 PSt (fun s => s) ipath 0 i a b.
Proof.
  intros H. destruct (iproblem (LimbShooter unit) (1/1000) 0 a b H) as (pb & Hpb & Hs); [lra|].
  exists pb. split; [exists tt; split; [reflexivity|exact Hpb]|]. right. left. reflexivity.
Qed.
Lemma i_first : no_failure unit iE ebody icur isolve ishort ishort (LimbShooter unit) (contactsOnly unit) (1/1000) 0 3 PSt (fun s => s) ipath istates 0 /\
  ~ all_solved unit iE ebody icur isolve ishort ishort (LimbShooter unit) (contactsOnly unit) (1/1000) 0 3 PSt (fun s => s) ipath istates 0.
Proof.
  split.
  - intros i a b H. right. apply iunsolved. eapply ipairs, H.
  - intros H. destruct (H 0 estate istate1) as (l & pb & l0 & l1 & _ & Hs & _); [split; reflexivity|]. discriminate.
Qed.
Definition iresult (keep : bool) : list (piece iE) :=
  map (if keep then Full iE else Reduced iE) [(eq0 ++ [0%R], iq1 ++ [1%R]); (iq1 ++ [0%R], eq0 ++ [1%R])].
Lemma ex_inter keep : iInter keep istates 2 isched = Some (IPath iE (iresult keep)).
Proof.
  apply (result unit iE ebody icur isolve ishort ishort (LimbShooter unit) (contactsOnly unit) (1/1000) 0 3 PSt (fun s => s) ipath keep istates 2 isched (iresult keep) ifair).
  split; [cbn; lia|].
  exists 1, [[(eq0 ++ [0%R], iq1 ++ [1%R])]; [(iq1 ++ [0%R], eq0 ++ [1%R])]]. split; [lia|]. split; [reflexivity|]. split; [|split].
  - intros i a b Hab. assert (Hi := Hab). apply ipairs in Hab. unfold pair_at, istates in Hi. destruct Hi as [H1 H2].
    destruct i as [|[|[|i]]]; cbn in H1, H2; try discriminate; injection H1 as <-; injection H2 as <-; eexists; (split; [reflexivity|]); apply (isolved 0 _ _ _ Hab).
  - intros m Hm. assert (m = 0) as -> by lia. apply i_first.
  - destruct keep; reflexivity.
Qed.
(** the other schedule, by the theorem *)
Lemma ex_other_order keep : iInter keep istates 2 isched2 = Some (IPath iE (iresult keep)).
Proof.
  rewrite <- ex_inter. refine (any_order unit iE ebody icur isolve ishort ishort (LimbShooter unit) (contactsOnly unit) (1/1000) 0 3 PSt (fun s => s) ipath keep istates 2 isched2 isched ifair2 ifair idefined).
Qed.

(** a planner that never finds anything *)
Lemma ex_never keep fuel : interpolate unit iE ebody icur (fun _ _ _ => RuntimeError iE) ishort ishort (LimbShooter unit) (contactsOnly unit) (1/1000) 0 3 (fun s : PSt => s) ipath keep istates fuel isched = None.
Proof.
  apply (running unit iE ebody icur (fun _ _ _ => RuntimeError iE) ishort ishort (LimbShooter unit) (contactsOnly unit) (1/1000) 0 3 PSt (fun s => s) ipath keep istates fuel isched ifair).
  split; [cbn; lia|]. intros m _. split.
  - intros i a b Hab. right. destruct (iproblem (LimbShooter unit) (1/1000) 0 a b (ipairs _ _ _ Hab)) as (pb & Hpb & _); [lra|].
    exists pb. split; [exists tt; split; [reflexivity|exact Hpb]|]. auto.
  - intros H. destruct (H 0 estate istate1) as (l & pb & l0 & l1 & _ & Hs & _); [split; reflexivity|]. discriminate.
Qed.
(** an optimizer that throws *)
Lemma ex_terminate keep : interpolate unit iE ebody icur isolve (fun _ _ _ _ _ => Throw) ishort (LimbShooter unit) (contactsOnly unit) (1/1000) 0 3 (fun s : PSt => s) ipath keep istates 2 isched = Some (ITerminate iE).
Proof.
  apply (terminates unit iE ebody icur isolve (fun _ _ _ _ _ => Throw) ishort (LimbShooter unit) (contactsOnly unit) (1/1000) 0 3 PSt (fun s => s) ipath keep istates 2 isched ifair).
  - split; try discriminate. intros x Hx. assert (H := isized x Hx). cbv beta in *. lia.
  - split; [cbn; lia|]. exists 1. split; [lia|]. split.
    + intros H. destruct (H 0 estate istate1) as [(l & pb & l0 & l1 & _ & _ & Ho & _)|(pb & (ref & Hr & Hpb) & Hs)]; [split; reflexivity| |].
      * inversion Ho as [|? ? ? ? ? Hx]. discriminate.
      * destruct (iproblem (LimbShooter unit) (1/1000) 0 estate istate1 ltac:(left; auto)) as (pb' & Hpb' & Hs'); [lra|].
        destruct ref. cbv beta in Hpb. assert (pb = pb') by congruence. subst pb'. rewrite (Hs' 0 0) in Hs. destruct Hs as [Hs|[Hs|Hs]]; discriminate.
    + intros m Hm. assert (m = 0) as -> by lia. split.
      * intros i a b Hab. right. apply iunsolved, (ipairs _ _ _ Hab).
      * intros H. destruct (H 0 estate istate1) as (l & pb & l0 & l1 & _ & Hs & _); [split; reflexivity|]. discriminate.
Qed.

Lemma itime : time_is_extra (dev ebody) 9.
Proof.
  intros q j Hq.
  assert (N : forall i, i < 9 -> nth i (removelast q) 0%R = nth i q 0%R).
  { destruct (rev q) as [|x r] eqn:Er; [apply (f_equal (@length R)) in Er; rewrite rev_length in Er; cbn in Er; lia|].
    apply (f_equal (@rev R)) in Er. rewrite rev_involutive in Er. cbn in Er. subst q. rewrite removelast_snoc. intros i Hi.
    rewrite app_length in Hq. cbn in Hq. rewrite app_nth1 by lia. reflexivity. }
  cbn [jpose dev ebody erobot]. unfold epose, head3. rewrite !N by lia. reflexivity.
Qed.
(** ** comRRT *)
Definition isteer (a b : list R) : outcome unit := Ok tt.
Definition ifree (a b : list R) : option unit := Some tt.
Definition iextract (a b : R) : outcome unit := Ok tt.
Definition ione (k : nat) : list nat := [0].
Lemma ione_fair : fair 1 ione.
Proof. intros k. reflexivity. Qed.
Lemma ex_pair : forall (X : Type) (get : X -> PSt) getPath (x y : X) sf th mi keep, get x = estate -> get y = istate1 -> (0 <= th)%R -> getPath x y = Ok tt ->
    interpolate unit iE ebody icur isolve ishort ishort sf (contactsOnly unit) th mi 2 get getPath keep [x; y] 2 ione =
    Some (IPath iE (map (if keep : bool then Full iE else Reduced iE) [(eq0 ++ [0%R], iq1 ++ [1%R])])).
Proof.
  intros X get getPath x y sf th mi keep Hx Hy Hth Hg.
    apply (result unit iE ebody icur isolve ishort ishort sf (contactsOnly unit) th mi 2 X get getPath keep [x; y] 2 ione _ ione_fair).
    split; [cbn; lia|]. exists 1, [[(eq0 ++ [0%R], iq1 ++ [1%R])]].
    destruct (iproblem sf th mi estate istate1 ltac:(left; auto) Hth) as (pb & Hpb & Hs).
    assert (Hask : asked unit ebody icur sf (contactsOnly unit) th mi X get getPath x y pb) by (exists tt; rewrite Hx, Hy; auto).
    assert (Hone : forall i a b, pair_at X [x; y] i a b -> i = 0 /\ a = x /\ b = y).
    { intros [|[|i]] a b [H1 H2]; cbn in H1, H2; try discriminate. injection H1 as <-. injection H2 as <-. auto. }
    split; [lia|]. split; [reflexivity|]. split; [|split].
    - intros i a b Hab. apply Hone in Hab as (-> & -> & ->). eexists. split; [reflexivity|].
      exists pb, [(eq0 ++ [0%R], iq1 ++ [1%R])], [(eq0 ++ [0%R], iq1 ++ [1%R])]. split; [exact Hask|]. split; [apply Hs|]. split; apply iopt.
    - intros m Hm. assert (m = 0) as -> by lia. split.
      + intros i a b Hab. apply Hone in Hab as (-> & -> & ->). right. exists pb. split; [exact Hask|]. right. left. reflexivity.
      + intros H. destruct (H 0 x y) as (l & pb' & l0 & l1 & _ & Hs' & _); [split; reflexivity|]. discriminate.
    - destruct keep; reflexivity.
Qed.
Lemma ex_com_rrt : exists l, comRRT unit iE ebody icur isolve ishort ishort isteer ifree (fun _ => tt) (0, 1)%R iextract estate istate1 2 true 2 2 ione ione = Some (IPath iE l).
Proof.
  pose proof ex_pair as HI.
  unfold comRRT. destruct (allVariations _ _ _ _) as [|v vs].
  - cbn [ifree]. rewrite (HI _ _ _ (0, estate)%R (1, istate1)%R _ _ _ true); [eauto|reflexivity|reflexivity|lra|reflexivity].
  - unfold limbRRT. rewrite (HI _ _ _ estate istate1 _ _ _ false); [|reflexivity|reflexivity|lra|reflexivity].
    rewrite (HI _ _ _ (0, estate)%R (1, istate1)%R _ _ _ true); [eauto|reflexivity|reflexivity|lra|reflexivity].
Qed.

(** states with times *)
Definition itimed : list (R * PSt) := [(0, estate)%R; (1, istate1)%R].
Lemma ex_entries : (exists l, limbRRT unit iE ebody icur isolve ishort ishort isteer [estate; istate1] 2 10 2 ione = Some (IPath iE l)) /\
  (exists l, limbRRTFromPath unit iE ebody icur isolve ishort ishort iextract itimed 2 2 ione = Some (IPath iE l)) /\
  exists l, comRRTFromPath unit iE ebody icur isolve ishort ishort iextract tt itimed 2 2 ione = Some (IPath iE l).
Proof.
  unfold limbRRT, limbRRTFromPath, comRRTFromPath, itimed. split_and!.
  - rewrite (ex_pair _ _ _ estate istate1 _ _ _ false); [eauto|reflexivity|reflexivity|lra|reflexivity].
  - rewrite (ex_pair _ _ _ (0, estate)%R (1, istate1)%R _ _ _ false); [eauto|reflexivity|reflexivity|lra|reflexivity].
  - rewrite (ex_pair _ _ _ (0, estate)%R (1, istate1)%R _ _ _ false); [eauto|reflexivity|reflexivity|lra|reflexivity].
Qed.

(** ** the shooter: two limbs, with three and two samples *)
Definition ismp (r : nat) (v : R) : SampModel.sample R := mkSample r 0%R (mkContent r 1 [v] (0,0,0)%R (0,0,0)%R (mkMat 0 0 []) (mkMat 0 0 [])).
Definition ilimbs : list (list (SampModel.sample R)) := [[ismp 7 1%R; ismp 7 2%R; ismp 7 3%R]; [ismp 8 4%R; ismp 8 5%R]].
Lemma ifit : samples_fit ilimbs 9.
Proof.
  intros ss s H1 H2. unfold ilimbs in H1. rewrite !elem_of_cons in H1. destruct H1 as [->|[->|H1]]; [| |inversion H1];
  rewrite !elem_of_cons in H2; destruct H2 as [->|H2]; cbn; try (split; [lia|reflexivity]);
  destruct H2 as [->|H2]; cbn; try (split; [lia|reflexivity]); try (inversion H2; fail);
  destruct H2 as [->|H2]; cbn; try (split; [lia|reflexivity]); inversion H2.
Qed.
Lemma ienough ss : ss ∈ ilimbs -> 2 <= length ss.
Proof. unfold ilimbs. rewrite !elem_of_cons. intros [->|[->|H]]; cbn; [lia|lia|inversion H]. Qed.
Definition iat (t : R) : list R := [t;0;1;0;0;0;1;0;0]%R.
Lemma ex_shoot : shoot (iat, 2, 4)%R 9 [] ilimbs (1/2)%R [5; 3] (fun _ => []) =
  Ok ([((4 - 2) * (1/2) + 2); 0; 1; 0; 0; 0; 1; 2; 4; 1/2]%R, fun _ => []).
Proof. reflexivity. Qed.

(** ** projectOnCom: two extra degrees of freedom *)
Definition imodel : PSt :=
  mkState (eq0 ++ [5; 6]%R) (contacts estate) (normals estate) (positions estate) (rotations estate) (order estate) (nbContacts estate) true 0%R.
Lemma iextra : extra_dofs (dev ebody) (11 - 2).
Proof.
  intros q q' H. change (11 - 2) with 9 in H.
  assert (N : forall i, i < 9 -> nth i q 0%R = nth i q' 0%R).
  { intros i Hi. assert (L : q !! i = q' !! i) by (rewrite <- (lookup_take q 9 i Hi), H; apply lookup_take, Hi).
    rewrite !nth_lookup, L. reflexivity. }
  split.
  - intros j. cbn [jpose dev ebody erobot]. unfold epose, head3. rewrite !N by lia. reflexivity.
  - cbn [comOf dev ebody erobot]. unfold head3. rewrite !N by lia. reflexivity.
Qed.
Lemma imodel_known : known_contacts ebody imodel.
Proof. intros e He. apply estate_known. exact He. Qed.
Lemma imodel_same : CreateContactConstraints ebody imodel = CreateContactConstraints ebody estate.
Proof.
  unfold CreateContactConstraints.
  assert (HC : forall es, contactConstraintsOf ebody imodel es = contactConstraintsOf ebody estate es).
  { induction es as [|e es IH]; cbn [contactConstraintsOf]; [reflexivity|]. rewrite IH. reflexivity. }
  rewrite HC. f_equal.
Qed.
Lemma check_size p q : length (snd (check p q)) = length q.
Proof. reflexivity. Qed.
Lemma ex_project_on_com : exists q, projectOnCom check ebody 11 2 9 imodel (V3 0 0 1) = Ok (true, q).
Proof.
  unfold projectOnCom. cbn [length configuration imodel eq0 app Nat.eqb Nat.leb andb].
  change (addContactConstraints ebody imodel (fixedContacts moved3 imodel imodel)) with (CreateContactConstraints ebody imodel).
  destruct (proj1 (known_defined ebody imodel) imodel_known) as [cl Hcl]. rewrite Hcl. cbn [ibind].
  rewrite check_ok; [eexists; reflexivity|].
  cbn [cs cs1 thr addC addCs newProj app]. rewrite app_nil_r. intros c Hc. apply elem_of_app in Hc as [Hc|Hc].
  - assert (H0 : satisfied erobot (1 / 1000) eq0 c).
    { apply (estate_satisfied _ cl); [lra|rewrite <- Hcl; symmetry; apply imodel_same|exact Hc]. }
    destruct (contacts_elem_inv _ _ _ _ Hcl c Hc) as (e & le & He & Hle & Hin).
    assert (HJ := proj1 (iextra eq0 [0;0;1;0;0;0;1;0;0;5;6;9]%R eq_refl)).
    unfold contactConstraint in Hle. repeat case_match; try discriminate; injection Hle as <-;
    rewrite ?elem_of_cons in Hin; destruct_or? Hin; subst; try (inversion Hin; fail); cbn [satisfied] in *; cbn [dev ebody] in HJ; rewrite <- HJ; exact H0.
  - apply elem_of_list_singleton in Hc as ->. apply dist_self_le; [reflexivity|lra].
Qed.
