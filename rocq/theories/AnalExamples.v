(** Concrete cases for the analyses. *)
From Verif Require Import Maps MapsProofs Vec SampModel AnalModel AnalSpec AnalProofs AnalProofs2.
From Coq Require Import Lra Lia.
Local Open Scope R_scope.

(** a limb of two joints and a sample for it *)
Definition knee : joint := Joint "knee" 8 (Some (-1, 1)) [].
Definition hip : joint := Joint "hip" 7 (Some (0, 2)) [knee; Joint "tail" 9 (Some (0, 0)) []].
Definition leg : alimb := mkALimb hip 7 6 "knee" 7.
Definition legs : gmap string alimb := {[ "leg"%string := leg ]}.
Definition someMat : matrix R := mkMat 6 2 [1; 0; 0; 1; 0; 0; 0; 0; 1; 1; 0; 0].
Definition cubeMat : matrix R := mkMat 3 3 [1; 0; 0; 1; 1; 0; 0; 0; 2].
Definition legSample (h k : R) (m : matrix R) : sample R :=
  mkSample 0 0 (mkContent 7 2 [h; k] (0, 0, 0) (0, 0, 0) m (mkMat 6 6 (replicate 36 0))).
Definition bodyConf : list R := [0; 0; 0; 0; 0; 0; 1; 0; 0; 0].
Definition loaded (h k : R) : list R := [0; 0; 0; 0; 0; 0; 1; h; k; 0].

Lemma ex_leg_limb h k m : getLimbFromStartRank (startRank (content (legSample h k m))) legs ∅ = Ok leg.
Proof.
  apply limb_of_rank. left. exists "leg"%string. split; [done|]. split; [done|].
  unfold legs. intros n l [<- <-]%lookup_singleton_Some _. reflexivity.
Qed.
Lemma ex_leg_load h k m : Load (content (legSample h k m)) bodyConf = Ok (loaded h k).
Proof. reflexivity. Qed.
Lemma ex_leg_chain : chain (l_effector leg) (l_joint leg) = [hip; knee].
Proof. reflexivity. Qed.
Lemma ex_leg_within h k : 0 <= h <= 2 -> -1 <= k <= 1 -> forall j, j ∈ chain (l_effector leg) (l_joint leg) ->
  proper (loaded h k) j /\ within (loaded h k) j.
Proof.
  intros Hh Hk j. rewrite ex_leg_chain. intros Hj. rewrite !elem_of_cons, elem_of_nil in Hj. destruct_or!; subst; [|].
  - split; [split; [simpl; lia|]|]; simpl.
    + intros lb ub Heq. injection Heq as <- <-. lra.
    + intros lb ub v Heq. simpl in Heq. injection Heq as <- <-. intros Hv. simpl in Hv. injection Hv as <-. lra.
  - split; [split; [simpl; lia|]|]; simpl.
    + intros lb ub Heq. injection Heq as <- <-. lra.
    + intros lb ub v Heq. simpl in Heq. injection Heq as <- <-. intros Hv. simpl in Hv. injection Hv as <-. lra.
Qed.
Lemma ex_leg_middle : exists v, distanceToLimits legs ∅ bodyConf (legSample 1 0 someMat) = Ok (Some v) /\ 0 < v < 1.
Proof.
  destruct (limits_within legs ∅ bodyConf (legSample 1 0 someMat) leg (loaded 1 0)) as (v & H1 & H2 & H3);
    [apply ex_leg_limb|apply ex_leg_load|apply ex_leg_within; lra|].
  exists v. split; [done|]. assert (v <> 0); [|lra]. intros Hz. apply H3 in Hz as (j & Hj & Hat).
  rewrite ex_leg_chain in Hj. rewrite !elem_of_cons, elem_of_nil in Hj.
  destruct Hj as [->|[->|[]]]; destruct Hat as (lb & ub & x & Ha & Hb & Hc); simpl in Ha, Hb; injection Ha as <- <-; injection Hb as <-; lra.
Qed.
Lemma ex_leg_beyond : exists v, distanceToLimits legs ∅ bodyConf (legSample 3 0 someMat) = Ok (Some v) /\ v < 0.
Proof.
  apply (limits_beyond legs ∅ bodyConf (legSample 3 0 someMat) leg (loaded 3 0)); [apply ex_leg_limb|apply ex_leg_load| |].
  - intros j. rewrite ex_leg_chain. intros Hj. rewrite !elem_of_cons, elem_of_nil in Hj. destruct_or!; subst; [|];
      (split; [simpl; lia|]; simpl; intros lb ub Heq; injection Heq as <- <-; lra).
  - exists hip. split; [rewrite ex_leg_chain; left|]. intros Hw. specialize (Hw 0 2 3 eq_refl eq_refl). lra.
Qed.

(** jacobians *)
Lemma ex_cube : well_formed cubeMat /\ ~ dependent_rows cubeMat 0 /\ exists v, manipulability TRANSLATION (legSample 0 0 cubeMat) = Ok v /\ 0 < v.
Proof.
  assert (Hn : ~ dependent_rows cubeMat 0).
  { intros (u & v & w & Hne & H). pose proof (H 0%nat) as H0. pose proof (H 1%nat) as H1. pose proof (H 2%nat) as H2.
    unfold entry, cubeMat in *. simpl in *. apply Hne. specialize (H0 ltac:(lia)). specialize (H1 ltac:(lia)). specialize (H2 ltac:(lia)). lra. }
  split; [done|]. split; [done|].
  destruct (manipulability_three TRANSLATION (legSample 0 0 cubeMat)) as (v & Hv & H0 & _ & Hz); [done|done|simpl; lia|].
  exists v. split; [done|]. destruct (Req_dec v 0) as [He|]; [|lra]. exfalso. apply Hn. apply Hz in He. exact He.
Qed.
Lemma ex_flat : well_formed someMat /\ dependent_rows someMat 3 /\ manipulability ROTATION (legSample 0 0 someMat) = Ok 0.
Proof.
  assert (Hn : dependent_rows someMat 3).
  { exists 1, 0, 0. split; [lra|]. intros j Hj. unfold entry, someMat in *. simpl in *.
    destruct j as [|[|j]]; [| |lia]; simpl; lra. }
  split; [done|]. split; [done|].
  destruct (manipulability_three ROTATION (legSample 0 0 someMat)) as (v & Hv & H0 & _ & Hz); [done|done|simpl; lia|].
  rewrite Hv. f_equal. apply Hz. exact Hn.
Qed.
(** singular values 2 and 4: the index is undefined, although the intended one is 1 - sqrt (3/4) *)
Lemma ex_sv : (forall x, x ∈ [4; 2] -> 0 <= x <= 1000) /\ least 2 [4; 2] /\ greatest 4 [4; 2].
Proof.
  split_and!.
  - intros x Hx. rewrite !elem_of_cons, elem_of_nil in Hx. destruct_or!; subst; lra.
  - split; [right; left|]. intros x Hx. rewrite !elem_of_cons, elem_of_nil in Hx. destruct_or!; subst; lra.
  - split; [left|]. intros x Hx. rewrite !elem_of_cons, elem_of_nil in Hx. destruct_or!; subst; lra.
Qed.
Lemma ex_isotropy_nan : isotropy 1000 [4; 2] = None.
Proof. destruct ex_sv as (H1 & H2 & H3). destruct (isotropy_exact 1000 [4; 2] 2 4 H1 H2 H3) as (_ & _ & H). apply H. lra. Qed.
Lemma ex_sv_small : (forall x, x ∈ [1/2; 1/4] -> 0 <= x <= 1000) /\ least (1/4) [1/2; 1/4] /\ greatest (1/2) [1/2; 1/4].
Proof.
  split_and!.
  - intros x Hx. rewrite !elem_of_cons, elem_of_nil in Hx. destruct_or!; subst; lra.
  - split; [right; left|]. intros x Hx. rewrite !elem_of_cons, elem_of_nil in Hx. destruct_or!; subst; lra.
  - split; [left|]. intros x Hx. rewrite !elem_of_cons, elem_of_nil in Hx. destruct_or!; subst; lra.
Qed.

(** reference configuration: hip around y, knee around x, no posture weights *)
Definition legAxis (i : nat) : R * R := if (i =? 6)%nat then (1, 0) else (0, 0).
Definition legDiff (q : list R) : list R := [0; 0; 0; 0; 0; 0; nth 7 q 0 - 1; nth 8 q 0].
Lemma ex_legAxis6 : legAxis 6 = (1, 0). Proof. reflexivity. Qed.
Lemma ex_legAxis7 : legAxis 7 = (0, 0). Proof. reflexivity. Qed.
Lemma ex_leg_weights i w : limb_dof leg i -> dof_weight legAxis [] 8 i w -> 0 < w.
Proof. intros _ [[H _]|[_ H]]; [done|]. destruct H as [H|[H|H]]; lra. Qed.
Lemma ex_leg_reference : referenceConfiguration legs ∅ legAxis [] 8 legDiff bodyConf (legSample 1 0 someMat) = Ok (Some 100).
Proof.
  destruct (reference_best legs ∅ legAxis [] 8 legDiff bodyConf (legSample 1 0 someMat) leg (loaded 1 0)) as (v & H1 & H2 & H3);
    [apply ex_leg_limb|apply ex_leg_load|simpl; lia|done|intros i w Hi Hw; left; by apply (ex_leg_weights i)|].
  rewrite H1. do 2 f_equal. apply H3. intros i w [Hi1 Hi2] _ _. simpl in Hi1, Hi2.
  assert (i = 6 \/ i = 7)%nat as [->| ->] by lia; simpl; lra.
Qed.
Lemma ex_leg_reference_off v : referenceConfiguration legs ∅ legAxis [] 8 legDiff bodyConf (legSample 1 1 someMat) = Ok (Some v) -> v < 100.
Proof.
  destruct (reference_best legs ∅ legAxis [] 8 legDiff bodyConf (legSample 1 1 someMat) leg (loaded 1 1)) as (v' & H1 & H2 & H3);
    [apply ex_leg_limb|apply ex_leg_load|simpl; lia|done|intros i w Hi Hw; left; by apply (ex_leg_weights i)|].
  rewrite H1. intros Heq. injection Heq as ->. assert (v <> 100); [|lra]. intros Hz.
  assert (Hx := proj1 H3 Hz 7%nat 100). simpl in Hx. assert (1 = 0); [|lra]. apply Hx; [unfold limb_dof; simpl; lia| |lra].
  right. split; [done|]. right. right. rewrite ex_legAxis7. simpl. rewrite Rabs_R0. lra.
Qed.

(** self collision: half of the shots are free; a database of four *)
Definition shot (k : nat) : list R := [0; 0; 0; 0; 0; 0; 1; INR k; 0; 0].
Definition freeConf (q : list R) : bool := if Req_EM_T (nth 8 q 0) 0 then true else false.
Lemma ex_database : fullBodyInstance Nat.even (fun k => k) 10 3 [100]%nat = Some [100; 0; 2]%nat.
Proof. reflexivity. Qed.
Lemma ex_database_stuck : (forall fuel, fullBodyInstance (fun _ => false) (fun k : nat => k) fuel 3 [] = None).
Proof.
  apply database_stuck. intros fuel. assert (E : filter (fun _ : nat => false) (map (fun k : nat => k) (seq 0 fuel)) = []); [|rewrite E; simpl; lia].
  generalize (map (fun k : nat => k) (seq 0 fuel)). induction l as [|x l IH]; [done|]. rewrite filter_cons_False by (simpl; tauto). done.
Qed.
(** the database was filled by a robot with three configuration variables *)
Definition smallDB : list (list R) := replicate nbFullBody [0; 0; 0].
Lemma ex_foreign : fullBodyInstance freeConf shot 0 nbFullBody smallDB = Some smallDB /\ [0; 0; 0] ∈ smallDB /\
  (length [0; 0; 0] < startRank (content (legSample 0 0 someMat)) + slength (content (legSample 0 0 someMat)))%nat.
Proof.
  split_and!.
  - unfold fullBodyInstance, smallDB. rewrite replicate_length. destruct (Nat.ltb_spec nbFullBody nbFullBody); [lia|done].
  - unfold smallDB. apply elem_of_replicate. split; [done|]. unfold nbFullBody. lia.
  - simpl. lia.
Qed.
Lemma ex_self_collision : selfCollisionProbability freeConf shot 0 (replicate nbFullBody bodyConf) (legSample 1 0 someMat) =
    Some (Ok 1, replicate nbFullBody bodyConf).
Proof.
  apply self_collision_value. split.
  - unfold fullBodyInstance. rewrite replicate_length. destruct (Nat.ltb_spec nbFullBody nbFullBody); [lia|done].
  - exists (replicate nbFullBody (loaded 1 0)). split.
    + apply Forall2_replicate. reflexivity.
    + assert (Hf : filter freeConf (replicate nbFullBody (loaded 1 0)) = replicate nbFullBody (loaded 1 0)).
      { assert (Hnf : forall n, filter freeConf (replicate n (loaded 1 0)) = replicate n (loaded 1 0)); [|apply Hnf].
        induction n as [|n IH]; [done|]. simpl replicate. rewrite filter_cons_True; [by rewrite IH|].
        unfold freeConf. simpl. by destruct (Req_EM_T 0 0). }
      rewrite Hf, !replicate_length. field. apply not_0_INR. unfold nbFullBody. lia.
Qed.
