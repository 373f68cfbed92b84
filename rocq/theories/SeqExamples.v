(** Concrete cases for the contact sequences. *)
From Coq Require Import Reals ZArith Lra Lia.
From Verif Require Import Maps MapsProofs Vec VecProofs StateModel StateSpec StateReal StateRealProofs StateProofs SampModel ProjModel ProjSpec ProjProofs
  ProjProofs2 ProjExamples CombModel GenModel GenSpec GenProofs GenProofs9 SeqModel SeqSpec SeqProofs SeqProofs2 SeqProofs3 SeqProofs4 SeqProofs5 SeqProofs6 SeqProofs7.
From Verif Require Import StateModel.
Local Open Scope R_scope.

(** ** The contact generator can be used *)
Section generator.
Context {Cand Smp : Type}.
Definition with_rob {A C} (x : C) (s : State (list R) vec3 mat3 A) : State (list R) vec3 mat3 C :=
  mkState (configuration s) (contacts s) (normals s) (positions s) (rotations s) (order s) (nbContacts s) (stable s) x.
Variable Sv : nat -> vec3 -> vec3 -> R -> services (list R) vec3 mat3 Cand Smp.
Variables (threshold : Z) (test quasi post : bool).
Definition callHelper (prev : PSt) (c : list R) :=
  with_reach test quasi (new_helper (with_rob 0%Z prev) c threshold 1 1 false true false false post).
Definition callNext k (prev : PSt) c d a t : creport :=
  match ComputeContacts_next (Sv k d a t) moved3 (S (length (queue_of (callHelper prev c)))) (with_rob 0%Z prev) c threshold test quasi post with
  | Some (cr, _) => mkCrep (success (cr_rep cr)) (contactMaintained cr) (multipleBreaks cr) (contactCreated cr) (repositionedInPlace cr)
      (with_rob 0 (result (cr_rep cr)))
  | None => mkCrep true true false false false prev
  end.
Lemma callNext_generated : (forall k d a t, NoDup (limbNames (Sv k d a t))) -> generated Sv threshold test quasi post callNext.
Proof.
  intros Hnd k prev c d a t. unfold callNext.
  set (fuel := S (length (queue_of (callHelper prev c)))).
  destruct (C22_terminates (Sv k d a t) moved3 (callHelper prev c) _ (Hnd k d a t) (proj2 (maintain_queue_iff _ _) eq_refl)) as [[cr h] Hr].
  assert (Hex : exists cr h, ComputeContacts_next (Sv k d a t) moved3 fuel (with_rob 0%Z prev) c threshold test quasi post = Some (cr, h)).
  { unfold ComputeContacts_next. fold (callHelper prev c). rewrite Hr by (unfold fuel; lia). eauto. }
  destruct Hex as (cr' & h' & E). exists (with_rob 0%Z prev), fuel, cr', h'. split; [done|]. split; [done|].
  rewrite E. cbn. split_and!; done.
Qed.
End generator.
Lemma generated_exists {Cand Smp} (Sv : nat -> vec3 -> vec3 -> R -> services (list R) vec3 mat3 Cand Smp) threshold test quasi post :
  (forall k d a t, NoDup (limbNames (Sv k d a t))) -> exists compute, generated Sv threshold test quasi post compute.
Proof. intros H. eexists. by apply callNext_generated. Qed.

(** ** A run *)
(** contact of leg *)
Definition sst (q : list R) (leg : option vec3) (arm : option vec3) : PSt :=
  let m {A} (f : vec3 -> A) : gmap string A :=
    match leg with Some p => <["leg"%string := f p]> | None => fun x => x end (match arm with Some p => <["arm"%string := f p]> ∅ | None => ∅ end) in
  mkState q (m (fun _ => true)) (m (fun _ => V3 0 0 1)) (m (fun p => p)) (m (fun _ => mid))
    (match leg with Some _ => ["leg"%string] | None => [] end ++ match arm with Some _ => ["arm"%string] | None => [] end) 0 true 0.
Definition sq (x : R) : list R := [x; 0; 0; 0; 0; 0; 1; 0].
(** call 0 maintains the contact, call 1 fails and moves the leg, the others create the arm's contact *)
Definition scomp (k : nat) (prev : PSt) (c : list R) (d a : vec3) (t : R) : creport :=
  match k with
  | 0%nat => mkCrep true true false false false (with_conf c prev)
  | 1%nat => mkCrep false false false false true (sst c (Some (V3 1 0 0)) None)
  | _ => mkCrep true true false true false (sst c (Some (V3 1 0 0)) (Some (V3 1 0 1)))
  end.
Definition sstart : PSt := sst (sq 0) (Some (V3 0 0 0)) None.
Lemma scomp_reliable : reliable scomp (fun _ => True).
Proof. intros [|[|k]] prev c d a t _; cbn; (split; [|done]); intros [H|H]; try done. Qed.
Lemma scomp_sized l : (forall c, c ∈ l -> length c = 8%nat) -> sized scomp 8 0 l sstart.
Proof.
  intros H. exists (fun s => length (configuration s) = 8%nat). split_and!; cbn; try lia; try done.
  intros [|[|k]] prev c d a t Hp Hc s (E & _); rewrite E; done.
Qed.
(** the leg is repositioned at the time of the first state, then configuration 1 is used again *)
Lemma scomp_run : exists l, interpLoop scomp 8 0 [sq 0; sq 1; sq 2] 1 10 (initial 5 sstart) = Some (Ok (true, l)) /\
  map (fun f : sframe => (fst f, positions (snd f) !! "leg"%string, positions (snd f) !! "arm"%string, configuration (snd f))) l =
  [(5, Some (V3 0 0 0), None, sq 0); (5, Some (V3 1 0 0), None, sq 2);
   (5 + 1, Some (V3 1 0 0), Some (V3 1 0 1), sq 1); (5 + 1 + 1, Some (V3 1 0 0), Some (V3 1 0 1), sq 2)].
Proof. eexists. split; [vm_compute; reflexivity|]. vm_compute. reflexivity. Qed.
(** a generator that repositions twice, then reports several broken contacts without repositioning *)
Definition sbad (k : nat) (prev : PSt) (c : list R) (d a : vec3) (t : R) : creport :=
  match k with
  | 0%nat | 1%nat => mkCrep true false false false true (sst c (Some (V3 1 0 0)) None)
  | _ => mkCrep true false true false false (sst c (Some (V3 1 0 0)) None)
  end.
Lemma sbad_stuck fuel x : (2 <= calls x)%nat -> cit x = 1%nat -> (2 <= nbRecontacts x)%nat -> allowFailure x = false ->
  lastConfig x = sq 1 -> length (configuration (snd (back x))) = 8%nat ->
  interpLoop sbad 8 0 [sq 0; sq 1] 1 fuel x = None.
Proof.
  revert x. induction fuel as [|fuel IH]; intros x Hk Hc Hn Ha Hl Hb; cbn [interpLoop]; rewrite Hc; cbn [length Nat.leb]; [done|].
  unfold iteration. rewrite Hc, Hl. cbn [lookup list_lookup]. cbn -[sbad]. unfold readAcc. cbn -[sbad]. rewrite Hb. cbn -[sbad].
  destruct (calls x) as [|[|k]] eqn:Ek; [lia..|]. cbn. rewrite Ha. cbn. apply IH; cbn; try done; try lia.
  destruct (nbRecontacts x) as [|[|?]]; [lia..|done].
Qed.
Lemma sbad_never fuel : interpLoop sbad 8 0 [sq 0; sq 1] 1 fuel (initial 0 sstart) = None.
Proof.
  destruct fuel as [|[|fuel]]; [done..|]. cbn. apply sbad_stuck; cbn; try done; lia.
Qed.

(** a generator that always fails, moving the leg: the second failure cuts the sequence *)
Definition srefuse (k : nat) (prev : PSt) (c : list R) (d a : vec3) (t : R) : creport :=
  mkCrep false false false false false (sst c (Some (V3 (INR k) 0 0)) None).
Lemma srefuse_cut : exists l, interpLoop srefuse 8 0 [sq 0; sq 1; sq 2; sq 0] 1 10 (initial 5 sstart) = Some (Ok (false, l)) /\ length l = 2%nat.
Proof. eexists. split; [vm_compute; reflexivity|]. vm_compute. reflexivity. Qed.

(** ** Filters *)
Lemma sst_positions q leg arm k : positions (sst q leg arm) !! k =
  (if bool_decide (k = "leg"%string) then leg else if bool_decide (k = "arm"%string) then arm else None).
Proof.
  unfold sst. cbn [positions]. destruct leg as [p|], arm as [p'|]; repeat case_bool_decide; subst; simplify_map_eq; done.
Qed.
Definition far (p q : vec3) : Prop := 1 / 100 < dist3 p q.
Definition moved_opt (a b : option vec3) : Prop := exists p, b = Some p /\ forall q, a = Some q -> far q p.
Lemma sst_gained q q' leg arm leg' arm' k : gained (sst q leg arm) (sst q' leg' arm') k <->
  (k = "leg"%string /\ moved_opt leg leg') \/ (k = "arm"%string /\ moved_opt arm arm').
Proof.
  rewrite gained_iff, !sst_positions. unfold moved_opt, far. case_bool_decide as E1; [subst; naive_solver|].
  case_bool_decide as E2; [subst; naive_solver|]. naive_solver.
Qed.
Lemma sst_lost q q' leg arm leg' arm' k : lost (sst q leg arm) (sst q' leg' arm') k <->
  (k = "leg"%string /\ moved_opt leg' leg) \/ (k = "arm"%string /\ moved_opt arm' arm).
Proof. apply sst_gained. Qed.
Lemma moved_none a : ~ moved_opt a None.
Proof. intros (p & H & _). done. Qed.
Lemma moved_new p : moved_opt None (Some p).
Proof. exists p. done. Qed.
Lemma moved_some p q : moved_opt (Some q) (Some p) <-> far q p.
Proof. unfold moved_opt. naive_solver. Qed.
Lemma far_x x y a b : Rabs (x - y) > 1 / 100 -> far (V3 x a b) (V3 y a b).
Proof.
  intros H. unfold far, dist3, vnorm, vnorm2, vdot, vsub. cbn.
  replace ((x - y) * (x - y) + (a - a) * (a - a) + (b - b) * (b - b)) with (Rsqr (x - y)) by (unfold Rsqr; ring).
  rewrite sqrt_Rsqr_abs. lra.
Qed.
Lemma far_z x y a b : Rabs (x - y) > 1 / 100 -> far (V3 a b x) (V3 a b y).
Proof.
  intros H. unfold far, dist3, vnorm, vnorm2, vdot, vsub. cbn.
  replace ((a - a) * (a - a) + (b - b) * (b - b) + (x - y) * (x - y)) with (Rsqr (x - y)) by (unfold Rsqr; ring).
  rewrite sqrt_Rsqr_abs. lra.
Qed.
Lemma near_self p : ~ far p p.
Proof.
  unfold far, dist3, vnorm, vnorm2, vdot, vsub. cbn. replace (_ + _ + _) with 0 by ring. rewrite sqrt_0. lra.
Qed.
Ltac fars := first [apply far_x; unfold Rabs; destruct (Rcase_abs _); lra | apply far_z; unfold Rabs; destruct (Rcase_abs _); lra].

(** the leg moves twice; it leaves and comes back *)
Definition f0 : sframe := (0, sst (sq 0) (Some (V3 0 0 0)) (Some (V3 0 0 1))).
Definition f1 : sframe := (1, sst (sq 1) (Some (V3 1 0 0)) (Some (V3 0 0 1))).
Definition f2 : sframe := (2, sst (sq 2) (Some (V3 2 0 0)) (Some (V3 0 0 1))).
Definition f3 : sframe := (3, sst (sq 3) None (Some (V3 0 0 1))).
Lemma ex_moves_again : moves_again (fun _ _ => True) (snd f0) (snd f1) (snd f2).
Proof.
  split_and!; [| |done]; intros k; cbn [snd f0 f1 f2]; rewrite ?sst_lost, ?sst_gained, !moved_some;
    (assert (F1 : far (V3 1 0 0) (V3 0 0 0)) by fars); (assert (F2 : far (V3 2 0 0) (V3 0 0 0)) by fars); (assert (F3 : far (V3 0 0 0) (V3 1 0 0)) by fars);
    (assert (F4 : far (V3 1 0 0) (V3 2 0 0)) by fars); pose proof (near_self (V3 0 0 1)); tauto.
Qed.
Lemma ex_leaves : leaves_and_returns (fun _ _ => True) (snd f0) (snd f3) (snd f0).
Proof.
  pose proof (near_self (V3 0 0 1)). pose proof (moved_none (Some (V3 0 0 0))). pose proof (moved_new (V3 0 0 0)).
  split_and!; [| | |done]; intros k; cbn [snd f0 f3]; rewrite ?sst_lost, ?sst_gained, ?moved_some; tauto.
Qed.
Lemma ex_repositioning : FilterRepositioning false (fun _ _ => false) [f0; f1; f2] = [f0; f2].
Proof.
  cbn [FilterRepositioning filterWith skipWith app last]. replace (repositioned _ _ _ _ _) with true; [done|].
  symmetry. apply repositioned_iff. destruct ex_moves_again as (H1 & H2 & _). split; [done|]. split; [done|]. done.
Qed.
Lemma ex_break_create : FilterBreakCreate false (fun _ _ => false) [f0; f3; f0; f2] = [f0; f0; f2].
Proof.
  cbn [FilterBreakCreate filterWith skipWith app last]. replace (brokenCreated _ _ _ _ _) with true; [done|].
  symmetry. apply brokenCreated_iff. destruct ex_leaves as (H1 & H2 & H3 & _). split; [done|]. split; [done|]. split; done.
Qed.
Lemma ex_obsolete : FilterObsolete [f0; f0; f2] = [f0; f2].
Proof.
  cbn [FilterObsolete obsoleteLoop app last]. replace (keepState _ _) with false; [done|].
  symmetry. apply keepState_iff. right. intros k. pose proof (near_self (V3 0 0 1)). pose proof (near_self (V3 0 0 0)).
  cbn [snd f0]. rewrite sst_lost, sst_gained, !moved_some. tauto.
Qed.
Lemma ex_distance x y : x <> y -> Rabs (x - y) >= 1 -> ~ same_conf (sq x) (sq y).
Proof.
  intros _ H. rewrite <- same_conf_iff. unfold confDistance, sq. cbn [zip zip_with map fold_right].
  replace (_ + _) with (Rsqr (x - y)) by (unfold Rsqr; ring).
  rewrite sqrt_Rsqr_abs. unfold epsilon. intros Hle.
  assert (/ 2 ^ 52 < 1); [|lra]. rewrite <- Rinv_1. apply Rinv_lt_contravar; [|apply Rlt_pow_R1; [lra|lia]].
  rewrite Rmult_1_l. apply pow_lt. lra.
Qed.
Lemma ex_one_change : consecutive (fun a b => one_change (snd a) (snd b)) [f0; f3; f1] /\ separated [f0; f3; f1] /\ placed [f0; f3; f1].
Proof.
  pose proof (near_self (V3 0 0 1)) as N1. pose proof (moved_none (Some (V3 0 0 0))) as N2. pose proof (moved_none (Some (V3 1 0 0))) as N3. split_and!.
  - intros [|[|[|i]]] a b Ha Hb; cbn in Ha, Hb; try done; injection Ha as <-; injection Hb as <-; cbn [snd f0 f1 f3];
      split; intros k k'; rewrite ?sst_gained, ?sst_lost, ?moved_some; naive_solver.
  - assert (F1 : far (V3 0 0 0) (V3 1 0 0)) by fars. assert (F2 : far (V3 1 0 0) (V3 0 0 0)) by fars. unfold far in F1, F2.
    intros a b k p q Ha Hb. rewrite !elem_of_cons, elem_of_nil in Ha, Hb.
    destruct Ha as [->|[->|[->|[]]]], Hb as [->|[->|[->|[]]]]; cbn [snd f0 f1 f3]; rewrite !sst_positions;
      repeat case_bool_decide; intros E1 E2; try discriminate; injection E1 as <-; injection E2 as <-; try done; intros; lra.
  - intros [|[|[|i]]] a b Ha Hb Hd; cbn in Ha, Hb; try done; injection Ha as <-; injection Hb as <-; exfalso; revert Hd; cbn [snd f0 f1 f3 sst configuration].
    + apply ex_distance; [lra|]. unfold Rabs. destruct (Rcase_abs _); lra.
    + apply ex_distance; [lra|]. unfold Rabs. destruct (Rcase_abs _); lra.
Qed.

(** ** A robot whose two effectors are at its root *)
Definition stree : jnt := Jnt "root_joint" 0 7 true [].
Definition srobot : robot :=
  mkRobot (fun q _ => SE3 mid (head3 q)) head3 stree (<["foot" := mkFrame "root_joint" se3id]> ∅)%string 6 (fun m => V3 (angle m) 0 0) (fun _ _ _ => 0).
Definition slimb : plimb := mkPlimb "root_joint" None "foot" vzero (V3 0 0 1) _3_DOF [].
Definition sbody : fullbody :=
  mkFullbody srobot (<["leg" := slimb]> (<["arm" := slimb]> ∅))%string (sq 0) [] false (fun _ => true) ∅ 0.
Definition scheck (p : projector) (q : list R) : bool * list R := (forallb (satb srobot (thr p) q) (cs p ++ cs1 p), q).
Lemma scheck_sound : sound_solver srobot scheck.
Proof.
  intros p q q' H c Hc. unfold scheck in H. injection H as H <-. apply satb_spec.
  rewrite forallb_forall in H. apply H. apply elem_of_list_In, elem_of_app. destruct Hc as [Hc|[_ Hc]]; auto.
Qed.
Lemma scheck_ok p q : (forall c, c ∈ cs p ++ cs1 p -> satisfied srobot (thr p) q c) -> scheck p q = (true, q).
Proof.
  intros H. unfold scheck. f_equal. apply forallb_forall. intros c Hc. apply satb_spec, H, elem_of_list_In, Hc.
Qed.
Lemma srobot_lawful : lawful_robot srobot.
Proof.
  split.
  - intros q j. apply rotation_mid.
  - intros n f. cbn. rewrite lookup_insert_Some, lookup_empty. intros [[_ <-]|[_ H]]; [apply rotation_mid|discriminate].
  - intros m _. cbn [log3 srobot]. unfold vnorm, vnorm2, vdot. cbn [vx vy vz].
    replace (angle m * angle m + 0 * 0 + 0 * 0) with (angle m * angle m) by ring. apply sqrt_square, angle_nonneg.
Qed.
Lemma spos_ok th p q : 0 <= th -> p = head3 q -> satisfied srobot th q (CPos "root_joint" (se3mul se3id se3id) (SE3 mid p)).
Proof.
  intros Hth ->. cbn [satisfied rot tra jpose srobot]. rewrite mtr_id, mapp_id.
  replace (vsub _ _) with vzero; [unfold vnorm, vnorm2, vdot, vzero; cbn; replace (_ + _) with 0 by ring; by rewrite sqrt_0|].
  unfold se3mul, se3id, vsub, vadd, vzero, mapp, mid, vdot. cbn. f_equal; ring.
Qed.
(** the goal has both contacts, the last state none *)
Definition sgoal : PSt := sst (sq 0) (Some vzero) (Some vzero).
Definition snone : PSt := sst (sq 0) None None.
Lemma head_sq : head3 (sq 0) = vzero.
Proof. reflexivity. Qed.
Lemma ex_variations : contactVariations moved3 snone sgoal = ["arm"; "leg"]%string.
Proof. reflexivity. Qed.
Lemma ex_replace : exists rep, replaceLimbContactForState scheck sbody sgoal snone "arm" = Ok rep /\ psuccess rep = true.
Proof.
  unfold replaceLimbContactForState. cbn zeta.
  change (addContactConstraints sbody (snd (RemoveContact "arm" snone)) (fixedContacts moved3 (snd (RemoveContact "arm" snone)) (snd (RemoveContact "arm" snone))))
    with (Ok (A := list cstr) []).
  cbn [bindo]. change (at_ (limbsOf sbody) "arm"%string) with (Ok slimb). cbn [bindo].
  change (at_ (rotations sgoal) "arm"%string) with (Ok mid). change (at_ (positions sgoal) "arm"%string) with (Ok vzero).
  change (at_ (normals sgoal) "arm"%string) with (Ok (V3 0 0 1)). cbn [bindo].
  change (at_ (frames (dev sbody)) (effName slimb)) with (Ok (mkFrame "root_joint" se3id)). cbn [bindo].
  eexists. split; [reflexivity|]. unfold projectEffector. cbn [postural setPostural is6 ltype slimb negb tra fjoint placement].
  rewrite scheck_ok; [reflexivity|]. cbn [cs cs1 thr addC addCs newProj app]. intros c Hc. apply elem_of_list_singleton in Hc as ->.
  apply spos_ok; [lra|reflexivity].
Qed.
(** the arm is moved first, then the goal is added at the end of the path *)
Lemma ex_goal : exists s1, addGoalConfig scheck sbody sgoal (Some 7) [(3, snone)] = (Ok [(3, snone); (3, s1); (7, sgoal)], false) /\
  limb_moved sbody sgoal "arm" snone s1.
Proof.
  destruct ex_replace as (rep & Hrep & Hok). exists (presult rep).
  assert (Hm := replace_moved scheck sbody sgoal srobot_lawful scheck_sound snone "arm" rep Hrep Hok). split; [|done].
  unfold addGoalConfig. cbn [last]. rewrite ex_variations. cbn [length]. cbn [addGoalConfigRec length Nat.eqb last firstMovable]. rewrite Hrep, Hok.
  cbn [app addGoalConfigRec length Nat.eqb]. cbn [last].
  assert (Hv : contactVariations moved3 (presult rep) sgoal = ["leg"]%string).
  { apply Permutation_singleton_r. apply NoDup_Permutation; [apply variations_NoDup|apply NoDup_singleton|]. intros k.
    rewrite vars_iff, (moved_differs sbody sgoal "arm" snone _ k Hm), <- vars_iff, ex_variations. set_solver. }
  rewrite Hv. reflexivity.
Qed.
(** a contact to break: the exception *)
Lemma ex_goal_throw : addGoalConfig scheck sbody snone None [(3, sgoal)] = (Throw, false).
Proof. eapply C128_throw; [reflexivity|reflexivity|reflexivity|reflexivity]. Qed.

(** the leg moves, the arm moves, the leg moves again *)
Definition g0 : sframe := (0, sst (sq 0) (Some (V3 0 0 5)) (Some vzero)).
Definition g1 : sframe := (1, sst (sq 0) (Some (V3 (1/10) 0 0)) (Some vzero)).
Definition g2 : sframe := (2, sst (sq 0) (Some (V3 (1/10) 0 0)) (Some (V3 0 0 2))).
Definition g3 : sframe := (3, sst (sq 0) (Some (V3 0 0 (-1/1000))) (Some (V3 0 0 2))).
Lemma creations_are (a b : PSt) l : NoDup l -> StronglySorted str_le l -> (forall k, gained a b k <-> k ∈ l) -> creations b a = l.
Proof. intros H1 H2 H. destruct (creations_sorted a b). apply sorted_same; try done. intros k. by rewrite in_creations. Qed.
Lemma one_sorted (x : string) : NoDup [x] /\ StronglySorted str_le [x].
Proof. split; [apply NoDup_singleton|repeat constructor]. Qed.
Ltac gains := intros k; cbn [snd g0 g1 g2 g3]; rewrite ?sst_lost, ?sst_gained, ?moved_some, elem_of_list_singleton.
Lemma leg_moves q q' p p' r : far p p' -> creations (sst q' (Some p') (Some r)) (sst q (Some p) (Some r)) = ["leg"%string].
Proof. intros F. pose proof (near_self r). apply creations_are; [apply one_sorted..|]. intros k. rewrite sst_gained, !moved_some, elem_of_list_singleton. naive_solver. Qed.
Lemma arm_moves q q' p p' r : far p p' -> creations (sst q' (Some r) (Some p')) (sst q (Some r) (Some p)) = ["arm"%string].
Proof. intros F. pose proof (near_self r). apply creations_are; [apply one_sorted..|]. intros k. rewrite sst_gained, !moved_some, elem_of_list_singleton. naive_solver. Qed.
Lemma far_sym p q : far p q -> far q p.
Proof. unfold far. by rewrite dist3_symm. Qed.
Lemma ex_twice : sameLimbTwice (snd g0) (snd g1) (snd g2) (snd g3) = true.
Proof.
  assert (F1 : far (V3 0 0 5) (V3 (1/10) 0 0)).
  { unfold far, dist3, vnorm, vnorm2, vdot, vsub. cbn. rewrite <- (sqrt_square (1 / 100)) by lra. apply sqrt_lt_1; lra. }
  assert (F2 : far (V3 (1/10) 0 0) (V3 0 0 (-1/1000))).
  { unfold far, dist3, vnorm, vnorm2, vdot, vsub. cbn. rewrite <- (sqrt_square (1 / 100)) by lra. apply sqrt_lt_1; lra. }
  assert (F3 : far vzero (V3 0 0 2)) by fars.
  unfold sameLimbTwice. rewrite !contactBreaks_eq. cbn [snd g0 g1 g2 g3].
  rewrite !leg_moves by (done || by apply far_sym). rewrite !arm_moves by (done || by apply far_sym). done.
Qed.
Lemma ex_moveContact p0 : exists s, moveContact scheck (fun a _ => a) sbody "leg" slimb (sst (sq 0) (Some p0) (Some vzero)) (sq 0) (V3 0 0 1)
  (V3 0 0 (-1/1000)) (sq 0) = Ok (true, s).
Proof.
      unfold moveContact.
      assert (Hp : exists rep, projectStateToObstacle scheck sbody (fun a _ => a) [] "leg" slimb (with_conf (sq 0) (sst (sq 0) (Some p0) (Some vzero))) (V3 0 0 1)
        (V3 0 0 (-1/1000)) (wholeValid sbody) false mzero = Ok rep /\ psuccess rep = true /\
        configuration (presult rep) = sq 0 /\ known_contacts sbody (presult rep) /\ forall k p, positions (presult rep) !! k = Some p -> p = vzero).
      { unfold projectStateToObstacle. cbn zeta. set (st := snd (RemoveContact "leg" _)).
        assert (Hst : forall k p, positions st !! k = Some p -> k = "arm"%string /\ p = vzero).
        { intros k p. change (positions st) with (delete "leg"%string (positions (sst (sq 0) (Some p0) (Some vzero)))). rewrite lookup_delete_Some. rewrite sst_positions.
          repeat case_bool_decide; naive_solver. }
        assert (Hk : known_contacts sbody st).
        { intros e [p He]. apply Hst in He as [-> _]. exists slimb, (mkFrame "root_joint" se3id). split_and!; done. }
        change (addContactConstraints sbody st (fixedContacts moved3 st st)) with (CreateContactConstraints sbody st).
        destruct (proj1 (known_defined sbody st) Hk) as [l Hl]. rewrite Hl.
        unfold projectToObstacle. change (frames (dev sbody) !! effName slimb) with (Some (mkFrame "root_joint" se3id)). cbn match.
        eexists. split; [reflexivity|]. set (tg := computeProjectionMatrix _ _ _ _ _ _ _ _).
        assert (Htg : tra tg = vzero).
        { unfold tg, computeProjectionMatrix. cbv [tra loffset slimb vzero mapp vdot vsub vadd vscale vx vy vz]. f_equal; field. }
        unfold projectEffector. cbn [postural sbody is6 ltype slimb negb]. rewrite Htg. rewrite scheck_ok.
        - cbn [wholeValid sbody]. split; [reflexivity|]. split; [reflexivity|].
          assert (Hpos : forall k p, <["leg"%string := vzero]> (positions st) !! k = Some p -> (k = "leg"%string \/ k = "arm"%string) /\ p = vzero).
          { intros k p [[<- <-]|[_ H]]%lookup_insert_Some; [auto|]. apply Hst in H as [-> ->]. auto. }
          assert (Hf : tra (fpose (dev sbody) (sq 0) (mkFrame "root_joint" se3id)) = vzero).
          { unfold fpose. cbv [se3mul tra rot fjoint placement jpose dev sbody srobot se3id mapp vadd vdot mid row1 row2 row3 vx vy vz vzero head3 sq nth]. f_equal; ring. }
          split.
          + intros e [p He]. match type of He with ?m !! _ = _ => change m with (<["leg"%string := tra (fpose (dev sbody) (sq 0) (mkFrame "root_joint" se3id))]> (positions st)) in He end. rewrite Hf in He.
            apply Hpos in He as [[->| ->] _]; exists slimb, (mkFrame "root_joint" se3id); split_and!; done.
          + intros k p He. match type of He with ?m !! _ = _ => change m with (<["leg"%string := tra (fpose (dev sbody) (sq 0) (mkFrame "root_joint" se3id))]> (positions st)) in He end. rewrite Hf in He. by apply Hpos in He as [_ ->].
        - cbn [cs cs1 thr addC addCs newProj app]. rewrite app_nil_r. intros c Hc. apply elem_of_app in Hc as [Hc|Hc].
          + destruct (contacts_elem_inv _ _ _ _ Hl c Hc) as (e & le & He & Hle & Hin).
            apply fixed_self in He as [p He]. pose proof He as He'. apply Hst in He as [-> ->].
            revert Hle. unfold contactConstraint. change (limbsOf sbody !! "arm"%string) with (Some slimb). rewrite He'. cbn.
            intros [= <-]. apply elem_of_list_singleton in Hin as ->. apply spos_ok; [lra|reflexivity].
          + apply elem_of_list_singleton in Hc as ->. apply spos_ok; [lra|reflexivity]. }
      destruct Hp as (rep & -> & -> & Hcf & Hk & Hz).
      unfold projectToRootConfiguration. destruct (proj1 (known_defined sbody (presult rep)) Hk) as [l Hl]. rewrite Hl.
      replace (Reqb (vx vzero) 0 && Reqb (vy vzero) 0 && Reqb (vz vzero) 0) with true by (symmetry; rewrite !andb_true_iff, !Reqb_true; auto).
      eexists. cbn zeta. unfold applyAndReport. rewrite scheck_ok; [reflexivity|].
      rewrite Hcf. cbn [cs cs1 thr addC addCs newProj app]. rewrite app_nil_r. intros c Hc. apply elem_of_app in Hc as [Hc|Hc].
      - destruct (contacts_elem_inv _ _ _ _ Hl c Hc) as (e & le & He & Hle & Hin).
        apply fixed_self in He as [p He]. destruct (Hk e) as (l' & f & H1 & H2 & _); [eauto|]. assert (l' = slimb) as ->.
        { cbn [sbody limbsOf] in H1. rewrite !lookup_insert_Some, lookup_empty in H1. naive_solver. }
        assert (p = vzero) as -> by (by eapply Hz).
        revert Hle. unfold contactConstraint. rewrite H1, He. cbn.
        intros [= <-]. apply elem_of_list_singleton in Hin as ->. apply spos_ok; [lra|reflexivity].
      - change (LockFromRoot sbody (sq 0)) with (@nil (string * list R)) in Hc. by apply elem_of_nil in Hc.
Qed.
Lemma ex_replacement : exists s, tryReplaceStates false (fun _ _ => false) scheck (fun a _ => a) sbody [g0; g1; g2; g3] = Ok [g0; (1, s); g3].
Proof.
  assert (F2 : far (V3 (1/10) 0 0) (V3 0 0 (-1/1000))).
  { unfold far, dist3, vnorm, vnorm2, vdot, vsub. cbn. rewrite <- (sqrt_square (1 / 100)) by lra. apply sqrt_lt_1; lra. }
  assert (H : exists s, replacement false (fun _ _ => false) scheck (fun a _ => a) sbody (snd g0) (snd g1) (snd g2) (snd g3) = Ok (Some s)).
  { unfold replacement. cbn [snd g2 g3]. rewrite leg_moves by done. change (sst (sq 0) (Some (V3 (1 / 10) 0 0)) (Some (V3 0 0 2))) with (snd g2).
    change (sst (sq 0) (Some (V3 0 0 (-1 / 1000))) (Some (V3 0 0 2))) with (snd g3). rewrite ex_twice.
    change (at_ (normals (snd g3)) "leg"%string) with (Ok (V3 0 0 1)). change (at_ (positions (snd g3)) "leg"%string) with (Ok (V3 0 0 (-1/1000))).
    change (at_ (limbsOf sbody) "leg"%string) with (Ok slimb). change (at_ (positions (snd g1)) "leg"%string) with (Ok (V3 (1/10) 0 0)). cbn [bindo].
    assert (Hp : vadd (V3 0 0 (-1/1000)) (loffset slimb) = V3 0 0 (-1/1000)) by (unfold vadd; cbn; f_equal; ring).
    rewrite Hp. destruct (ex_moveContact (V3 (1/10) 0 0)) as [s Hm]. change (configuration (snd g3)) with (sq 0).
    change (moveContact scheck (fun a _ => a) sbody "leg" slimb (snd g1) (sq 0) (V3 0 0 1) (V3 0 0 (-1/1000)) (configuration (snd g1)))
      with (moveContact scheck (fun a _ => a) sbody "leg" slimb (sst (sq 0) (Some (V3 (1/10) 0 0)) (Some vzero)) (sq 0) (V3 0 0 1) (V3 0 0 (-1/1000)) (sq 0)).
    rewrite Hm. cbn [bindo]. eexists. replace (Rltb _ _) with true; [reflexivity|]. symmetry. apply Rltb_true.
    unfold dist3, vnorm, vnorm2, vdot, vsub, vadd, slimb, loffset, vzero. cbn. rewrite <- (sqrt_square (2 / 10)) by lra. apply sqrt_lt_1; lra. }
  destruct H as [s Hs]. exists s. unfold tryReplaceStates, replaceStates. cbn [length Nat.ltb Nat.leb]. rewrite replaceWith_eq. rewrite Hs. reflexivity.
Qed.

Definition h0 : sframe := (0, sst (sq 0) (Some (V3 0 0 (9/1000))) (Some (V3 0 0 2))).
Definition h1 : sframe := (1, sst (sq 0) (Some (V3 (1/20) 0 (9/1000))) (Some (V3 0 0 2))).
Definition h2 : sframe := (2, sst (sq 0) (Some (V3 (1/20) 0 (9/1000))) (Some vzero)).
Definition h3 : sframe := (3, sst (sq 0) (Some (V3 5 0 (9/1000))) (Some vzero)).
Lemma ex_skipping : exists s, trySkipStates false (fun _ _ => false) scheck (fun a _ => a) sbody [h0; h1; h2; h3] = Ok [h0; (2, s); h3].
Proof.
  assert (F1 : far (V3 0 0 (9/1000)) (V3 (1/20) 0 (9/1000))) by fars.
  assert (F2 : far (V3 (1/20) 0 (9/1000)) (V3 5 0 (9/1000))) by fars.
  assert (F3 : far (V3 0 0 2) vzero) by fars.
  assert (H : exists s, skipping false (fun _ _ => false) scheck (fun a _ => a) sbody (snd h0) (snd h1) (snd h2) (snd h3) = Ok (Some s)).
  { unfold skipping. unfold sameLimbTwice. rewrite !contactBreaks_eq. cbn [snd h0 h1 h2 h3].
    rewrite !leg_moves by (done || by apply far_sym). rewrite !arm_moves by (done || by apply far_sym). cbn -[moveContact Rltb dist3 vsub vadd vscale sst sbody Rdiv].
    change (at_ (normals (sst (sq 0) (Some (V3 0 0 (9 / 1000))) (Some (V3 0 0 2)))) "leg"%string) with (Ok (V3 0 0 1)).
    change (at_ (positions (sst (sq 0) (Some (V3 0 0 (9 / 1000))) (Some (V3 0 0 2)))) "leg"%string) with (Ok (V3 0 0 (9 / 1000))).
    change (at_ (limbsOf sbody) "leg"%string) with (Ok slimb).
    change (at_ (positions (sst (sq 0) (Some (V3 (1 / 20) 0 (9 / 1000))) (Some (V3 0 0 2)))) "leg"%string) with (Ok (V3 (1 / 20) 0 (9 / 1000))).
    change (at_ (normals (sst (sq 0) (Some (V3 (1 / 20) 0 (9 / 1000))) (Some (V3 0 0 2)))) "leg"%string) with (Ok (V3 0 0 1)). cbn [bindo].
    assert (Hp : vsub (vadd (V3 0 0 (9 / 1000)) (loffset slimb)) (vscale (10 / 1000) (V3 0 0 1)) = V3 0 0 (-1/1000)).
    { unfold vsub, vadd, vscale, slimb, loffset, vzero. cbn. f_equal; field. }
    rewrite Hp. destruct (ex_moveContact (V3 (1/20) 0 (9/1000))) as [s Hm].
    change (configuration (sst (sq 0) (Some (V3 0 0 (9 / 1000))) (Some (V3 0 0 2)))) with (sq 0).
    change (configuration (sst (sq 0) (Some (V3 (1 / 20) 0 (9 / 1000))) (Some vzero))) with (sq 0).
    rewrite Hm. cbn [bindo]. eexists. replace (Rltb _ _) with true; [reflexivity|]. symmetry. apply Rltb_true.
    unfold dist3, vnorm, vnorm2, vdot, vsub, vadd, vscale, slimb, loffset, vzero. cbn. rewrite <- (sqrt_square (1 / 10)) by lra. apply sqrt_lt_1; lra. }
  destruct H as [s Hs]. exists s. unfold trySkipStates, replaceStates. cbn [length Nat.ltb Nat.leb]. rewrite replaceWith_eq. rewrite Hs. reflexivity.
Qed.

(** ** A run without failures that ends at the goal *)
Definition ssm (k : nat) (prev : PSt) (c : list R) (d a : vec3) (t : R) : creport :=
  match k with
  | 0%nat => mkCrep true true false false false (with_conf c prev)
  | _ => mkCrep true true false true false (sst c (Some (V3 0 0 0)) (Some (V3 1 0 1)))
  end.
Definition send : PSt := sst (sq 9) (Some (V3 5 0 0)) (Some (V3 1 0 1)).
Lemma ssm_smooth step k t f q l : smooth ssm 8 0 step k t f q l.
Proof.
  revert k t f q. induction l as [|conf l IH]; intros k t f q; [apply sm_end|].
  apply sm_call. intros c a _ _. cbv zeta. split; [by destruct k|]. split; intros; apply IH.
Qed.
Lemma ssm_sized l : (forall c, c ∈ l -> length c = 8%nat) -> sized ssm 8 0 l sstart.
Proof.
  intros H. exists (fun s => length (configuration s) = 8%nat). split_and!; cbn; try lia; try done.
  intros [|k] prev c d a t Hp Hc s (E & _); rewrite E; done.
Qed.
Lemma sq_size c : c ∈ [sq 0; sq 1; sq 2] -> length c = 8%nat.
Proof. intros Hc. rewrite !elem_of_cons, elem_of_nil in Hc. destruct Hc as [->|[->|[->|[]]]]; done. Qed.
Lemma ssm_last out : followed ssm 8 0 1 0 0 (0, sstart) (configuration sstart) (tail [sq 0; sq 1; sq 2]) out ->
  exists s, last out = Some (0 + 1, s) /\ forall e, differs send s e <-> e = "leg"%string.
Proof.
  assert (F : far (V3 0 0 0) (V3 5 0 0)) by fars. pose proof (near_self (V3 1 0 1)) as N.
  intros H. cbn [tail] in H. inversion H as [|? ? ? ? ? ? ? c a Hm Ha Hu H'|? ? ? ? ? ? ? c a s Hm Ha Hu Hc H']; subst; clear H.
  2:{ destruct Hu. done. }
  inversion H' as [|? ? ? ? ? ? ? c' a' Hm' Ha' Hu' H2|? ? ? ? ? ? out' c' a' s Hm' Ha' Hu' Hc H2]; subst; clear H'.
  { destruct Hu' as (_ & _ & Hu'). done. }
  inversion H2; subst. exists s. split; [done|]. intros e. unfold differs.
  destruct Hc as (_ & _ & _ & Hp & _). 
  assert (E : forall k, positions s !! k = positions (sst c' (Some (V3 0 0 0)) (Some (V3 1 0 1))) !! k) by (intros k; by rewrite Hp).
  assert (G1 : new_or_moved s send e <-> gained (sst c' (Some (V3 0 0 0)) (Some (V3 1 0 1))) send e).
  { split; intros G; (eapply new_or_moved_ext; [| |exact G]); done. }
  assert (G2 : new_or_moved send s e <-> gained send (sst c' (Some (V3 0 0 0)) (Some (V3 1 0 1))) e).
  { split; intros G; (eapply new_or_moved_ext; [| |exact G]); done. }
  rewrite G1, G2. unfold send. rewrite !sst_gained, !moved_some. naive_solver.
Qed.

(** ** Replaced states: one change at a time *)
Lemma far_norm2 p q : 1 / 10000 < vnorm2 (vsub p q) -> far p q.
Proof.
  intros H. unfold far, dist3, vnorm. assert (E : R_sqrt.sqrt (1 / 10000) = 1 / 100); [|rewrite <- E].
  2:{ apply sqrt_lt_1_alt. lra. }
  replace (1 / 10000) with ((1 / 100) * (1 / 100)) by lra. apply sqrt_square. lra.
Qed.
Ltac far2 := apply far_norm2; unfold vnorm2, vdot, vsub, vzero; cbn; lra.
Lemma sst_norm q leg arm k n : normals (sst q leg arm) !! k = Some n -> n = V3 0 0 1.
Proof.
  unfold sst. cbn [normals]. destruct leg as [p|], arm as [p'|]; intros H; try (apply lookup_insert_Some in H as [[_ H]|[_ H]]); try (apply lookup_insert_Some in H as [[_ H]|[_ H]]); try done.
Qed.
Lemma ex_steady (fs : list sframe) : (forall a, a ∈ fs -> exists t q leg arm, a = (t, sst q leg arm)) -> steady_offsets (fun a _ => a) sbody fs.
Proof.
  intros H a limb l f n Ha Hl _ Hn. destruct (H a Ha) as (t & q & leg & arm & ->). apply sst_norm in Hn as ->. split.
  - intros q' p. assert (E : loffset l = vzero).
    { cbn [limbsOf sbody] in Hl. apply lookup_insert_Some in Hl as [[_ <-]|[_ Hl]]; [done|]. apply lookup_insert_Some in Hl as [[_ <-]|[_ Hl]]; done. }
    rewrite E. unfold mapp, vdot, vzero. cbn. f_equal; ring.
  - unfold vnorm2, vdot. cbn. lra.
Qed.
Lemma ex_replace_case : consecutive (fun a b => one_change (snd a) (snd b)) [g0; g1; g2; g3] /\ separated [g0; g1; g2; g3] /\
  steady_offsets (fun a _ => a) sbody [g0; g1; g2; g3] /\ tol sbody <= 1 / 1000.
Proof.
  assert (F1 : far (V3 0 0 5) (V3 (1/10) 0 0)) by far2. assert (F2 : far (V3 0 0 5) (V3 0 0 (-1/1000))) by far2.
  assert (F3 : far (V3 (1/10) 0 0) (V3 0 0 (-1/1000))) by far2. assert (F4 : far vzero (V3 0 0 2)) by far2.
  pose proof (far_sym _ _ F1). pose proof (far_sym _ _ F2). pose proof (far_sym _ _ F3). pose proof (far_sym _ _ F4). split_and!.
  - pose proof (near_self vzero). pose proof (near_self (V3 0 0 2)). pose proof (near_self (V3 (1/10) 0 0)).
    intros [|[|[|[|i]]]] a b Ha Hb; cbn in Ha, Hb; try done; injection Ha as <-; injection Hb as <-; cbn [snd g0 g1 g2 g3];
      split; intros k k'; rewrite ?sst_gained, ?sst_lost, ?moved_some; naive_solver.
  - unfold far in *. intros a b k p q Ha Hb. rewrite !elem_of_cons, elem_of_nil in Ha, Hb.
    destruct Ha as [->|[->|[->|[->|[]]]]], Hb as [->|[->|[->|[->|[]]]]]; cbn [snd g0 g1 g2 g3]; rewrite !sst_positions;
      repeat case_bool_decide; intros E1 E2; try discriminate; injection E1 as <-; injection E2 as <-; try done; intros; lra.
  - apply ex_steady. intros a Ha. rewrite !elem_of_cons, elem_of_nil in Ha. destruct Ha as [->|[->|[->|[->|[]]]]]; repeat eexists.
  - cbn. lra.
Qed.
Lemma ex_skip_case : consecutive (fun a b => one_change (snd a) (snd b)) [h0; h1; h2; h3] /\ separated [h0; h1; h2; h3] /\
  steady_offsets (fun a _ => a) sbody [h0; h1; h2; h3] /\ tol sbody <= 1 / 1000.
Proof.
  assert (F1 : far (V3 0 0 (9/1000)) (V3 (1/20) 0 (9/1000))) by far2. assert (F2 : far (V3 0 0 (9/1000)) (V3 5 0 (9/1000))) by far2.
  assert (F3 : far (V3 (1/20) 0 (9/1000)) (V3 5 0 (9/1000))) by far2. assert (F4 : far vzero (V3 0 0 2)) by far2.
  pose proof (far_sym _ _ F1). pose proof (far_sym _ _ F2). pose proof (far_sym _ _ F3). pose proof (far_sym _ _ F4). split_and!.
  - pose proof (near_self vzero). pose proof (near_self (V3 0 0 2)). pose proof (near_self (V3 (1/20) 0 (9/1000))).
    intros [|[|[|[|i]]]] a b Ha Hb; cbn in Ha, Hb; try done; injection Ha as <-; injection Hb as <-; cbn [snd h0 h1 h2 h3];
      split; intros k k'; rewrite ?sst_gained, ?sst_lost, ?moved_some; naive_solver.
  - unfold far in *. intros a b k p q Ha Hb. rewrite !elem_of_cons, elem_of_nil in Ha, Hb.
    destruct Ha as [->|[->|[->|[->|[]]]]], Hb as [->|[->|[->|[->|[]]]]]; cbn [snd h0 h1 h2 h3]; rewrite !sst_positions;
      repeat case_bool_decide; intros E1 E2; try discriminate; injection E1 as <-; injection E2 as <-; try done; intros; lra.
  - apply ex_steady. intros a Ha. rewrite !elem_of_cons, elem_of_nil in Ha. destruct Ha as [->|[->|[->|[->|[]]]]]; repeat eexists.
  - cbn. lra.
Qed.
