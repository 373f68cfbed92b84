(** Examples: registered limbs and the validity of configurations. *)
From Coq Require Import Reals Lra Lia.
From Verif Require Import Maps MapsProofs Vec CombModel GenModel StateModel SampModel ToolModel ToolSpec ToolProofs2 ToolProofs3 ToolExamples ProjModel ProjSpec ProjProofs HoldRobot HoldExamples SafeSpec PairsSpec PairsProofs PairsProofs2.
From Verif Require Import StateModel ToolSpec ProjModel.

Definition testsb (self : list R -> bool) (apart : string * string -> list R -> bool) (P : pairs) (q : list R) : bool :=
  self q && forallb (fun p => apart p q) (elements P).
Lemma testsb_iff self apart P q : testsb self apart P q = true <-> tests self apart P q.
Proof.
  unfold testsb, tests. rewrite andb_true_iff, forallb_forall. split; intros [H1 H2]; (split; [done|]); intros p Hp; apply H2; apply elem_of_list_In || apply elem_of_list_In in Hp.
  - by apply elem_of_elements.
  - by apply elem_of_elements in Hp.
Qed.
(** services whose validations test pairs *)
Definition psrv (B : fullbody) (V : string -> list R -> bool) : services (list R) vec3 mat3 unit (sample R) :=
  mkServices _ _ _ _ _ (fun _ _ _ => []) (fun _ _ _ c _ => (false, c)) (fun _ => vzero) (fun _ _ => vzero) (fun _ _ => mid)
    (fun _ => 0%Z) (fun _ _ => true) (fun _ _ => true) V (fun _ => []) (fun _ c => c)
    (fun c _ => (true, c)) (wholeValid B) [] [] (fun l => [l]) (fun a _ => a) [] vzero mid 0%Z (-1)%Z.

(** ** Two legs; the hip of the right one meets the floor below 0 *)
Section legs.
Local Open Scope string_scope.
Definition papart (p : string * string) (q : list R) : bool := if bool_decide (p = ("rhip", "floor")) then Rleb 0%R (nth 9 q 0%R) else true.
Definition pdev : robot := mkRobot hpose head3 ToolExamples.robot ∅ 11 (fun m => V3 (angle m) 0%R 0%R) (fun _ _ _ => 0%R).
Definition pl : plimb := mkPlimb "lhip" None "lfoot" vzero (V3 0%R 0%R 1%R) _3_DOF [].
Definition pr : plimb := mkPlimb "rhip" None "rfoot" vzero (V3 0%R 0%R 1%R) _3_DOF [].
Definition pregs : list registration := [mkReg "lf" lhip "lfoot" "lankle" ["floor"] true false; mkReg "rf" rhip "rfoot" "rankle" ["floor"] true false].
Definition pcols := addLimbs ToolExamples.robot pregs.
Definition pbody : fullbody := mkFullbody pdev (<["lf" := pl]> (<["rf" := pr]> ∅)) (repeat 0%R 11) [] false
  (testsb (fun _ => true) papart (c_body pcols)) ∅ 0%R.
Definition plimbValid (id : string) (q : list R) : bool := match c_limb pcols !! id with Some P => testsb (fun _ => true) papart P q | None => true end.
Lemma papart_law : obstacle_law pdev papart.
Proof.
  intros p q q' H. unfold papart. destruct (bool_decide_reflect (p = ("rhip", "floor"))) as [->|]; [|done].
  assert (E : lockOf q rhip = lockOf q' rhip).
  { apply H. split; [eapply in_down with rhip; [cbn; set_solver|constructor]|]. exists rhip. split; [constructor|done]. }
  unfold lockOf in E. cbn [rhip] in E. injection E as E.
  assert (Hn : forall q : list R, nth 9 q 0%R = nth 0 (take 1 (drop 9 q)) 0%R).
  { intros c. rewrite !nth_lookup. f_equal. rewrite lookup_take by lia. by rewrite lookup_drop. }
  rewrite (Hn q), (Hn q'). unfold take, drop in *. by rewrite E.
Qed.
Lemma plimbs_in id l : limbsOf pbody !! id = Some l -> (id = "lf" /\ l = pl) \/ (id = "rf" /\ l = pr).
Proof. cbn. rewrite !lookup_insert_Some, lookup_empty. naive_solver. Qed.
Lemma pcase : NoDup (names (tree (dev pbody))) /\ obstacle_law (dev pbody) papart /\ NoDup (map r_id pregs) /\
  (forall r, r ∈ pregs -> in_tree (tree (dev pbody)) (r_joint r)) /\
  (forall id l, limbsOf pbody !! id = Some l -> exists r, r ∈ pregs /\ r_id r = id /\ jname (r_joint r) = limbJoint l) /\
  (forall r r', r ∈ pregs -> first_of_kind pregs r' -> tests_as_much r r') /\
  (forall q, wholeValid pbody q = true <-> tests (fun _ => true) papart (c_body (addLimbs (tree (dev pbody)) pregs)) q) /\
  (forall id P q, c_limb (addLimbs (tree (dev pbody)) pregs) !! id = Some P -> (limbValid (psrv pbody plimbValid) id q = true <-> tests (fun _ => true) papart P q)).
Proof.
  split_and!.
  - exact ex_names.
  - exact papart_law.
  - apply (bool_decide_unpack _). vm_compute. done.
  - intros r Hr. unfold pregs in Hr. rewrite !elem_of_cons, elem_of_nil in Hr. destruct Hr as [->|[->|[]]]; (eapply in_down; [|constructor]); cbn; set_solver.
  - intros id l [[-> ->]|[-> ->]]%plimbs_in; eexists; (split; [|split]); [left|done|done|right; left|done|done].
  - intros r r' Hr (l1 & l2 & E & _).
    assert (Hr' : r' ∈ pregs) by (rewrite E; set_solver).
    unfold pregs in Hr, Hr'. rewrite !elem_of_cons, elem_of_nil in Hr, Hr'.
    assert (Hk : forall h a, h = lhip /\ a = lankle \/ h = rhip /\ a = rankle -> forall j, in_tree h j -> jname j = jname a -> jkids j = []).
    { intros h a [[-> ->]|[-> ->]] j Hj Hn; inversion Hj as [|? k ? Hk Hkj]; subst; try done; cbn in Hk; apply elem_of_list_singleton in Hk as ->;
        (inversion Hkj as [|? k' ? Hk' ?]; subst; [done|by apply elem_of_nil in Hk']). }
    assert (Hf : forall h, h = lhip \/ h = rhip -> forall j, in_tree h j -> jname j <> "lfoot" /\ jname j <> "rfoot").
    { intros h [->| ->] j Hj; inversion Hj as [|? k ? Hk2 Hkj]; subst; try done; cbn in Hk2; apply elem_of_list_singleton in Hk2 as ->;
        (inversion Hkj as [|? k' ? Hk' ?]; subst; [done|by apply elem_of_nil in Hk']). }
    split.
    { intros o. destruct Hr as [->|[->|[]]], Hr' as [->|[->|[]]]; done. }
    right. split; [destruct Hr' as [->|[->|[]]]; done|].
    intros j Hj Hn. destruct Hr as [->|[->|[]]]; cbn in Hj, Hn.
    + destruct Hn as [Hn|Hn]; [by apply (Hf lhip) in Hj as [? ?]; [|left]|]. eapply (Hk lhip lankle); [by left|done|done].
    + destruct Hn as [Hn|Hn]; [by apply (Hf rhip) in Hj as [? ?]; [|right]|]. eapply (Hk rhip rankle); [by right|done|done].
  - intros q. apply testsb_iff.
  - intros id P q HP. cbn. unfold plimbValid. change (addLimbs (tree (dev pbody)) pregs) with pcols in HP. rewrite HP. apply testsb_iff.
Qed.
(** below the floor, the validations of the whole robot and of the right leg find it, that of the left does not *)
Definition plow : list R := repeat 0%R 9 ++ [(-1)%R; 0%R].
Lemma pcut j : reaches (fun j => jname j = "rhip") ToolExamples.robot j -> j = ToolExamples.robot \/ j = lhip \/ j = lankle.
Proof.
  intros Hj. inversion Hj as [|? k ? _ Hk Hr]; subst; [by left|]. cbn in Hk. rewrite !elem_of_cons, elem_of_nil in Hk. destruct Hk as [->|[->|[]]].
  - inversion Hr as [|? k ? _ Hk2 Hr2]; subst; [right; by left|]. cbn in Hk2. apply elem_of_list_singleton in Hk2 as ->.
    inversion Hr2 as [|? k ? _ Hk3 ?]; subst; [right; by right|]. by apply elem_of_nil in Hk3.
  - inversion Hr as [? Hn|? k ? Hn _ _]; subst; by destruct Hn.
Qed.
Lemma plow_found : wholeValid pbody (repeat 0%R 11) = true /\ elsewhere pbody pr (repeat 0%R 11) plow /\
  wholeValid pbody plow = false /\ plimbValid "rf" plow = false /\ plimbValid "lf" plow = true.
Proof.
  assert (Hin : ("rhip", "floor") ∈ c_body pcols) by (apply (bool_decide_unpack _); vm_compute; done).
  assert (Hbad : papart ("rhip", "floor") plow = false). { unfold papart, Rleb. cbn. destruct (Rle_dec 0%R (-1)%R); [lra|done]. }
  split_and!.
  - apply testsb_iff. split; [done|]. intros p _. unfold papart. destruct (bool_decide _); [|done]. unfold Rleb. cbn. destruct (Rle_dec 0%R 0%R); [done|lra].
  - intros j Hj. apply pcut in Hj as [->|[->| ->]]; reflexivity.
  - apply not_true_iff_false. intros H. change (testsb (fun _ => true) papart (c_body pcols) plow = true) in H. apply testsb_iff in H as [_ H]. specialize (H _ Hin). congruence.
  - apply not_true_iff_false. unfold plimbValid. destruct (c_limb pcols !! "rf") as [P|] eqn:EP; [|by vm_compute in EP]. intros [_ H]%testsb_iff.
    assert (Hp : ("rhip", "floor") ∈ P).
    { assert (E : match c_limb pcols !! "rf" with Some P => bool_decide (("rhip", "floor") ∈ P) | None => false end = true) by (vm_compute; done).
      rewrite EP in E. by apply bool_decide_eq_true in E. }
    specialize (H _ Hp). congruence.
  - unfold plimbValid. destruct (c_limb pcols !! "lf") as [P|] eqn:EP; [|done].
    assert (E : match c_limb pcols !! "lf" with Some P => elements P | None => [] end = [("lhip", "floor")]) by (vm_compute; done).
    rewrite EP in E. unfold testsb. rewrite E. done.
Qed.
End legs.

(** ** Feet with toes: the effector's joint is not the last one.  Both limbs are registered with
    disableEffectorCollision; the right ankle is on the floor below 0 *)
Section toes.
Local Open Scope string_scope.
Definition ttree : jnt := Jnt "pelvis" 0 7 true
  [Jnt "lhip" 7 1 true [Jnt "lankle" 8 1 true [Jnt "ltoe" 9 1 true []]]; Jnt "rhip" 10 1 true [Jnt "rankle" 11 1 true [Jnt "rtoe" 12 1 true []]]].
Definition tright : jnt := Jnt "rhip" 10 1 true [Jnt "rankle" 11 1 true [Jnt "rtoe" 12 1 true []]].
Definition tleft : jnt := Jnt "lhip" 7 1 true [Jnt "lankle" 8 1 true [Jnt "ltoe" 9 1 true []]].
Definition tapart (p : string * string) (q : list R) : bool := if bool_decide (p = ("rankle", "floor")) then Rleb 0%R (nth 11 q 0%R) else true.
Definition tdev : robot := mkRobot hpose head3 ttree ∅ 13 (fun m => V3 (angle m) 0%R 0%R) (fun _ _ _ => 0%R).
Definition tregs : list registration := [mkReg "lf" tleft "lfoot" "lankle" ["floor"] true false; mkReg "rf" tright "rfoot" "rankle" ["floor"] true false].
Definition tcols := addLimbs ttree tregs.
Definition tbody : fullbody := mkFullbody tdev (<["lf" := pl]> (<["rf" := pr]> ∅)) (repeat 0%R 13) [] false
  (testsb (fun _ => true) tapart (c_body tcols)) ∅ 0%R.
Definition tlow : list R := repeat 0%R 11 ++ [(-1)%R; 0%R].
Lemma tapart_law : obstacle_law tdev tapart.
Proof.
  intros p q q' H. unfold tapart. destruct (bool_decide_reflect (p = ("rankle", "floor"))) as [->|]; [|done].
  assert (E : lockOf q (Jnt "rankle" 11 1 true [Jnt "rtoe" 12 1 true []]) = lockOf q' (Jnt "rankle" 11 1 true [Jnt "rtoe" 12 1 true []])).
  { apply H. split.
    - eapply in_down with tright; [cbn; set_solver|]. eapply in_down; [cbn; left|constructor].
    - eexists. split; [constructor|done]. }
  unfold lockOf in E. injection E as E.
  assert (Hn : forall q : list R, nth 11 q 0%R = nth 0 (take 1 (drop 11 q)) 0%R).
  { intros c. rewrite !nth_lookup. f_equal. rewrite lookup_take by lia. by rewrite lookup_drop. }
  rewrite (Hn q), (Hn q'). unfold take, drop in *. by rewrite E.
Qed.
Lemma telse : elsewhere tbody pr (repeat 0%R 13) tlow.
Proof.
  intros j Hj. change (tree (dev tbody)) with ttree in Hj.
  inversion Hj as [|? k ? _ Hk Hr]; subst; [reflexivity|]. cbn in Hk.
  rewrite !elem_of_cons, elem_of_nil in Hk. destruct Hk as [->|[->|[]]].
  - inversion Hr as [|? k ? _ Hk2 Hr2]; subst; [reflexivity|]. cbn in Hk2. apply elem_of_list_singleton in Hk2 as ->.
    inversion Hr2 as [|? k ? _ Hk3 Hr3]; subst; [reflexivity|]. cbn in Hk3. apply elem_of_list_singleton in Hk3 as ->.
    inversion Hr3 as [|? k ? _ Hk4 ?]; subst; [reflexivity|]. by apply elem_of_nil in Hk4.
  - inversion Hr as [? Hn|? k ? Hn _ _]; subst; by destruct Hn.
Qed.
Lemma tbad : tapart ("rankle", "floor") tlow = false.
Proof. unfold tapart, Rleb. cbn. destruct (Rle_dec 0%R (-1)%R); [lra|reflexivity]. Qed.
Lemma toes_refuted : NoDup (names (tree (dev tbody))) /\ obstacle_law (dev tbody) tapart /\
  (forall r, r ∈ tregs -> r_disable r = true /\ r_obs r = ["floor"] /\ in_tree ttree (r_joint r)) /\
  (forall q, wholeValid tbody q = true <-> tests (fun _ => true) tapart (c_body (addLimbs ttree tregs)) q) /\
  exists P q q', c_limb (addLimbs ttree tregs) !! "rf" = Some P /\ limbsOf tbody !! "rf" = Some pr /\ elsewhere tbody pr q q' /\
    wholeValid tbody q = true /\ tests (fun _ => true) tapart P q' /\ wholeValid tbody q' = false.
Proof.
  split_and!.
  - apply (bool_decide_unpack _). vm_compute. done.
  - exact tapart_law.
  - intros r Hr. unfold tregs in Hr. rewrite !elem_of_cons, elem_of_nil in Hr.
    destruct Hr as [->|[->|[]]]; (split; [done|]; split; [done|]; eapply in_down; [|constructor]; cbn; set_solver).
  - intros q. apply testsb_iff.
  - change (addLimbs ttree tregs) with tcols. destruct (c_limb tcols !! "rf") as [P|] eqn:EP.
    2:{ assert (E : match c_limb tcols !! "rf" with Some P => true | None => false end = true) by (vm_compute; done). by rewrite EP in E. }
    exists P, (repeat 0%R 13), tlow. split; [done|]. split; [done|]. split; [exact telse|]. split_and!.
    + apply testsb_iff. split; [done|]. intros p _. unfold tapart. destruct (bool_decide _); [|done]. unfold Rleb. cbn. destruct (Rle_dec 0%R 0%R); [done|lra].
    + assert (E : match c_limb tcols !! "rf" with Some P => elements P | None => [] end = [("rhip", "floor")]) by (vm_compute; done).
      rewrite EP in E. apply testsb_iff. unfold testsb. rewrite E. done.
    + apply not_true_iff_false. intros H. change (testsb (fun _ => true) tapart (c_body tcols) tlow = true) in H. apply testsb_iff in H as [_ H].
      assert (Hin : ("rankle", "floor") ∈ c_body tcols) by (apply (bool_decide_unpack _); vm_compute; done).
      specialize (H _ Hin). rewrite tbad in H. discriminate H.
Qed.
End toes.
