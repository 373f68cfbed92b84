(** The calls of the interpolation: result, end, order, problem given to the planner. *)
From Coq Require Import Reals Lia Lra.
From Verif Require Import SampModel TrajModel MapsProofs StateProofs ProjProofs.
From Verif Require Export InterSpec InterProofs.
From Verif Require Import StateModel.
Local Open Scope nat_scope.

Lemma time_config cur conf t : length conf < length cur -> 
  TimeConfigFromDevice cur conf t = Ok (<[pred (length cur) := t]> (conf ++ drop (length conf) cur)).
Proof.
  intros H. unfold TimeConfigFromDevice. destruct cur as [|x cur]; [cbn in H; lia|].
  rewrite (proj2 (Nat.leb_le _ _)) by lia. reflexivity.
Qed.
Lemma time_config_exact cur conf t : S (length conf) = length cur -> TimeConfigFromDevice cur conf t = Ok (conf ++ [t]).
Proof.
  intros H. rewrite time_config by lia. f_equal.
  assert (E : exists x, drop (length conf) cur = [x]).
  { assert (L : length (drop (length conf) cur) = 1) by (rewrite drop_length; lia).
    destruct (drop (length conf) cur) as [|x [|]]; cbn in L; try lia. eauto. }
  destruct E as [x ->]. rewrite insert_app_r_alt by lia. rewrite <- H. cbn [pred]. rewrite Nat.sub_diag. reflexivity.
Qed.

(** ** the problem given to the planner *)
Lemma problem_defined P (B : fullbody) (cur : list R) (sf : shooterFactory P) (cf : constraintFactory P) (th : R) (maxIter : nat) (ref : P) (from to : PSt) : length (configuration from) < length cur -> length (configuration to) < length cur ->
  ((exists pb, problemBetween P B cur sf cf th maxIter ref from to = Ok pb) <-> known_common B from to /\ exists more, cf = Ok more).
Proof.
  intros L1 L2. unfold problemBetween, addContactConstraints.
  destruct (fixedContacts_correct moved3 to from) as [HF _]; [intros; apply moved3_sym|].
  assert (HK : known_common B from to <-> exists l, contactConstraintsOf B from (fixedContacts moved3 to from) = Ok l).
  { split.
    - intros H. apply contacts_defined. intros e He. apply HF in He. destruct (H e He) as (l & f & Hl & Hf & Hr).
      destruct He as (p & q & Hp & Hq & _). unfold contactConstraint. rewrite Hl, Hq, Hf.
      destruct (ltype l); cbn [is6]; [|eauto]. destruct Hr as [r Hr]; [reflexivity|]. rewrite Hr. eauto.
    - intros [l Hl] e He. apply HF in He as Hin. destruct (contacts_elem _ _ _ _ Hl _ Hin) as (le & Hc & _).
      destruct He as (p & q & Hp & Hq & _). unfold contactConstraint in Hc. rewrite Hq in Hc.
      destruct (limbsOf B !! e) as [L|]; [|discriminate]. destruct (frames (dev B) !! effName L) as [f|] eqn:Ef; [|discriminate].
      exists L, f. split; [reflexivity|]. split; [exact Ef|]. intros H6. rewrite H6 in Hc. cbn [is6] in Hc. destruct (rotations from !! e); [eauto|discriminate]. }
  rewrite HK. split.
  - intros [pb H]. destruct (contactConstraintsOf _ _ _) as [cl| |]; cbn [ibind] in H; try discriminate.
    destruct cf as [m| |]; cbn [ibind] in H; try discriminate. eauto.
  - intros [[l Hl] [[more tds] Hm]]. rewrite Hl. cbn [ibind]. rewrite Hm. cbn [ibind]. rewrite !time_config by assumption. cbn [ibind]. eauto.
Qed.

Lemma problem_content P (B : fullbody) (cur : list R) (sf : shooterFactory P) (cf : constraintFactory P) (th : R) (maxIter : nat) (ref : P) (from to : PSt) (pb : rrtProblem P) : S (length (configuration from)) = length cur -> S (length (configuration to)) = length cur ->
  problemBetween P B cur sf cf th maxIter ref from to = Ok pb ->
  rStart P pb = configuration from ++ [0%R] /\ rGoal P pb = configuration to ++ [1%R] /\
  thr (rProj P pb) = th /\ iters (rProj P pb) = 1000 /\ rIter P pb = maxIter /\
  rShootPath P pb = (match sf with LimbShooter _ => ref | ComShooter _ g => g | EffectorShooter _ g => g end) /\
  (forall n, n ∈ rShootLimbs P pb <->
     (match sf with EffectorShooter _ _ => False | _ => is_Some (limbsOf B !! n) /\ ~ stays from to n end)) /\
  exists more tds, cf = Ok (more, tds) /\ rTds P pb = tds /\
  (forall c, c ∈ cs (rProj P pb) <-> c ∈ more \/ exists n le, stays from to n /\ contactConstraint B from n = Ok le /\ c ∈ le).
Proof.
  intros L1 L2. unfold problemBetween, addContactConstraints.
  destruct (fixedContacts_correct moved3 to from) as [HF _]; [intros; apply moved3_sym|].
  destruct (contactConstraintsOf _ _ _) as [cl| |] eqn:Ec; cbn [ibind]; try discriminate.
  destruct cf as [[more tds]| |] eqn:Ecf; cbn [ibind]; try discriminate.
  rewrite !time_config_exact by assumption. cbn [ibind]. intros [= <-]. cbn [rStart rGoal rProj rShootPath rShootLimbs rIter rTds].
  split; [reflexivity|]. split; [reflexivity|]. split; [reflexivity|]. split; [reflexivity|]. split; [reflexivity|].
  split; [unfold shooterPath; case_match; reflexivity|]. split.
  - intros n. assert (HG : n ∈ GetFreeLimbs B from to <-> is_Some (limbsOf B !! n) /\ ~ stays from to n).
    { unfold GetFreeLimbs. rewrite elem_of_list_filter, inb_false, elem_of_skeys. rewrite (HF n). unfold stays. tauto. }
    unfold shooterLimbs. case_match; [exact HG|exact HG|]. split; [intros H'; inversion H'|tauto].
  - exists more, tds. split; [reflexivity|]. split; [reflexivity|]. intros c. cbn [cs addCs newProj app]. rewrite elem_of_app.
    assert (HC : c ∈ cl <-> exists n le, stays from to n /\ contactConstraint B from n = Ok le /\ c ∈ le).
    { split.
      - intros Hc. destruct (contacts_elem_inv _ _ _ _ Ec _ Hc) as (e & le & He & H1 & H2). exists e, le. split; [apply HF, He|auto].
      - intros (e & le & He & H1 & H2). apply HF in He. destruct (contacts_elem _ _ _ _ Ec _ He) as (le' & H1' & H3). apply H3. assert (le' = le) by congruence. congruence. }
    rewrite HC. tauto.
Qed.

Section S.
Variables P E : Type.
Variables (einit eend : E -> list R).
Variable on : E -> list R -> Prop.
Variable B : fullbody.
Variable cur : list R.
Variable solve : nat -> nat -> rrtProblem P -> solveResult E.
Variables randomShortcut partialShortcut : nat -> nat -> nat -> rrtProblem P -> list E -> outcome (list E).
Variables (sf : shooterFactory P) (cf : constraintFactory P) (th : R) (maxIter numOpt : nat).
Variable X : Type.
Variable get : X -> PSt.
Variable getPath : X -> X -> outcome P.
Notation Inter := (@interpolate P E B cur solve randomShortcut partialShortcut X sf cf th maxIter numOpt get getPath).
Notation SolvedAs := (solved_as P E B cur solve randomShortcut partialShortcut sf cf th maxIter numOpt X get getPath).
Notation Unsolved := (unsolved P E B cur solve sf cf th maxIter X get getPath).
Notation AllSolved := (all_solved P E B cur solve randomShortcut partialShortcut sf cf th maxIter numOpt X get getPath).
Notation NoFailure := (no_failure P E B cur solve randomShortcut partialShortcut sf cf th maxIter numOpt X get getPath).
Notation After := (after P E B cur solve randomShortcut partialShortcut sf cf th maxIter numOpt X get getPath).

Lemma fair_pairs (states : list X) sched : fair (length states - 1) sched -> fair (length (pairsOf X states)) sched.
Proof. rewrite pairs_length. replace (pred (length states)) with (length states - 1) by lia. auto. Qed.
Lemma after_segs states k tbl : After states k tbl -> AllSolved states k ->
  exists segs, tbl = map Some segs /\ length segs = length states - 1 /\
    forall i a b, pair_at X states i a b -> exists seg, segs !! i = Some seg /\ SolvedAs k i a b seg.
Proof.
  intros Ha Hs. assert (Hc := proj2 (after_all _ _ _ _ _ _ _ _ _ _ _ _ _ _ _ _ _ _ Ha) Hs).
  destruct (check_all E tbl) as [H1 H2]. assert (L := proj1 Ha).
  destruct (all_some E tbl) as [segs Et]; [apply H2; lia|]. exists segs. split; [exact Et|]. split.
  - rewrite Et, map_length, pairs_length in L. lia.
  - intros i a b Hab. destruct (proj2 Ha _ _ _ Hab) as (r & Hb & Ht). subst tbl.
    change (map Some segs) with (Some <$> segs) in Ht. rewrite list_lookup_fmap in Ht. destruct (segs !! i) as [seg|]; [|discriminate].
    injection Ht as <-. exists seg. split; [reflexivity|]. apply body_solved, Hb.
Qed.
Lemma segs_after states k segs : length segs = length states - 1 ->
  (forall i a b, pair_at X states i a b -> exists seg, segs !! i = Some seg /\ SolvedAs k i a b seg) ->
  After states k (map Some segs).
Proof.
  intros L H. split; [rewrite map_length, pairs_length; lia|].
  intros i a b Hab. destruct (H _ _ _ Hab) as (seg & Hi & Hs). exists (Some seg). split; [apply body_solved, Hs|].
  change (map Some segs) with (Some <$> segs). rewrite list_lookup_fmap, Hi. reflexivity.
Qed.

Lemma result keep states fuel sched l : fair (length states - 1) sched ->
  (Inter keep states fuel sched = Some (IPath E l) <->
   2 <= length states <= 100 /\ exists k segs, k < fuel /\ length segs = length states - 1 /\
     (forall i a b, pair_at X states i a b -> exists seg, segs !! i = Some seg /\ SolvedAs k i a b seg) /\
     (forall m, m < k -> NoFailure states m /\ ~ AllSolved states m) /\
     l = map (if keep then Full E else Reduced E) (concat segs)).
Proof.
  intros Hf. apply fair_pairs in Hf. assert (HL := pairs_length X states).
  assert (Hr : length (replicate (length (pairsOf X states)) (@None (list E))) = length (pairsOf X states)) by apply replicate_length.
  unfold interpolate. destruct (100 <=? length (pairsOf X states)) eqn:E100.
  { apply Nat.leb_le in E100. split; [discriminate|]. intros [H _]. lia. }
  apply Nat.leb_gt in E100. split.
  - destruct (attempts _ _ _ _ _ _ _ _ _ _ _ _ _ _ _ _ _ _ _ _) as [[tbl| |]|] eqn:Ea; try discriminate.
    apply att_ok in Ea; [|exact Hf|exact Hr]. destruct Ea as (n & Hn & Ha & Hs & Hm). cbn in Ha, Hs, Hm.
    destruct (pairsOf X states) as [|p ps] eqn:Ep; [discriminate|]. intros [= <-].
    split; [cbn [length] in *; lia|].
    destruct (after_segs _ _ _ Ha Hs) as (segs & Et & L & Hp). exists n, segs. split; [exact Hn|]. split; [exact L|]. split; [exact Hp|]. split; [exact Hm|].
    rewrite (omap_all E _ _ Et). reflexivity.
  - intros [Hl (k & segs & Hk & L & Hp & Hm & ->)].
    rewrite (proj2 (att_ok _ _ _ _ _ _ _ _ _ _ _ _ _ _ _ _ _ Hf fuel 0 _ (map Some segs) Hr)).
    + destruct (pairsOf X states) as [|p ps]; [cbn in HL; lia|]. rewrite (omap_all E _ segs eq_refl). reflexivity.
    + exists k. split; [exact Hk|]. split; [apply segs_after; assumption|]. split; [|exact Hm].
      intros i a b Hab. destruct (Hp _ _ _ Hab) as (seg & _ & Hs). eauto.
Qed.

Lemma running keep states fuel sched : fair (length states - 1) sched ->
  (Inter keep states fuel sched = None <->
   length states <= 100 /\ forall m, m < fuel -> NoFailure states m /\ ~ AllSolved states m).
Proof.
  intros Hf. apply fair_pairs in Hf. assert (HL := pairs_length X states).
  assert (Hr : length (replicate (length (pairsOf X states)) (@None (list E))) = length (pairsOf X states)) by apply replicate_length.
  unfold interpolate. destruct (100 <=? length (pairsOf X states)) eqn:E100.
  { apply Nat.leb_le in E100. split; [discriminate|]. intros [H _]. lia. }
  apply Nat.leb_gt in E100.
  assert (HN := att_none P E B cur solve randomShortcut partialShortcut sf cf th maxIter numOpt X get getPath states sched Hf fuel 0 _ Hr). cbn in HN.
  destruct (attempts _ _ _ _ _ _ _ _ _ _ _ _ _ _ _ _ _ _ _ _) as [o|] eqn:Ea.
  - split.
    + destruct o as [tbl| |]; [destruct (pairsOf X states)| |]; discriminate.
    + intros [_ H]. apply HN in H. discriminate.
  - split; [|reflexivity]. intros _. split; [lia|]. apply HN. reflexivity.
Qed.

Lemma all_no_failure states k : AllSolved states k -> NoFailure states k.
Proof. intros H i a b Hab. left. apply H, Hab. Qed.
Lemma solved_dec states k : NoFailure states k -> AllSolved states k \/ ~ AllSolved states k.
Proof.
  intros H. apply (after_no_failure P E B cur solve randomShortcut partialShortcut sf cf th maxIter numOpt X get getPath) in H as [tbl Ha].
  assert (Hs := after_all _ _ _ _ _ _ _ _ _ _ _ _ _ _ _ _ _ _ Ha).
  destruct (le_dec (length (pairsOf X states)) (checkPath E tbl)) as [Hc|Hc]; [left|right]; rewrite <- Hs; assumption.
Qed.
Lemma ends keep states sched : fair (length states - 1) sched ->
  ((exists fuel l, Inter keep states fuel sched = Some (IPath E l)) <->
   2 <= length states <= 100 /\ exists k, AllSolved states k /\ forall m, m < k -> NoFailure states m).
Proof.
  intros Hf. split.
  - intros (fuel & l & H). rewrite (result keep states fuel sched l Hf) in H. destruct H as [Hl (k & segs & _ & _ & Hp & Hm & _)].
    split; [exact Hl|]. exists k. split; [|intros m Hlt; apply Hm, Hlt].
    intros i a b Hab. destruct (Hp _ _ _ Hab) as (seg & _ & Hs). eauto.
  - intros [Hl (k & Hk & Hm)].
    (* the first attempt at which all are solved *)
    assert (HF : exists k, AllSolved states k /\ forall m, m < k -> NoFailure states m /\ ~ AllSolved states m).
    { revert Hk Hm. induction (lt_wf k) as [k _ IH]. intros Hk Hm.
      assert (D : (exists m, m < k /\ AllSolved states m) \/ forall m, m < k -> ~ AllSolved states m).
      { clear -Hm. induction k as [|k IHk]; [right; lia|]. destruct IHk as [(m & Hlt & Hs)|Hn]; [intros m H; apply Hm; lia|left; exists m; split; [lia|exact Hs]|].
        destruct (solved_dec states k (Hm k ltac:(lia))) as [Hs|Hs]; [left; exists k; split; [lia|exact Hs]|].
        right. intros m Hlt. destruct (decide (m = k)) as [->|Hne]; [exact Hs|]. apply Hn. lia. }
      destruct D as [(m & Hlt & Hs)|Hn]; [apply (IH m Hlt Hs); intros m' H'; apply Hm; lia|].
      exists k. split; [exact Hk|]. intros m Hlt. split; [apply Hm, Hlt|apply Hn, Hlt]. }
    clear k Hk Hm. destruct HF as (k & Hk & Hm).
    destruct (proj2 (after_no_failure P E B cur solve randomShortcut partialShortcut sf cf th maxIter numOpt X get getPath states k) (all_no_failure _ _ Hk)) as [tbl Ha].
    destruct (after_segs _ _ _ Ha Hk) as (segs & _ & L & Hp).
    exists (S k), (map (if keep then Full E else Reduced E) (concat segs)). rewrite (result keep states (S k) sched _ Hf). split; [exact Hl|].
    exists k, segs. split; [lia|]. split; [exact L|]. split; [exact Hp|]. split; [exact Hm|reflexivity].
Qed.
Lemma never keep states fuel sched i a b pb : fair (length states - 1) sched -> length states <= 100 ->
  pair_at X states i a b -> asked P B cur sf cf th maxIter X get getPath a b pb ->
  (forall k, solve k i pb = Solved E None \/ solve k i pb = RuntimeError E \/ solve k i pb = ProjectionError E) ->
  (forall k, NoFailure states k) ->
  Inter keep states fuel sched = None.
Proof.
  intros Hf Hl Hab (ref & Hg & Hpb) Hs Hn. apply running; [exact Hf|]. split; [exact Hl|]. intros m _. split; [apply Hn|].
  intros H. destruct (H _ _ _ Hab) as (l & pb' & l0 & l1 & (ref' & Hg' & Hpb') & Hs' & _).
  assert (ref' = ref) by congruence. subst ref'. assert (pb' = pb) by congruence. subst pb'.
  destruct (Hs m) as [E1|[E1|E1]]; congruence.
Qed.

Lemma body_defined states : defined_calls P E cur randomShortcut partialShortcut cf X get getPath states ->
  forall k i ab, pairsOf X states !! i = Some ab ->
  body P E B cur solve randomShortcut partialShortcut sf cf th maxIter numOpt X get getPath k i ab <> Ub.
Proof.
  intros D k i [a b] Hi. apply pairs_lookup in Hi as [Ha Hb]. apply elem_of_list_lookup_2 in Ha, Hb.
  unfold body. assert (HP := dc_path _ _ _ _ _ _ _ _ _ _ D a b Ha Hb). destruct (getPath a b) as [ref| |]; cbn [ibind]; try congruence.
  assert (Hrep : forall f n j l, (forall j l, f j l <> Ub) -> repeatOpt E f n j l <> Ub).
  { intros f n. induction n as [|n IH]; intros j l Hf; cbn [repeatOpt]; [discriminate|].
    assert (Hj := Hf j l). destruct (f j l); cbn [ibind]; auto; congruence. }
  unfold problemBetween, addContactConstraints.
  assert (Hc := contacts_no_ub B (get a) (fixedContacts moved3 (get b) (get a))).
  destruct (contactConstraintsOf _ _ _) as [cl| |]; cbn [ibind]; try congruence.
  assert (Hcf := dc_cons _ _ _ _ _ _ _ _ _ _ D). destruct cf as [[more tds]| |]; cbn [ibind]; try congruence.
  rewrite !time_config by (apply (dc_size _ _ _ _ _ _ _ _ _ _ D); assumption). cbn [ibind].
  match goal with |- context [solve k i ?pb] => set (q := pb) end.
  destruct (solve k i q) as [[l0|]| | |]; cbn [catchSolve ibind]; try discriminate.
  unfold optimizeBoth.
  assert (H1 := Hrep (fun j => randomShortcut k i j q) numOpt 0 l0 ltac:(intros; apply (dc_random _ _ _ _ _ _ _ _ _ _ D))).
  destruct (repeatOpt E (fun j => randomShortcut k i j q) numOpt 0 l0) as [l1| |]; cbn [ibind]; try congruence.
  assert (H2 := Hrep (fun j => partialShortcut k i j q) numOpt 0 l1 ltac:(intros; apply (dc_partial _ _ _ _ _ _ _ _ _ _ D))).
  destruct (repeatOpt E (fun j => partialShortcut k i j q) numOpt 0 l1) as [l2| |]; cbn [ibind]; congruence.
Qed.

(** an exception leaves the loop: the process is terminated *)
Lemma terminates keep states fuel sched : fair (length states - 1) sched ->
  defined_calls P E cur randomShortcut partialShortcut cf X get getPath states ->
  (Inter keep states fuel sched = Some (ITerminate E) <->
   length states <= 100 /\ exists k, k < fuel /\ ~ NoFailure states k /\ forall m, m < k -> NoFailure states m /\ ~ AllSolved states m).
Proof.
  intros Hf D. apply fair_pairs in Hf. assert (HL := pairs_length X states).
  assert (Hr : length (replicate (length (pairsOf X states)) (@None (list E))) = length (pairsOf X states)) by apply replicate_length.
  unfold interpolate. destruct (100 <=? length (pairsOf X states)) eqn:E100.
  { apply Nat.leb_le in E100. split; [discriminate|]. intros [H _]. lia. }
  apply Nat.leb_gt in E100.
  assert (HN := att_throw P E B cur solve randomShortcut partialShortcut sf cf th maxIter numOpt X get getPath states sched Hf (body_defined states D) fuel 0 _ Hr). cbn in HN.
  destruct (attempts _ _ _ _ _ _ _ _ _ _ _ _ _ _ _ _ _ _ _ _) as [[tbl| |]|] eqn:Ea.
  - split; [destruct (pairsOf X states); discriminate|]. intros [_ H]. apply HN in H. discriminate.
  - split; [|reflexivity]. intros _. split; [lia|]. apply HN. reflexivity.
  - split; [discriminate|]. intros [_ H]. apply HN in H. discriminate.
  - split; [discriminate|]. intros [_ H]. apply HN in H. discriminate.
Qed.

(** ** the order of the iterations does not matter *)
Lemma any_order keep states fuel sched1 sched2 : fair (length states - 1) sched1 -> fair (length states - 1) sched2 ->
  defined_calls P E cur randomShortcut partialShortcut cf X get getPath states ->
  Inter keep states fuel sched1 = Inter keep states fuel sched2.
Proof.
  intros F1 F2 D. assert (R1 := result keep states fuel sched1). assert (R2 := result keep states fuel sched2).
  assert (N1 := running keep states fuel sched1 F1). assert (N2 := running keep states fuel sched2 F2).
  assert (T1 := terminates keep states fuel sched1 F1 D). assert (T2 := terminates keep states fuel sched2 F2 D).
  assert (NT1 : Inter keep states fuel sched1 <> Some (IThrow E)) by (unfold interpolate; repeat (case_match; try discriminate)).
  assert (NT2 : Inter keep states fuel sched2 <> Some (IThrow E)) by (unfold interpolate; repeat (case_match; try discriminate)).
  destruct (Inter keep states fuel sched1) as [[l1| | |]|] eqn:E1.
  - symmetry. apply (R2 l1 F2), (R1 l1 F1). reflexivity.
  - symmetry. apply T2, T1. reflexivity.
  - congruence.
  - destruct (Inter keep states fuel sched2) as [[l2| | |]|] eqn:E2; try congruence.
    + assert (A := proj2 (R1 l2 F1) (proj1 (R2 l2 F2) eq_refl)). discriminate.
    + assert (A := proj2 T1 (proj1 T2 eq_refl)). discriminate.
    + assert (A := proj2 N1 (proj1 N2 eq_refl)). discriminate.
  - symmetry. apply N2, N1. reflexivity.
Qed.

(** ** none or too many pairs *)
Lemma too_many keep states fuel sched : 100 < length states -> Inter keep states fuel sched = Some (IUndef E).
Proof.
  intros H. unfold interpolate. rewrite pairs_length. rewrite (proj2 (Nat.leb_le _ _)) by lia. reflexivity.
Qed.
Lemma too_few keep states fuel sched : length states <= 1 -> fair 0 sched -> Inter keep states (S fuel) sched = Some (IUndef E).
Proof.
  intros H F. assert (Ep : pairsOf X states = []) by (destruct states as [|a [|b l]]; cbn in *; [reflexivity..|lia]).
  unfold interpolate. rewrite Ep. cbn [length]. cbn. assert (E0 := F 0). cbn in E0. apply Permutation_sym, Permutation_nil in E0. rewrite E0. reflexivity.
Qed.

End S.
