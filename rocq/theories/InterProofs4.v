(** comRRT, the random configurations, projectOnCom. *)
From Coq Require Import Reals Lia Lra.
From Verif Require Import SampModel SampProofs2 TrajModel TrajSpec TrajProofs2 MapsProofs StateProofs ProjProofs.
From Verif Require Export InterSpec InterProofs InterProofs2 InterProofs3.
From Verif Require Import StateModel.
Local Open Scope nat_scope.

(** ** the reference path *)
Section C.
Variables P E : Type.
Variables (einit eend : E -> list R).
Variable on : E -> list R -> Prop.
Variable B : fullbody.
Variable cur : list R.
Variable solve : nat -> nat -> rrtProblem P -> solveResult E.
Variables randomShortcut partialShortcut : nat -> nat -> nat -> rrtProblem P -> list E -> outcome (list E).

Section two.
Variables (sf : shooterFactory P) (cf : constraintFactory P) (th : R) (maxIter numOpt : nat).
Variables X Y : Type.
Variables (getX : X -> PSt) (pathX : X -> X -> outcome P).
Variables (getY : Y -> PSt) (pathY : Y -> Y -> outcome P).
Notation BodyX := (body P E B cur solve randomShortcut partialShortcut sf cf th maxIter numOpt X getX pathX).
Notation BodyY := (body P E B cur solve randomShortcut partialShortcut sf cf th maxIter numOpt Y getY pathY).
Variables (psX : list (X * X)) (psY : list (Y * Y)).
Hypothesis L : length psX = length psY.
Hypothesis same : forall k i x y, psX !! i = Some x -> psY !! i = Some y -> BodyX k i x = BodyY k i y.
Lemma par_same k : forall order tbl,
  parallel P E B cur solve randomShortcut partialShortcut sf cf th maxIter numOpt X getX pathX k psX order tbl =
  parallel P E B cur solve randomShortcut partialShortcut sf cf th maxIter numOpt Y getY pathY k psY order tbl.
Proof.
  induction order as [|i order IH]; intros tbl; cbn [parallel]; [reflexivity|].
  destruct (psX !! i) as [x|] eqn:Ex.
  - destruct (lookup_lt_is_Some_2 psY i) as [y Ey]; [rewrite <- L; eapply lookup_lt_Some, Ex|]. rewrite Ey, (same k i x y Ex Ey).
    destruct (BodyY k i y); cbn [ibind]; auto.
  - rewrite (lookup_ge_None_2 psY); [reflexivity|]. rewrite <- L. apply lookup_ge_None, Ex.
Qed.
Lemma att_same sched : forall fuel k tbl,
  attempts P E B cur solve randomShortcut partialShortcut sf cf th maxIter numOpt X getX pathX fuel k psX sched tbl =
  attempts P E B cur solve randomShortcut partialShortcut sf cf th maxIter numOpt Y getY pathY fuel k psY sched tbl.
Proof.
  induction fuel as [|fuel IH]; intros k tbl; cbn [attempts]; [reflexivity|].
  rewrite par_same, L. destruct (parallel _ _ _ _ _ _ _ _ _ _ _ _ Y _ _ _ _ _ _); auto.
  destruct (_ <? _); auto.
Qed.
End two.

Lemma com_path_ignored steer free guideOf range1 extract1 range2 extract2 start next numOpt keep fuel1 fuel sched1 sched p1 p2 :
  extract1 (fst range1) (snd range1) = Ok p1 -> extract2 (fst range2) (snd range2) = Ok p2 ->
  comRRT P E B cur solve randomShortcut partialShortcut steer free guideOf range1 extract1 start next numOpt keep fuel1 fuel sched1 sched =
  comRRT P E B cur solve randomShortcut partialShortcut steer free guideOf range2 extract2 start next numOpt keep fuel1 fuel sched1 sched.
Proof.
  intros H1 H2.
  assert (HS : forall g,
    interpolate P E B cur solve randomShortcut partialShortcut (ComShooter P g) (contactsOnly P) (5 / 100) 10000 numOpt snd (fromPath P extract1) keep
      [(fst range1, start); (snd range1, next)] fuel sched =
    interpolate P E B cur solve randomShortcut partialShortcut (ComShooter P g) (contactsOnly P) (5 / 100) 10000 numOpt snd (fromPath P extract2) keep
      [(fst range2, start); (snd range2, next)] fuel sched).
  { intros g. unfold interpolate. cbn [pairsOf length].
    rewrite (att_same (ComShooter P g) (contactsOnly P) (5 / 100) 10000 numOpt _ _ snd (fromPath P extract1) snd (fromPath P extract2) _ [((fst range2, start), (snd range2, next))]); [reflexivity|reflexivity|].
    intros k [|i] x y Hx Hy; [|discriminate]. injection Hx as <-. injection Hy as <-.
    unfold body, fromPath. cbn [fst snd]. rewrite H1, H2. reflexivity. }
  unfold comRRT. destruct (allVariations _ _ _ _) as [|v vs].
  - destruct (free _ _); [apply HS|reflexivity].
  - destruct (limbRRT _ _ _ _ _ _ _ _ _ _ _ _ _) as [[l| | |]|]; try reflexivity. apply HS.
Qed.

Lemma com_result steer free guideOf range extract start next numOpt keep fuel1 fuel sched1 sched l :
  S (length (configuration start)) = length cur -> S (length (configuration next)) = length cur ->
  fair 1 sched ->
  comRRT P E B cur solve randomShortcut partialShortcut steer free guideOf range extract start next numOpt keep fuel1 fuel sched1 sched = Some (IPath E l) ->
  exists g pb k l0 l1 l2,
    (((forall n, is_Some (limbsOf B !! n) -> stays start next n) /\ free (configuration start) (configuration next) = Some g) \/
     ((exists n, is_Some (limbsOf B !! n) /\ ~ stays start next n) /\
      exists gl, limbRRT P E B cur solve randomShortcut partialShortcut steer [start; next] numOpt 10000 fuel1 sched1 = Some (IPath E gl) /\ g = guideOf gl)) /\
    rStart P pb = configuration start ++ [0%R] /\ rGoal P pb = configuration next ++ [1%R] /\
    rShootPath P pb = g /\ (forall n, n ∈ rShootLimbs P pb <-> is_Some (limbsOf B !! n) /\ ~ stays start next n) /\
    rTds P pb = [] /\ thr (rProj P pb) = (5 / 100)%R /\ rIter P pb = 10000 /\
    (forall c, c ∈ cs (rProj P pb) <-> exists n le, stays start next n /\ contactConstraint B start n = Ok le /\ c ∈ le) /\
    solve k 0 pb = Solved E (Some l0) /\ optimised E (fun j => randomShortcut k 0 j pb) numOpt 0 l0 l1 /\
    optimised E (fun j => partialShortcut k 0 j pb) numOpt 0 l1 l2 /\ l = map (if keep then Full E else Reduced E) l2.
Proof.
  intros Z1 Z2 Hf H.
  assert (HI : forall g, interpolate P E B cur solve randomShortcut partialShortcut (ComShooter P g) (contactsOnly P) (5 / 100) 10000 numOpt snd (fromPath P extract) keep
      [(fst range, start); (snd range, next)] fuel sched = Some (IPath E l) ->
    exists pb k l0 l1 l2, rStart P pb = configuration start ++ [0%R] /\ rGoal P pb = configuration next ++ [1%R] /\
    rShootPath P pb = g /\ (forall n, n ∈ rShootLimbs P pb <-> is_Some (limbsOf B !! n) /\ ~ stays start next n) /\
    rTds P pb = [] /\ thr (rProj P pb) = (5 / 100)%R /\ rIter P pb = 10000 /\
    (forall c, c ∈ cs (rProj P pb) <-> exists n le, stays start next n /\ contactConstraint B start n = Ok le /\ c ∈ le) /\
    solve k 0 pb = Solved E (Some l0) /\ optimised E (fun j => randomShortcut k 0 j pb) numOpt 0 l0 l1 /\
    optimised E (fun j => partialShortcut k 0 j pb) numOpt 0 l1 l2 /\ l = map (if keep then Full E else Reduced E) l2).
  { intros g Hg. apply result in Hg; [|exact Hf]. destruct Hg as [_ (k & segs & _ & L & Hp & _ & El)].
    destruct (Hp 0 (fst range, start) (snd range, next)) as (seg & Hi & pb & l0 & l1 & (ref & _ & Hpb) & Hs & Ho1 & Ho2); [split; reflexivity|].
    destruct segs as [|s [|]]; try (cbn in L; lia). injection Hi as ->.
    apply problem_content in Hpb as (Q1 & Q2 & Q3 & _ & Q4 & Q5 & Q6 & more & tds & Qc & Q7 & Q8); [|assumption..].
    injection Qc as <- <-.
    exists pb, k, l0, l1, seg. split; [exact Q1|]. split; [exact Q2|]. split; [exact Q5|]. split; [exact Q6|]. split; [exact Q7|]. split; [exact Q3|]. split; [exact Q4|].
    split; [|split; [exact Hs|split; [exact Ho1|split; [exact Ho2|]]]].
    - intros c. rewrite Q8. split; [intros [Hc|Hc]; [inversion Hc|exact Hc]|auto].
    - rewrite El. cbn. rewrite app_nil_r. reflexivity. }
  destruct (fixedContacts_correct moved3 next start) as [HF _]; [intros; apply moved3_sym|].
  assert (HV : forall n, n ∈ allVariations moved3 next start (skeys (limbsOf B)) <-> is_Some (limbsOf B !! n) /\ ~ stays start next n).
  { intros n. unfold allVariations. rewrite elem_of_list_filter, inb_false, elem_of_skeys, (HF n). unfold stays. tauto. }
  unfold comRRT in H. destruct (allVariations moved3 next start (skeys (limbsOf B))) as [|v vs].
  - destruct (free _ _) as [g|] eqn:Ef; [|discriminate]. apply HI in H as (pb & k & l0 & l1 & l2 & H). exists g, pb, k, l0, l1, l2. split; [|exact H].
    left. split; [|reflexivity]. intros n Hn.
    destruct (decide (n ∈ fixedContacts moved3 next start)) as [Hin|Hin]; [apply HF, Hin|]. exfalso.
    assert (Hv : n ∈ (@nil string)) by (apply HV; split; [exact Hn|]; intros Hs; apply Hin, HF, Hs). inversion Hv.
  - destruct (limbRRT _ _ _ _ _ _ _ _ _ _ _ _ _) as [[gl| | |]|] eqn:Eg; try discriminate.
    apply HI in H as (pb & k & l0 & l1 & l2 & H). exists (guideOf gl), pb, k, l0, l1, l2. split; [|exact H].
    right. split; [exists v; apply HV; left|]. eauto.
Qed.
End C.

(** ** the random configurations *)
Lemma load_random_ok limbs : forall rs q, length limbs <= length rs -> samples_fit limbs (length q) ->
  (forall ss, ss ∈ limbs -> 2 <= length ss) ->
  exists l q', loadRandom limbs rs q = Ok q' /\ drawn limbs rs l /\ loaded l q q' /\ length q' = length q /\
    forall k, outside_limbs limbs k -> q' !! k = q !! k.
Proof.
  induction limbs as [|ss limbs IH]; intros rs q Hl Hf H2; cbn [loadRandom].
  - exists [], q. split; [reflexivity|]. split; [constructor|]. split; [constructor|]. auto.
  - assert (Hss := H2 ss ltac:(left)). rewrite (proj2 (Nat.leb_gt _ _)) by lia.
    destruct rs as [|r rs]; [cbn in Hl; lia|].
    destruct (lookup_lt_is_Some_2 ss (r mod (length ss - 1))) as [s Es].
    { assert (r mod (length ss - 1) < length ss - 1) by (apply Nat.mod_upper_bound; lia). lia. }
    rewrite Es. assert (Hs : s ∈ ss) by (eapply elem_of_list_lookup_2, Es).
    destruct (Hf ss s ltac:(left) Hs) as [F1 F2].
    destruct (Load_ok (content s) q F1 F2) as (q1 & HL & HLen & Hlk). rewrite HL. cbn [ibind].
    destruct (IH rs q1) as (l & q' & H1 & Hd & Hld & Hlen & Hout).
    + cbn in Hl. lia.
    + intros ss' s' Hss' Hs'. rewrite HLen. apply (Hf ss'); [right; exact Hss'|exact Hs'].
    + intros ss' Hss'. apply H2. right. exact Hss'.
    + exists (s :: l), q'. split; [exact H1|]. split; [constructor; assumption|]. split; [econstructor; eassumption|].
      split; [lia|]. intros k Hk. rewrite Hout.
      * rewrite Hlk. rewrite bool_decide_eq_false_2; [reflexivity|]. apply (Hk ss s); [left|exact Hs].
      * intros ss' s' Hss' Hs'. apply (Hk ss'); [right; exact Hss'|exact Hs'].
Qed.
Lemma load_random_throw limbs : forall rs q, length limbs <= length rs -> samples_fit limbs (length q) ->
  (exists ss, ss ∈ limbs /\ length ss <= 1) -> loadRandom limbs rs q = Throw.
Proof.
  induction limbs as [|ss limbs IH]; intros rs q Hl Hf (s0 & Hin & Hle); cbn [loadRandom]; [inversion Hin|].
  destruct (length ss <=? 1) eqn:E1; [reflexivity|]. apply Nat.leb_gt in E1.
  apply elem_of_cons in Hin as [->|Hin]; [lia|].
  destruct rs as [|r rs]; [cbn in Hl; lia|].
  destruct (lookup_lt_is_Some_2 ss (r mod (length ss - 1))) as [s Es].
  { assert (r mod (length ss - 1) < length ss - 1) by (apply Nat.mod_upper_bound; lia). lia. }
  rewrite Es. assert (Hs : s ∈ ss) by (eapply elem_of_list_lookup_2, Es).
  destruct (Hf ss s ltac:(left) Hs) as [F1 F2].
  destruct (Load_ok (content s) q F1 F2) as (q1 & HL & HLen & Hlk). rewrite HL. cbn [ibind].
  apply IH; [cbn in Hl; lia| |eauto].
  intros ss' s' Hss' Hs'. rewrite HLen. apply (Hf ss'); [right; exact Hss'|exact Hs'].
Qed.

Lemma shot at_ a b rank tds limbs u rs w : length (at_ ((b - a) * u + a)%R) = rank -> length limbs <= length rs ->
  samples_fit limbs rank ->
  ((exists ss, ss ∈ limbs /\ length ss <= 1) -> shoot (at_, a, b) rank tds limbs u rs w = Throw) /\
  ((forall ss, ss ∈ limbs -> 2 <= length ss) ->
   exists l q' w', shoot (at_, a, b) rank tds limbs u rs w = Ok (q', w') /\
     drawn limbs rs l /\ loaded l (at_ (a + u * (b - a))%R ++ [u]) q' /\ length q' = S rank /\ q' !! rank = Some u /\
     (forall k, k < rank -> outside_limbs limbs k -> q' !! k = at_ (a + u * (b - a))%R !! k) /\
     rightHandSides tds u w w').
Proof.
  intros Hl Hr Hf. replace (a + u * (b - a))%R with ((b - a) * u + a)%R by ring. set (q := at_ ((b - a) * u + a)%R) in *.
  assert (Hlen : length (q ++ [u]) = S rank) by (rewrite app_length; cbn; lia).
  assert (Hf' : samples_fit limbs (length (q ++ [u]))).
  { intros ss s H1 H2. destruct (Hf ss s H1 H2). rewrite Hlen. split; [lia|assumption]. }
  unfold shoot. fold q. rewrite (proj2 (Nat.eqb_eq _ _) Hl). split.
  - intros H. rewrite (load_random_throw limbs rs (q ++ [u])); auto.
  - intros H. destruct (load_random_ok limbs rs (q ++ [u]) Hr Hf' H) as (l & q' & H1 & Hd & Hld & Hq & Hout).
    rewrite H1. cbn [ibind]. exists l, q', (updateRhs tds (qi q' rank) w).
    assert (Hu : q' !! rank = Some u).
    { rewrite Hout. - rewrite lookup_app_r by lia. rewrite Hl, Nat.sub_diag. reflexivity.
      - intros ss s Hss Hs. destruct (Hf ss s Hss Hs). lia. }
    split; [reflexivity|]. split; [exact Hd|]. split; [exact Hld|]. split; [lia|]. split; [exact Hu|]. split.
    + intros k Hk Ho. rewrite Hout by exact Ho. apply lookup_app_l. lia.
    + assert (Eu : qi q' rank = u) by (unfold qi; apply nth_lookup_Some, Hu). rewrite Eu. apply update_spec.
Qed.
Lemma never_last limbs rs l : drawn limbs rs l -> Forall2 (fun ss s => exists j, j < length ss - 1 /\ ss !! j = Some s) limbs l.
Proof.
  induction 1 as [|ss limbs r rs s l H1 H2 _ IH]; constructor; [|exact IH].
  exists (r mod (length ss - 1)). split; [apply Nat.mod_upper_bound; lia|exact H2].
Qed.

(** ** projectOnCom *)
Lemma project_on_com (proj : projector -> list R -> bool * list R) B size extra junk model target :
  length (configuration model) = size -> extra <= size ->
  (forall p q, length (snd (proj p q)) = length q) ->
  (known_contacts B model -> exists ok q, projectOnCom proj B size extra junk model target = Ok (ok, q) /\
     length q = size /\ drop (size - extra) q = drop (size - extra) (configuration model) /\
     (ok = true -> sound_solver (dev B) proj -> lawful_robot (dev B) -> extra_dofs (dev B) (size - extra) ->
        (forall e, contact_held B (1 / 1000) model q e) /\ (dist3 (comOf (dev B) q) target <= 1 / 1000)%R)) /\
  (~ known_contacts B model -> projectOnCom proj B size extra junk model target = Throw).
Proof.
  intros Hl He Hp. unfold projectOnCom. rewrite (proj2 (Nat.eqb_eq _ _) Hl), (proj2 (Nat.leb_le _ _) He). cbn [andb].
  change (addContactConstraints B model (fixedContacts moved3 model model)) with (CreateContactConstraints B model).
  split.
  - intros HK. destruct (proj1 (known_defined B model) HK) as [cl Ecl]. rewrite Ecl. cbn [ibind].
    set (p := addC (CCom target) (addCs cl (newProj (1 / 1000) 100))).
    assert (Hq := Hp p (configuration model ++ [junk])). destruct (proj p (configuration model ++ [junk])) as [ok q] eqn:Eq. cbn [snd] in Hq.
    rewrite app_length in Hq. cbn [length] in Hq. rewrite (proj2 (Nat.eqb_eq (length q) (size + 1))) by lia.
    set (q' := take (size - extra) q ++ drop (size - extra) (configuration model)).
    assert (E1 : removelast (take (size - extra) q ++ drop (size - extra) (configuration model) ++ drop size q) = q').
    { assert (exists x, drop size q = [x]) as [x ->].
      { assert (LL : length (drop size q) = 1) by (rewrite drop_length; lia). destruct (drop size q) as [|x [|]]; cbn in LL; try lia. eauto. }
      rewrite app_assoc. apply removelast_snoc. }
    rewrite E1. exists ok, q'. split; [reflexivity|].
    assert (Ht : length (take (size - extra) q) = size - extra) by (rewrite take_length; lia).
    split; [unfold q'; rewrite app_length, Ht, drop_length; lia|]. split.
    { unfold q'. rewrite drop_app_alt by lia. reflexivity. }
    intros -> SS LR Hx.
    assert (Hsame : take (size - extra) q = take (size - extra) q') by (unfold q'; rewrite take_app_alt by lia; reflexivity).
    destruct (Hx _ _ Hsame) as [Hj Hc].
    assert (Hsat : forall c, c ∈ cs p -> satisfied (dev B) (1 / 1000) q c) by (intros c Hcc; apply (SS p _ _ Eq); auto).
    split.
    + intros e. eapply held_same; [exact Hj|]. apply (held_of_constraints B model LR _ _ cl Ecl).
      intros c Hcc. apply Hsat. unfold p. cbn. apply elem_of_app. left. exact Hcc.
    + rewrite <- Hc. apply (Hsat (CCom target)). unfold p. cbn. apply elem_of_app. right. left.
  - intros HN. apply unknown_throws in HN. rewrite HN. reflexivity.
Qed.
