From Coq Require Import Reals Lra Lia Psatz Nsatz.
From Verif Require Import SampModel.
From Verif Require Import ReachSpec MapsProofs VecProofs ProjProofs ProjProofs2 StateSpec StateProofs StateRealProofs
  StabProofs StabProofs2 ReachProofs ReachProofs2 ReachProofs3.
From Verif Require Import StateModel.
Local Open Scope R_scope.

(** ** the timings tried *)
Section T.
Context (run : list R -> comTraj) (onOk : list R -> comTraj -> result * list R) (nextq : list R).

Lemma try_timings cur rows :
  let tried := match rows with [] => [cur] | _ => cur :: removelast rows end in
  let out := tryTimings run onOk nextq cur rows in
  (exists pre t post, tried = (pre ++ t :: post)%list /\ (forall u, u ∈ pre -> tjOk (run u) = false) /\
      tjOk (run t) = true /\ out = onOk t (run t)) \/
  ((forall u, u ∈ tried -> tjOk (run u) = false) /\ out = (resultOf UNREACHABLE, nextq)).
Proof.
  cbn zeta. revert cur. induction rows as [|row rows IH]; intros cur; cbn [tryTimings].
  - destruct (tjOk (run cur)) eqn:E.
    + left. exists [], cur, []. split_and!; [done| |done|done]. intros u Hu. inversion Hu.
    + right. split; [|done]. intros u Hu. apply elem_of_list_singleton in Hu. by subst.
  - destruct (tjOk (run cur)) eqn:E.
    + left. exists [], cur, (removelast (row :: rows)). split_and!; [done| |done|done]. intros u Hu. inversion Hu.
    + destruct rows as [|row' rows'].
      * right. split; [|done]. simpl. intros u Hu. apply elem_of_list_singleton in Hu. by subst.
      * destruct (IH row) as [(pre & t & post & Et & Hp & Ht & Ho)|[Hn Ho]].
        -- left. exists (cur :: pre), t, post. split_and!; try done.
           ++ change (removelast (row :: row' :: rows')) with (row :: removelast (row' :: rows')). rewrite Et. done.
           ++ intros u Hu. apply elem_of_cons in Hu as [->|Hu]; auto.
        -- right. split; [|done]. intros u Hu.
           change (removelast (row :: row' :: rows')) with (row :: removelast (row' :: rows')) in Hu.
           apply elem_of_cons in Hu as [->|Hu]; auto.
Qed.
End T.

Lemma sumR_2 a b : sumR [a; b] = a + b.
Proof. unfold sumR. simpl. ring. Qed.
Lemma sumR_3 a b c : sumR [a; b; c] = a + b + c.
Proof. unfold sumR. simpl. ring. Qed.

(** the six entries of the velocity and acceleration *)
Lemma set_seg3_lookup q i v j : (i + 3 <= length q)%nat ->
  setSeg3 q i v !! j = if bool_decide (j = i) then Some (vx v) else if bool_decide (j = i + 1)%nat then Some (vy v)
    else if bool_decide (j = i + 2)%nat then Some (vz v) else q !! j.
Proof.
  intros Hl. unfold setSeg3.
  destruct (bool_decide (j = i)) eqn:E1; [apply bool_decide_eq_true in E1; subst j|apply bool_decide_eq_false in E1].
  - rewrite !list_lookup_insert_ne by lia. rewrite list_lookup_insert by lia. done.
  - destruct (bool_decide (j = i + 1)%nat) eqn:E2; [apply bool_decide_eq_true in E2; subst j|apply bool_decide_eq_false in E2].
    + rewrite list_lookup_insert_ne by lia. rewrite list_lookup_insert by (rewrite insert_length; lia). done.
    + destruct (bool_decide (j = i + 2)%nat) eqn:E3; [apply bool_decide_eq_true in E3; subst j|apply bool_decide_eq_false in E3].
      * rewrite list_lookup_insert by (rewrite !insert_length; lia). done.
      * rewrite !list_lookup_insert_ne by lia. done.
Qed.
Lemma set_seg3_length q i v : length (setSeg3 q i v) = length q.
Proof. unfold setSeg3. rewrite !insert_length. done. Qed.
Lemma seg3_set q i v : (i + 3 <= length q)%nat -> seg3 (setSeg3 q i v) i = v.
Proof.
  intros H. unfold seg3. rewrite !nth_lookup, !set_seg3_lookup by done.
  rewrite (bool_decide_eq_true_2 (i = i)) by done.
  rewrite (bool_decide_eq_false_2 (i + 1 = i)%nat) by lia. rewrite (bool_decide_eq_true_2 (i + 1 = i + 1)%nat) by done.
  rewrite (bool_decide_eq_false_2 (i + 2 = i)%nat) by lia. rewrite (bool_decide_eq_false_2 (i + 2 = i + 1)%nat) by lia.
  rewrite (bool_decide_eq_true_2 (i + 2 = i + 2)%nat) by done. destruct v; done.
Qed.
Lemma seg3_set_other q i k v : (k + 3 <= length q)%nat -> (i + 3 <= k \/ k + 3 <= i)%nat -> seg3 (setSeg3 q k v) i = seg3 q i.
Proof.
  intros H Hk. unfold seg3. rewrite !nth_lookup, !set_seg3_lookup by done.
  rewrite !bool_decide_eq_false_2 by lia. done.
Qed.

Section D.
Context (axis : vec3 -> vec3 -> vec3) (lib : eqlib) (B : rbody)
  (qp : list (vec3 * R) -> mat3 * vec3 -> vec3 -> bool * vec3) (solveTraj : problem -> list R -> option Z -> comTraj).
Notation dyn := (isReachableDynamic axis lib B qp solveTraj).

Lemma head3_eq q0 q1 : Reqb (vx (head3 q0)) (vx (head3 q1)) && Reqb (vy (head3 q0)) (vy (head3 q1)) && Reqb (vz (head3 q0)) (vz (head3 q1)) = true
  <-> head3 q0 = head3 q1.
Proof.
  rewrite !andb_true_iff, !Reqb_true. split; [intros [[H1 H2] H3]; by apply vec3_ext|intros ->; done].
Qed.

(** what the dynamic test answers before any computation *)
Definition one_leg_creation (prev next : PSt) : Prop := (exists e, only_created prev next e) /\ (nbContacts prev <= 1)%Z.
Definition one_leg_break (prev next : PSt) : Prop := (exists e, only_broken prev next e) /\ (nbContacts next <= 1)%Z.

End D.

Section D2.
Context (axis : vec3 -> vec3 -> vec3) (lib : eqlib) (B : rbody)
  (qp : list (vec3 * R) -> mat3 * vec3 -> vec3 -> bool * vec3) (solveTraj : problem -> list R -> option Z -> comTraj).
Notation dyn := (isReachableDynamic axis lib B qp solveTraj).

Lemma len_ge2 {A} (l : list A) : NoDup l -> (1 <? length l)%nat = true <-> exists a b, a <> b /\ a ∈ l /\ b ∈ l.
Proof.
  intros Hn. rewrite Nat.ltb_lt. destruct l as [|x [|y l]]; simpl.
  - split; [lia|]. intros (a & b & _ & H & _). inversion H.
  - split; [lia|]. intros (a & b & Hab & Ha & Hb). apply elem_of_list_singleton in Ha, Hb. congruence.
  - split; [|lia]. intros _. exists x, y. apply NoDup_cons in Hn as [Hn _]. split_and!.
    + intros ->. apply Hn. apply elem_of_cons. by left.
    + apply elem_of_cons. by left.
    + apply elem_of_cons. right. apply elem_of_cons. by left.
Qed.
Lemma len_0 {A} (l : list A) : (length l =? 0)%nat = true <-> ~ exists a, a ∈ l.
Proof.
  rewrite Nat.eqb_eq. destruct l as [|x l]; simpl.
  - split; [intros _ (a & H); inversion H|done].
  - split; [lia|]. intros H. exfalso. apply H. exists x. apply elem_of_cons. by left.
Qed.

Section PN.
Context (prev next : PSt).
Let breaks := contactBreaks moved3 next prev.
Let creations := contactCreations moved3 next prev.
Lemma breaks_many : (1 <? length breaks)%nat = true <-> several_lost prev next.
Proof.
  unfold breaks. rewrite len_ge2 by apply breaks_nodup. unfold several_lost.
  split; intros (a & b & H & Ha & Hb); exists a, b; [apply breaks_elem in Ha, Hb|apply breaks_elem in Ha, Hb]; done.
Qed.
Lemma creations_many : (1 <? length creations)%nat = true <-> several_made prev next.
Proof.
  unfold creations. rewrite len_ge2 by apply creations_nodup. unfold several_made.
  split; intros (a & b & H & Ha & Hb); exists a, b; [apply creations_elem in Ha, Hb|apply creations_elem in Ha, Hb]; done.
Qed.
Lemma breaks_none : (length breaks =? 0)%nat = true <-> ~ some_lost prev next.
Proof.
  unfold breaks. rewrite len_0. unfold some_lost. split; intros H (e & He); apply H; exists e; by apply breaks_elem.
Qed.
Lemma creations_none : (length creations =? 0)%nat = true <-> ~ some_made prev next.
Proof.
  unfold creations. rewrite len_0. unfold some_made. split; intros H (e & He); apply H; exists e; by apply creations_elem.
Qed.
Lemma sum_many : (2 <? length breaks + length creations)%nat || (1 <? length breaks)%nat || (1 <? length creations)%nat = true
  <-> several_lost prev next \/ several_made prev next.
Proof.
  rewrite !orb_true_iff, breaks_many, creations_many. split; [|tauto].
  intros [[H|H]|H]; [|tauto|tauto]. apply Nat.ltb_lt in H.
  destruct (1 <? length breaks)%nat eqn:E1; [left; by apply breaks_many|].
  right. apply creations_many. apply Nat.ltb_ge in E1. apply Nat.ltb_lt. lia.
Qed.
Lemma none_both : none_varies prev next <-> ~ some_made prev next /\ ~ some_lost prev next.
Proof.
  unfold none_varies, varies, some_made, some_lost. split.
  - intros H. split; intros (e & He); apply (H e); auto.
  - intros [H1 H2] e [He|He]; eauto.
Qed.
End PN.

Definition answers (st : status) (prev next : PSt) (r : result) (q' : list R) : Prop :=
  rstatus r = st /\ rpath r = None /\ rtimings r = [] /\ rphases r = [] /\ q' = configuration next.

Lemma remove_eq e (s : PSt) : snd (RemoveContact e (state_copy s)) = snd (RemoveContact e s).
Proof. destruct s; done. Qed.
Lemma copy_eq (s : PSt) : state_copy s = s.
Proof. destruct s; done. Qed.

Definition midState (prev next : PSt) : PSt :=
  match contactBreaks moved3 next prev with b :: _ => snd (RemoveContact b (state_copy prev)) | [] => state_copy prev end.
Lemma between_mid prev next : state_between prev next (midState prev next).
Proof.
  unfold state_between, midState. split.
  - intros e He Hu. rewrite (list_one (contactBreaks moved3 next prev) e).
    + apply remove_eq.
    + apply breaks_nodup.
    + intros y. rewrite breaks_elem. split; [auto|by intros ->].
  - intros Hn. apply breaks_none in Hn. apply Nat.eqb_eq in Hn.
    destruct (contactBreaks moved3 next prev); [|done]. apply copy_eq.
Qed.

Lemma guards prev next qs tm np r q' : dyn prev next qs tm np = Ok (r, q') ->
  (head3 (configuration prev) = head3 (configuration next) -> answers SAME_ROOT_POSITION prev next r q') /\
  (head3 (configuration prev) <> head3 (configuration next) ->
    (none_varies prev next -> answers NO_CONTACT_VARIATION prev next r q') /\
    (several_lost prev next \/ several_made prev next -> answers TOO_MANY_CONTACTS_VARIATION prev next r q') /\
    (~ none_varies prev next -> ~ several_lost prev next -> ~ several_made prev next ->
       (~ some_lost prev next /\ (nbContacts prev <= 1)%Z) \/ (~ some_made prev next /\ (nbContacts next <= 1)%Z) ->
       answers UNABLE_TO_COMPUTE prev next r q')).
Proof.
  intros H. unfold isReachableDynamic in H. cbn zeta in H.
  destruct (_ || _) eqn:El in H; [done|]. clear El.
  destruct (_ && _) eqn:Eh in H.
  { apply head3_eq in Eh. injection H as <- <-. split; [intros _; done|done]. }
  assert (Hh : head3 (configuration prev) <> head3 (configuration next)) by (intros X; apply head3_eq in X; congruence).
  split; [done|]. intros _.
  destruct ((length (contactCreations moved3 next prev) =? 0)%nat && _) eqn:En in H.
  { injection H as <- <-. apply andb_true_iff in En as [E1 E2]. apply creations_none in E1. apply breaks_none in E2.
    split_and!; try done.
    - intros [(a & b & _ & Ha & _)|(a & b & _ & Ha & _)]; [destruct E2|destruct E1]; exists a; done.
    - intros Hn. destruct Hn. by apply none_both. }
  assert (Hn : ~ none_varies prev next).
  { intros X. apply none_both in X as [X1 X2]. apply creations_none in X1. apply breaks_none in X2. rewrite X1, X2 in En. done. }
  split; [done|].
  destruct (_ || _) eqn:Em in H.
  { injection H as <- <-. apply sum_many in Em. split; [done|]. intros _ ? ?. tauto. }
  assert (Hm : ~ (several_lost prev next \/ several_made prev next)) by (intros X; apply sum_many in X; congruence).
  split; [done|]. intros _ _ _ Hc.
  destruct ((length (contactBreaks moved3 next prev) =? 0)%nat && (nbContacts prev <=? 1)%Z) eqn:E1 in H; [injection H as <- <-; done|].
  destruct ((length (contactCreations moved3 next prev) =? 0)%nat && (nbContacts next <=? 1)%Z) eqn:E2 in H; [injection H as <- <-; done|].
  exfalso. destruct Hc as [[X Y]|[X Y]].
  - apply breaks_none in X. rewrite X in E1. apply Z.leb_gt in E1. lia.
  - apply creations_none in X. rewrite X in E2. apply Z.leb_gt in E2. lia.
Qed.

Definition proceeds (prev next : PSt) : Prop :=
  head3 (configuration prev) <> head3 (configuration next) /\ ~ none_varies prev next /\
  ~ several_lost prev next /\ ~ several_made prev next /\
  ~ (~ some_lost prev next /\ (nbContacts prev <= 1)%Z) /\ ~ (~ some_made prev next /\ (nbContacts next <= 1)%Z).

Lemma table_tried tm np : np = 2%nat \/ np = 3%nat -> (length tm =? np)%nat = false ->
  exists row rows, map (firstn np) timingsMatrix = row :: rows /\ rows <> [] /\ row :: removelast rows = tried tm np.
Proof.
  intros Hnp Hl. unfold tried. rewrite Hl.
  assert (Q : forall a b c a' b' c' : R, a = a' -> b = b' -> c = c' -> [a; b; c] = [a'; b'; c']) by (intros; subst; done).
  destruct Hnp as [-> | ->].
  - eexists _, _. split; [unfold timingsMatrix; cbn [map firstn]; reflexivity|]. split; [discriminate|].
    unfold table. cbn [firstn map removelast Nat.eqb]. repeat (apply (f_equal2 cons); [apply (f_equal2 cons); [|apply (f_equal2 cons); [|reflexivity]]; lra|]); reflexivity.
  - eexists _, _. split; [unfold timingsMatrix; cbn [map firstn]; reflexivity|]. split; [discriminate|].
    unfold table. cbn [firstn map removelast Nat.eqb]. repeat (apply (f_equal2 cons); [apply Q; lra|]); reflexivity.
Qed.

Lemma tried_length tm np : np = 2%nat \/ np = 3%nat -> forall t, t ∈ tried tm np -> length t = np.
Proof.
  intros Hnp t. unfold tried. destruct (length tm =? np)%nat eqn:E.
  - intros Ht. apply elem_of_list_singleton in Ht. subst. by apply Nat.eqb_eq.
  - intros Ht. apply elem_of_list_In, in_map_iff in Ht as ([[a b] c] & <- & _). destruct Hnp as [-> | ->]; done.
Qed.

Lemma wrap_spec idv prevq nextq t tr np : np = 2%nat \/ np = 3%nat -> length t = np -> (idv + 6 <= length nextq)%nat ->
  let '(r, q') := wrap idv prevq nextq t tr in
  rstatus r = REACHABLE /\ rtimings r = t /\ with_velocity nextq idv (tjDc1 tr) (tjDdc1 tr) q' /\
  (exists p, rpath r = Some p /\ cpFrom p = 0 /\ cpTo p = fold_right Rplus 0 t) /\
  contiguous 0 t (rphases r) /\
  (forall p, p ∈ rphases r \/ rpath r = Some p -> cpPoints p = tjPoints tr /\ cpInit p = prevq /\ cpEnd p = q').
Proof.
  intros Hnp Hl Hq. unfold wrap. set (q' := setSeg3 (setSeg3 nextq idv (tjDc1 tr)) (idv + 3) (tjDdc1 tr)).
  assert (Hw : with_velocity nextq idv (tjDc1 tr) (tjDdc1 tr) q').
  { unfold with_velocity, q'. split_and!.
    - rewrite !set_seg3_length. done.
    - rewrite seg3_set_other; [|rewrite set_seg3_length; lia|lia]. apply seg3_set. lia.
    - apply seg3_set. rewrite set_seg3_length. lia.
    - intros j Hj. rewrite set_seg3_lookup by (rewrite set_seg3_length; lia). rewrite !bool_decide_eq_false_2 by lia.
      rewrite set_seg3_lookup by lia. rewrite !bool_decide_eq_false_2 by lia. done. }
  cbn [rstatus rtimings rpath rphases].
  destruct Hnp as [-> | ->].
  - destruct t as [|a [|b [|? ?]]]; try done. cbn [nth length Nat.ltb Nat.leb app].
    split_and!; try done.
    + eexists. split; [reflexivity|]. cbn [cpFrom cpTo]. rewrite sumR_2. simpl. split; [done|ring].
    + simpl. split_and!; try done; ring.
    + intros p [Hp|Hp].
      * apply elem_of_cons in Hp as [->|Hp]; [done|]. apply elem_of_list_singleton in Hp as ->. done.
      * injection Hp as <-. done.
  - destruct t as [|a [|b [|c [|? ?]]]]; try done. cbn [nth length Nat.ltb Nat.leb app].
    split_and!; try done.
    + eexists. split; [reflexivity|]. cbn [cpFrom cpTo]. rewrite sumR_3. simpl. split; [done|ring].
    + rewrite sumR_3. simpl. split_and!; try done; ring.
    + intros p [Hp|Hp].
      * apply elem_of_cons in Hp as [->|Hp]; [done|]. apply elem_of_cons in Hp as [->|Hp]; [done|]. apply elem_of_list_singleton in Hp as ->. done.
      * injection Hp as <-. done.
Qed.

Definition phases_of (prev next : PSt) (n : nat) : Prop :=
  (some_lost prev next /\ some_made prev next /\ n = 3%nat) \/ (~ (some_lost prev next /\ some_made prev next) /\ n = 2%nat).

Context (HB : lawful_body B).

Lemma dynamic prev next qs tm npts r q' : dyn prev next qs tm npts = Ok (r, q') -> proceeds prev next ->
  exists mid, state_between prev next mid /\
  let idv := (rconfSize B - rextra B)%nat in
  (* quasi-static *)
  ((qs = true /\ exists ri, isReachableIntermediate axis lib B qp prev mid next = Ok ri /\ success ri = true /\
      rstatus r = QUASI_STATIC /\ resx r = resx ri /\ q' = configuration next /\
      rpath r = Some (mkCP [rcom B (configuration prev); resx ri; rcom B (configuration next)] (configuration prev) (configuration next) 0 1)) \/
   (* no cone *)
   (answers UNABLE_TO_COMPUTE prev next r q' /\ exists s, (s = prev \/ s = mid \/ s = next) /\ computeContactConeForState axis lib B s = Ok None) \/
   (* optimisation *)
   exists n ps, phases_of prev next n /\ 
     Forall2 (phase_of axis lib B) (if (n =? 3)%nat then [prev; mid; next] else [prev; next]) ps /\
     let pb := mkProblem ps (rcom B (configuration prev)) (rcom B (configuration next))
                 (seg3 (configuration prev) idv) (seg3 (configuration next) idv) in
     let run t := solveTraj pb t (if (0 <? npts)%Z then Some npts else None) in
     ((exists pre t post, tried tm n = (pre ++ t :: post)%list /\ (forall u, u ∈ pre -> tjOk (run u) = false) /\
        tjOk (run t) = true /\ rstatus r = REACHABLE /\ rtimings r = t /\
        with_velocity (configuration next) idv (tjDc1 (run t)) (tjDdc1 (run t)) q' /\
        (exists p, rpath r = Some p /\ cpFrom p = 0 /\ cpTo p = fold_right Rplus 0 t) /\
        contiguous 0 t (rphases r) /\
        (forall p, p ∈ rphases r \/ rpath r = Some p -> cpPoints p = tjPoints (run t) /\ cpInit p = configuration prev /\ cpEnd p = q')) \/
      ((forall u, u ∈ tried tm n -> tjOk (run u) = false) /\ answers UNREACHABLE prev next r q'))).
Proof.
  intros H (Hh & Hn & Hsl & Hsm & Ho1 & Ho2). exists (midState prev next). split; [apply between_mid|].
  unfold isReachableDynamic in H. cbn zeta in H. fold (midState prev next) in H.
  destruct (_ || _) eqn:El in H; [done|]. clear El.
  destruct (_ && _) eqn:Eh in H; [apply head3_eq in Eh; done|]. clear Eh.
  destruct ((length (contactCreations moved3 next prev) =? 0)%nat && _) eqn:En in H.
  { exfalso. apply Hn. apply none_both. apply andb_true_iff in En as [E1 E2]. apply creations_none in E1. apply breaks_none in E2. done. }
  destruct (_ || _) eqn:Em in H; [apply sum_many in Em; tauto|].
  assert (Lb : (length (contactBreaks moved3 next prev) <= 1)%nat).
  { destruct (1 <? length (contactBreaks moved3 next prev))%nat eqn:E; [apply breaks_many in E; done|]. by apply Nat.ltb_ge in E. }
  assert (Lc : (length (contactCreations moved3 next prev) <= 1)%nat).
  { destruct (1 <? length (contactCreations moved3 next prev))%nat eqn:E; [apply creations_many in E; done|]. by apply Nat.ltb_ge in E. }
  clear Em.
  destruct ((length (contactBreaks moved3 next prev) =? 0)%nat && (nbContacts prev <=? 1)%Z) eqn:E1 in H.
  { exfalso. apply andb_true_iff in E1 as [X Y]. apply breaks_none in X. apply Z.leb_le in Y. tauto. }
  destruct ((length (contactCreations moved3 next prev) =? 0)%nat && (nbContacts next <=? 1)%Z) eqn:E2 in H.
  { exfalso. apply andb_true_iff in E2 as [X Y]. apply creations_none in X. apply Z.leb_le in Y. tauto. }
  set (idv := (rconfSize B - rextra B)%nat) in *. cbn zeta.
  inv_bind H. destruct a as [rq|].
  { left. injection H as <- <-. destruct qs; [|done]. inv_bind E. destruct (success a) eqn:Es; [|done]. injection E as <-.
    split; [done|]. exists a. split_and!; done. }
  clear E. right. inv_bind H. inv_bind H. inv_bind H. inv_bind H.
  pose proof E4 as Econes. unfold conesOf in E4. inv_bind E4. inv_bind E4. inv_bind E4. injection E4 as <-.
  destruct a3 as [kp|].
  2:{ left. injection H as <- <-. split; [done|]. exists prev. split; [by left|done]. }
  destruct a4 as [km|].
  2:{ left. injection H as <- <-. split; [done|]. exists (midState prev next). split; [right; by left|done]. }
  destruct a5 as [kn|].
  2:{ left. injection H as <- <-. split; [done|]. exists next. split; [right; by right|done]. }
  right. destruct ((length (configuration prev) <? idv + 6)%nat || _) eqn:Eq in H; [done|].
  apply orb_false_iff in Eq as [Eq1 Eq2]. apply Nat.ltb_ge in Eq1, Eq2.
  destruct ((length (contactBreaks moved3 next prev) =? 1)%nat && (length (contactCreations moved3 next prev) =? 1)%nat) eqn:E3b in H.
  - exists 3%nat. apply andb_true_iff in E3b as [X Y]. apply Nat.eqb_eq in X, Y.
    assert (Xl : (0 <? length (contactBreaks moved3 next prev))%nat = true) by (rewrite X; done). rewrite Xl in E0.
    exists [mkPhase a kp; mkPhase a0 km; mkPhase a1 kn]. split.
    { left. split_and!; [| |done].
      - destruct (contactBreaks moved3 next prev) as [|b l] eqn:Eb; [done|]. exists b. apply breaks_elem. rewrite Eb. apply elem_of_cons. by left.
      - destruct (contactCreations moved3 next prev) as [|b l] eqn:Eb; [done|]. exists b. apply creations_elem. rewrite Eb. apply elem_of_cons. by left. }
    split.
    { cbn [Nat.eqb]. assert (Q : forall s K k, computeKinematicsConstraintsForState B s = Ok K -> computeContactConeForState axis lib B s = Ok (Some k) -> phase_of axis lib B s (mkPhase K k)).
      { intros s K k HK Hk. split; [|done]. intros x. by apply state_kinematics. }
      repeat (constructor; [by apply Q|]); constructor. }
    cbn zeta. cbn [length] in H.
    assert (Hrun : exists cur rows, tryTimings (fun t => solveTraj (mkProblem [mkPhase a kp; mkPhase a0 km; mkPhase a1 kn] (rcom B (configuration prev)) (rcom B (configuration next)) (seg3 (configuration prev) idv) (seg3 (configuration next) idv)) t (if (0 <? npts)%Z then Some npts else None)) (wrap idv (configuration prev) (configuration next)) (configuration next) cur rows = (r, q') /\
       match rows with [] => [cur] | _ => cur :: removelast rows end = tried tm 3).
    { destruct (length tm =? 3)%nat eqn:Et.
      - exists tm, []. split; [injection H as H; exact H|]. unfold tried. rewrite Et. done.
      - destruct (table_tried tm 3) as (row & rows & Er & Hne & Ht); [by right|done|]. rewrite Er in H.
        exists row, rows. split; [injection H as H; exact H|]. destruct rows; done. }
    destruct Hrun as (cur & rows & Hrun & Htr).
    match type of Hrun with tryTimings ?rn ?ok ?nq _ _ = _ => pose proof (try_timings rn ok nq cur rows) as HT end. cbn zeta in HT.
    rewrite Htr, Hrun in HT. destruct HT as [(pre & t & post & Et & Hp & Hok & Eo)|[Hall Eo]].
    + left. exists pre, t, post. assert (Hlt : length t = 3%nat).
      { apply (tried_length tm 3); [by right|]. rewrite Et. apply elem_of_app. right. apply elem_of_cons. by left. }
      match type of Eo with _ = wrap _ _ _ _ ?tr => pose proof (wrap_spec idv (configuration prev) (configuration next) t tr 3 (or_intror eq_refl) Hlt Eq2) as HW end.
      rewrite <- Eo in HW. split_and!; try done; apply HW.
    + right. injection Eo as -> ->. split; [done|]. done.
  - exists 2%nat. exists [mkPhase a kp; mkPhase a1 kn]. split.
    { right. split; [|done]. intros [X Y]. apply andb_false_iff in E3b.
      assert (X' : (length (contactBreaks moved3 next prev) =? 0)%nat = false).
      { destruct (_ =? 0)%nat eqn:Z in |- *; [|done]. apply breaks_none in Z. done. }
      assert (Y' : (length (contactCreations moved3 next prev) =? 0)%nat = false).
      { destruct (_ =? 0)%nat eqn:Z in |- *; [|done]. apply creations_none in Z. done. }
      apply Nat.eqb_neq in X', Y'. destruct E3b as [Z|Z]; apply Nat.eqb_neq in Z; lia. }
    split.
    { cbn [Nat.eqb]. assert (Q : forall s K k, computeKinematicsConstraintsForState B s = Ok K -> computeContactConeForState axis lib B s = Ok (Some k) -> phase_of axis lib B s (mkPhase K k)).
      { intros s K k HK Hk. split; [|done]. intros x. by apply state_kinematics. }
      repeat (constructor; [by apply Q|]); constructor. }
    cbn zeta. cbn [length] in H.
    assert (Hrun : exists cur rows, tryTimings (fun t => solveTraj (mkProblem [mkPhase a kp; mkPhase a1 kn] (rcom B (configuration prev)) (rcom B (configuration next)) (seg3 (configuration prev) idv) (seg3 (configuration next) idv)) t (if (0 <? npts)%Z then Some npts else None)) (wrap idv (configuration prev) (configuration next)) (configuration next) cur rows = (r, q') /\
       match rows with [] => [cur] | _ => cur :: removelast rows end = tried tm 2).
    { destruct (length tm =? 2)%nat eqn:Et.
      - exists tm, []. split; [injection H as H; exact H|]. unfold tried. rewrite Et. done.
      - destruct (table_tried tm 2) as (row & rows & Er & Hne & Ht); [by left|done|]. rewrite Er in H.
        exists row, rows. split; [injection H as H; exact H|]. destruct rows; done. }
    destruct Hrun as (cur & rows & Hrun & Htr).
    match type of Hrun with tryTimings ?rn ?ok ?nq _ _ = _ => pose proof (try_timings rn ok nq cur rows) as HT end. cbn zeta in HT.
    rewrite Htr, Hrun in HT. destruct HT as [(pre & t & post & Et & Hp & Hok & Eo)|[Hall Eo]].
    + left. exists pre, t, post. assert (Hlt : length t = 2%nat).
      { apply (tried_length tm 2); [by left|]. rewrite Et. apply elem_of_app. right. apply elem_of_cons. by left. }
      match type of Eo with _ = wrap _ _ _ _ ?tr => pose proof (wrap_spec idv (configuration prev) (configuration next) t tr 2 (or_introl eq_refl) Hlt Eq2) as HW end.
      rewrite <- Eo in HW. split_and!; try done; apply HW.
    + right. injection Eo as -> ->. split; [done|]. done.
Qed.
End D2.
