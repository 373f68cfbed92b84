From Coq Require Import Reals ZArith Lra Lia.
From Verif Require Import SampModel VecProofs.
From Verif Require Export NodeProofs2.
Local Open Scope R_scope.

(** * The choice of the surface *)
Section Choose.
Context {S : Type} (inter : string -> S -> option R).

Lemma bestOf_inv rom l : forall pre best minD,
  match minD with
  | None => (forall s, s ∈ pre -> inter rom s = None)
  | Some d => exists i, pre !! i = Some best /\ inter rom best = Some d /\
      forall j s' d', pre !! j = Some s' -> inter rom s' = Some d' -> d <= d' /\ ((j < i)%nat -> d < d')
  end ->
  best_surface (inter rom) (pre ++ l) (bestOf S inter rom l best minD) \/
  ((forall s, s ∈ pre ++ l -> inter rom s = None) /\ bestOf S inter rom l best minD = best).
Proof.
  induction l as [|s l IH]; intros pre best minD Hpre; cbn [bestOf].
  - rewrite app_nil_r. destruct minD as [d|].
    + left. left. destruct Hpre as (i & H1 & H2 & H3). exists i, d. auto.
    + right. auto.
  - replace (pre ++ s :: l) with ((pre ++ [s]) ++ l) by (rewrite <- app_assoc; reflexivity).
    assert (Hkeep : inter rom s = None \/ (exists d d', inter rom s = Some d' /\ minD = Some d /\ d <= d') ->
      match minD with
      | None => (forall s', s' ∈ pre ++ [s] -> inter rom s' = None)
      | Some d => exists i, (pre ++ [s]) !! i = Some best /\ inter rom best = Some d /\
          forall j s' d', (pre ++ [s]) !! j = Some s' -> inter rom s' = Some d' -> d <= d' /\ ((j < i)%nat -> d < d')
      end).
    { intros Hs. destruct minD as [d|].
      - destruct Hpre as (i & H1 & H2 & H3). exists i. apply lookup_lt_Some in H1 as Hi.
        split; [rewrite lookup_app_l by exact Hi; exact H1|]. split; [exact H2|].
        intros j s' d' Hj Hd'. rewrite lookup_snoc in Hj. destruct (Nat.eqb_spec j (length pre)) as [->|].
        + injection Hj as <-. destruct Hs as [Hs|(d0 & d0' & Hs & [= <-] & Hle)]; [congruence|].
          rewrite Hs in Hd'. injection Hd' as <-. split; [exact Hle|lia].
        + eapply H3; eassumption.
      - intros s' Hs'. apply elem_of_app in Hs'. destruct Hs' as [Hs'|Hs']; [auto|].
        apply elem_of_list_singleton in Hs'. subst s'. destruct Hs as [Hs|(d0 & d0' & _ & [=] & _)]. exact Hs. }
    destruct (inter rom s) as [d'|] eqn:Es.
    + destruct minD as [d|].
      * destruct (Rltb d' d) eqn:El.
        -- rewrite Rltb_true in El.
           destruct (IH (pre ++ [s]) s (Some d')) as [H|[H1 H2]]; [|left; exact H|].
           ++ exists (length pre). destruct Hpre as (i & H1 & H2 & H3).
              split; [rewrite lookup_snoc, Nat.eqb_refl; reflexivity|]. split; [exact Es|].
              intros j s' d'' Hj Hd''. rewrite lookup_snoc in Hj. destruct (Nat.eqb_spec j (length pre)) as [->|].
              ** injection Hj as <-. rewrite Es in Hd''. injection Hd'' as <-. split; [lra|lia].
              ** destruct (H3 j s' d'' Hj Hd''). split; intros; lra.
           ++ exfalso. rewrite H1 in Es; [discriminate|]. apply elem_of_app. left. apply elem_of_app. right. left.
        -- rewrite Rltb_false in El. apply IH. apply Hkeep. right. eauto.
      * destruct (IH (pre ++ [s]) s (Some d')) as [H|[H1 H2]]; [|left; exact H|].
        -- exists (length pre). split; [rewrite lookup_snoc, Nat.eqb_refl; reflexivity|]. split; [exact Es|].
           intros j s' d'' Hj Hd''. rewrite lookup_snoc in Hj. destruct (Nat.eqb_spec j (length pre)) as [->|].
           ++ injection Hj as <-. rewrite Es in Hd''. injection Hd'' as <-. split; [lra|lia].
           ++ exfalso. rewrite Hpre in Hd''; [discriminate|]. eapply elem_of_list_lookup_2. exact Hj.
        -- exfalso. rewrite H1 in Es; [discriminate|]. apply elem_of_app. left. apply elem_of_app. right. left.
    + apply IH. apply Hkeep. left. reflexivity.
Qed.

Lemma bestOf_best rom front l : best_surface (inter rom) (front :: l) (bestOf S inter rom (front :: l) front None).
Proof.
  destruct (bestOf_inv rom (front :: l) [] front None) as [H|[H1 H2]].
  - intros s Hs. apply elem_of_nil in Hs. contradiction.
  - exact H.
  - rewrite H2. right. split; [exact H1|reflexivity].
Qed.


Definition rom_after (r r' : string * (S * option (list S))) : Prop :=
  fst r' = fst r /\ snd (snd r') = snd (snd r) /\
  exists l, snd (snd r) = Some l /\
  ((length l <= 1)%nat /\ fst (snd r') = fst (snd r) \/ (1 < length l)%nat /\ best_surface (inter (fst r)) l (fst (snd r'))).

Lemma chooseBest_parts reps : exists done done' rest, reps = (done ++ rest)%list /\
  chooseBest S inter reps = (done' ++ rest)%list /\ Forall2 rom_after done done' /\
  match rest with [] => True | r :: _ => snd (snd r) = None end.
Proof.
  induction reps as [|[rom [cur [l|]]] reps IH]; cbn [chooseBest].
  - exists [], [], []. split_and!; auto.
  - destruct IH as (d & d' & rest & E1 & E2 & H & Hr).
    exists ((rom, (cur, Some l)) :: d), ((match l with
       | front :: _ :: _ => (rom, (bestOf S inter rom l front None, Some l))
       | _ => (rom, (cur, Some l))
       end) :: d'), rest.
    split; [rewrite E1; reflexivity|]. split; [rewrite E2; reflexivity|]. split; [|exact Hr].
    constructor; [|exact H]. unfold rom_after. cbn [fst snd].
    destruct l as [|s1 [|s2 l]]; cbn [fst snd].
    + split_and!; auto. exists []. split; [reflexivity|]. left. cbn. split; [lia|reflexivity].
    + split_and!; auto. exists [s1]. split; [reflexivity|]. left. cbn. split; [lia|reflexivity].
    + split_and!; auto. exists (s1 :: s2 :: l). split; [reflexivity|]. right. split; [cbn; lia|]. apply bestOf_best.
  - exists [], [], ((rom, (cur, None)) :: reps). split_and!; auto.
Qed.
End Choose.

(** * Steering *)
Section Kino.
Context {K : Type} {klen : K -> R} {kA1 : K -> vec3} {kt0 kt1 ktv : K -> nat -> R} {kacc : K -> R -> vec3}.
Context {kextract : K -> R -> R -> K} {kino : vec3 -> list R -> list R -> option K} {aMaxFixed aMaxFixedZ : R}.
Context {admissible : vec3 -> bool} {findMax : vec3 -> R}.

Local Notation axisTimes := (axisTimes K kt0 kt1 ktv).
Local Notation allTimes := (allTimes K kt0 kt1 ktv).
Local Notation setBounds := (setBounds K kA1 kino aMaxFixed aMaxFixedZ findMax).
Local Notation steerFrom := (steerFrom K klen kA1 kt0 kt1 ktv kacc kextract kino aMaxFixed aMaxFixedZ admissible findMax).
Local Notation steerTo := (steerTo K klen kA1 kt0 kt1 ktv kacc kextract kino aMaxFixed aMaxFixedZ admissible findMax).

Local Notation durations_ok p := (durations_ok (kt0 p) (kt1 p) (ktv p)).

Lemma axisTimes_spec p shift i t : (i < 3)%nat -> durations_ok p -> t ∈ axisTimes p shift i <->
  exists j, (j < 3)%nat /\ 0 < phase (kt0 p) (kt1 p) (ktv p) i j /\ t = phase_end (kt0 p) (kt1 p) (ktv p) i j + shift.
Proof.
  intros Hi Hd. destruct (Hd i Hi) as (D0 & D1 & D2). unfold NodeModel.axisTimes. cbv zeta.
  assert (Hs : forall (P : nat -> Prop), (exists j, (j < 3)%nat /\ P j) <-> P 0%nat \/ P 1%nat \/ P 2%nat).
  { intros P. split.
    - intros (j & Hj & HP). destruct j as [|[|[|j]]]; [auto..|lia].
    - intros [H|[H|H]]; [exists 0%nat|exists 1%nat|exists 2%nat]; (split; [lia|exact H]). }
  rewrite Hs. cbn [phase phase_end].
  destruct (Rltb 0 (kt0 p i)) eqn:E0; destruct (Rltb 0 (kt1 p i)) eqn:E1; destruct (Rltb 0 (ktv p i)) eqn:E2;
    rewrite ?Rltb_true, ?Rltb_false in *; cbn [app]; rewrite ?elem_of_cons, ?elem_of_nil;
    intuition (try lra; try (first [left; lra | right; left; lra | right; right; lra])).
Qed.

Lemma allTimes_spec p shift t : durations_ok p -> t ∈ allTimes p shift <-> instant (kt0 p) (kt1 p) (ktv p) shift t.
Proof.
  intros Hd. unfold NodeModel.allTimes, instant. rewrite !elem_of_app, !axisTimes_spec by (first [exact Hd | lia]). split.
  - intros [(j & Hj)|[(j & Hj)|(j & Hj)]]; [exists 0%nat|exists 1%nat|exists 2%nat]; exists j; (split; [lia|exact Hj]).
  - intros (i & j & Hi & Hj). destruct i as [|[|[|i]]]; [left; eauto|right; left; eauto|right; right; eauto|lia].
Qed.

Lemma setBounds_spec nodeq target rev path aMax up : setBounds nodeq target rev = (path, aMax, up) ->
  let fixed := V3 aMaxFixed aMaxFixed aMaxFixedZ in
  let p0 := if rev then kino fixed target nodeq else kino fixed nodeq target in
  (path = None /\ up = true) \/
  (exists p, p0 = Some p /\ path = Some p /\ aMaxFixed < findMax (vnormalize (kA1 p)) /\ up = true) \/
  (exists p, p0 = Some p /\ findMax (vnormalize (kA1 p)) <= aMaxFixed /\ up = false /\
     bounds_along (findMax (vnormalize (kA1 p))) aMaxFixedZ (vnormalize (kA1 p)) aMax).
Proof.
  unfold NodeModel.setBounds, computeDirection. cbv zeta.
  set (p0 := if rev then _ else _). destruct (Rleb _ _) eqn:En.
  - intros [= <- <- <-]. left. auto.
  - intros H. destruct p0 as [p|] eqn:Ep.
    + right. destruct (Rleb (findMax (vnormalize (kA1 p))) aMaxFixed) eqn:Ea; injection H as <- E <-.
      * rewrite Rleb_true in Ea. right. exists p. split; [reflexivity|]. split; [exact Ea|]. split; [reflexivity|].
        subst aMax. unfold vscale. cbn [vx vy vz]. rewrite !Rabs_mult. destruct (Rltb _ _) eqn:Ez; cbn.
        -- rewrite Rltb_true in Ez. unfold bounds_along. cbn. split_and!; [reflexivity..|]. rewrite Rmax_right by lra. reflexivity.
        -- rewrite Rltb_false in Ez. unfold bounds_along. cbn. split_and!; [reflexivity..|]. rewrite Rmax_left by lra. reflexivity.
      * rewrite Rleb_false in Ea. left. exists p. auto.
    + exfalso. unfold vnorm, vnorm2, vdot, vzero in En. cbn in En.
      replace (0 * 0 + 0 * 0 + 0 * 0) with 0 in En by ring. rewrite sqrt_0 in En. rewrite Rleb_false in En.
      pose proof (Rinv_0_lt_compat (2 ^ 52) (pow_lt 2 52 ltac:(lra))). lra.
Qed.

Lemma fold_min (bad : R -> bool) l : forall T0, let T := fold_left (fun T t => if bad t && Rltb t T then t else T) l T0 in
  T <= T0 /\ (T < T0 -> T ∈ l /\ bad T = true) /\ forall t, t ∈ l -> t < T -> bad t = false.
Proof.
  induction l as [|x l IH]; intros T0; cbn [fold_left].
  - cbv zeta. split; [lra|]. split; [lra|]. intros t Ht. apply elem_of_nil in Ht. contradiction.
  - cbv zeta in *. destruct (bad x && Rltb x T0) eqn:E.
    + apply andb_prop in E. destruct E as [E1 E2]. rewrite Rltb_true in E2.
      destruct (IH x) as (H1 & H2 & H3). split; [lra|]. split.
      * intros _. destruct (Rle_lt_or_eq_dec _ _ H1) as [Hlt|Heq].
        -- destruct (H2 Hlt). split; [right; assumption|assumption].
        -- rewrite Heq. split; [left|exact E1].
      * intros t Ht Hlt. apply elem_of_cons in Ht. destruct Ht as [->|Ht]; [lra|]. auto.
    + destruct (IH T0) as (H1 & H2 & H3). split; [lra|]. split.
      * intros Hlt. destruct (H2 Hlt). split; [right; assumption|assumption].
      * intros t Ht Hlt. apply elem_of_cons in Ht. destruct Ht as [->|Ht]; [|auto].
        apply andb_false_iff in E. destruct E as [E|E]; [exact E|]. rewrite Rltb_false in E. lra.
Qed.

Lemma fold_max (bad : R -> bool) l : forall T0, let T := fold_left (fun T t => if bad t && Rltb T t then t else T) l T0 in
  T0 <= T /\ (T0 < T -> T ∈ l /\ bad T = true) /\ forall t, t ∈ l -> T < t -> bad t = false.
Proof.
  induction l as [|x l IH]; intros T0; cbn [fold_left].
  - cbv zeta. split; [lra|]. split; [lra|]. intros t Ht. apply elem_of_nil in Ht. contradiction.
  - cbv zeta in *. destruct (bad x && Rltb T0 x) eqn:E.
    + apply andb_prop in E. destruct E as [E1 E2]. rewrite Rltb_true in E2.
      destruct (IH x) as (H1 & H2 & H3). split; [lra|]. split.
      * intros _. destruct (Rle_lt_or_eq_dec _ _ H1) as [Hlt|Heq].
        -- destruct (H2 Hlt). split; [right; assumption|assumption].
        -- rewrite <- Heq. split; [left|exact E1].
      * intros t Ht Hlt. apply elem_of_cons in Ht. destruct Ht as [->|Ht]; [lra|]. auto.
    + destruct (IH T0) as (H1 & H2 & H3). split; [lra|]. split.
      * intros Hlt. destruct (H2 Hlt). split; [right; assumption|assumption].
      * intros t Ht Hlt. apply elem_of_cons in Ht. destruct Ht as [->|Ht]; [|auto].
        apply andb_false_iff in E. destruct E as [E|E]; [exact E|]. rewrite Rltb_false in E. lra.
Qed.

Lemma steerFrom_spec nodeq q2 r : (forall b p, kino b nodeq q2 = Some p -> durations_ok p) ->
  steerFrom nodeq q2 = Some r ->
  exists p0, kino (V3 aMaxFixed aMaxFixed aMaxFixedZ) nodeq q2 = Some p0 /\
  let dir := vnormalize (kA1 p0) in
  (aMaxFixed < findMax dir /\ r = p0) \/
  (findMax dir <= aMaxFixed /\ exists b p, bounds_along (findMax dir) aMaxFixedZ dir b /\ kino b nodeq q2 = Some p /\
   klen p <= 50 /\ admissible (kacc p (1 / 10000)) = true /\
   let instant := instant (kt0 p) (kt1 p) (ktv p) (1 / 10000) in
   ((r = p /\ forall t, instant t -> t < klen p -> admissible (kacc p t) = true) \/
    (exists T, T < klen p - 1 / 10000 /\ r = kextract p 0 T /\
       (forall t, instant t -> t < T + 1 / 10000 -> admissible (kacc p t) = true) /\
       instant (T + 1 / 10000) /\ admissible (kacc p (T + 1 / 10000)) = false))).
Proof.
  intros Hd. unfold NodeModel.steerFrom. destruct (setBounds nodeq q2 false) as [[unb b] up] eqn:Eb.
  apply setBounds_spec in Eb. cbv zeta in Eb.
  destruct (Rleb _ _); [discriminate|].
  destruct Eb as [(-> & ->)|[(p0 & E0 & -> & Hf & ->)|(p0 & E0 & Hf & -> & Hb)]].
  - discriminate.
  - intros [= <-]. exists p0. split; [exact E0|]. left. auto.
  - destruct (kino b nodeq q2) as [p|] eqn:Ek; [|discriminate].
    destruct (Rltb 50 (klen p)) eqn:E50; [discriminate|]. rewrite Rltb_false in E50.
    destruct (admissible (kacc p keps)) eqn:Ea; [|discriminate]. cbn [negb].
    intros Hr. exists p0. split; [exact E0|]. cbv zeta. right. split; [exact Hf|]. exists b, p.
    split; [exact Hb|]. split; [exact Ek|]. split; [exact E50|]. split; [exact Ea|].
    pose proof (fold_min (fun t => negb (admissible (kacc p t))) (allTimes p keps) (klen p)) as Hm. cbv zeta in Hm.
    set (T := fold_left _ _ _) in *. destruct Hm as (H1 & H2 & H3).
    assert (Hins : forall t, instant (kt0 p) (kt1 p) (ktv p) (1 / 10000) t -> t < T -> admissible (kacc p t) = true).
    { intros t Ht Hlt. apply negb_false_iff. apply H3; [|exact Hlt]. apply allTimes_spec; [eapply Hd; exact Ek|exact Ht]. }
    destruct (Rltb T (klen p)) eqn:ET; rewrite ?Rltb_true, ?Rltb_false in ET.
    + right. exists (T - keps). unfold keps in *. injection Hr as <-. destruct (H2 ET) as [HT1 HT2].
      split; [lra|]. split; [f_equal; lra|]. replace (T - 1 / 10000 + 1 / 10000) with T by lra.
      split; [exact Hins|]. split; [apply (allTimes_spec p); [eapply Hd; exact Ek|exact HT1]|].
      apply negb_true_iff. exact HT2.
    + left. injection Hr as <-. split; [reflexivity|]. intros t Ht Hlt. apply Hins; [exact Ht|lra].
Qed.

Lemma steerTo_spec q1 nodeq r : (forall b p, kino b q1 nodeq = Some p -> durations_ok p) ->
  steerTo q1 nodeq = Some r ->
  exists p0, kino (V3 aMaxFixed aMaxFixed aMaxFixedZ) q1 nodeq = Some p0 /\
  let dir := vnormalize (kA1 p0) in
  (aMaxFixed < findMax dir /\ r = p0) \/
  (findMax dir <= aMaxFixed /\ exists b p, bounds_along (findMax dir) aMaxFixedZ dir b /\ kino b q1 nodeq = Some p /\
   klen p <= 50 /\ admissible (kacc p (klen p - 1 / 10000)) = true /\
   let instant := instant (kt0 p) (kt1 p) (ktv p) (- (1 / 10000)) in
   ((r = p /\ forall t, instant t -> 0 < t -> admissible (kacc p t) = true) \/
    (exists T, 1 / 10000 < T /\ r = kextract p T (klen p) /\
       (forall t, instant t -> T - 1 / 10000 < t -> admissible (kacc p t) = true) /\
       instant (T - 1 / 10000) /\ admissible (kacc p (T - 1 / 10000)) = false))).
Proof.
  intros Hd. unfold NodeModel.steerTo. destruct (setBounds nodeq q1 true) as [[unb b] up] eqn:Eb.
  apply setBounds_spec in Eb. cbv zeta in Eb.
  destruct (Rleb _ _); [discriminate|].
  destruct Eb as [(-> & ->)|[(p0 & E0 & -> & Hf & ->)|(p0 & E0 & Hf & -> & Hb)]].
  - discriminate.
  - intros [= <-]. exists p0. split; [exact E0|]. left. auto.
  - destruct (kino b q1 nodeq) as [p|] eqn:Ek; [|discriminate].
    destruct (Rltb 50 (klen p)) eqn:E50; [discriminate|]. rewrite Rltb_false in E50.
    destruct (admissible (kacc p (klen p - keps))) eqn:Ea; [|discriminate]. cbn [negb].
    intros Hr. exists p0. split; [exact E0|]. cbv zeta. right. split; [exact Hf|]. exists b, p.
    split; [exact Hb|]. split; [exact Ek|]. split; [exact E50|]. split; [exact Ea|].
    pose proof (fold_max (fun t => negb (admissible (kacc p t))) (allTimes p (- keps)) 0) as Hm. cbv zeta in Hm.
    set (T := fold_left _ _ _) in *. destruct Hm as (H1 & H2 & H3).
    assert (Hins : forall t, instant (kt0 p) (kt1 p) (ktv p) (- (1 / 10000)) t -> T < t -> admissible (kacc p t) = true).
    { intros t Ht Hlt. apply negb_false_iff. apply H3; [|exact Hlt]. apply allTimes_spec; [eapply Hd; exact Ek|exact Ht]. }
    destruct (Rltb 0 T) eqn:ET; rewrite ?Rltb_true, ?Rltb_false in ET.
    + right. exists (T + keps). unfold keps in *. injection Hr as <-. destruct (H2 ET) as [HT1 HT2].
      split; [lra|]. split; [reflexivity|]. replace (T + 1 / 10000 - 1 / 10000) with T by lra.
      split; [exact Hins|]. split; [apply (allTimes_spec p); [eapply Hd; exact Ek|exact HT1]|].
      apply negb_true_iff. exact HT2.
    + left. injection Hr as <-. split; [reflexivity|]. intros t Ht Hlt. apply Hins; [exact Ht|lra].
Qed.
End Kino.
