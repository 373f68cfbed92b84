(** Proofs about the profiler. *)
From Coq Require Import Reals ZArith Lra Lia.
From stdpp Require Import gmap strings.
From Verif Require Import Vec MapsProofs VecProofs.
From Verif Require Export WatchSpec.
Local Open Scope R_scope.

Lemma last_of (x : R) l d : List.last (x :: l) d = List.last l x.
Proof. revert x d. induction l as [|y l IH]; intros x d; [reflexivity|]. change (List.last (y :: l) d = List.last (y :: l) x). rewrite !IH. reflexivity. Qed.
Section W.
Variable cps : R.
Notation step := (step cps).
Notation run := (run cps).
Notation measured := (measured cps).
Notation seconds := (seconds cps).

Lemma put_mode n p w : mode (putRecord n p w) = mode w. Proof. reflexivity. Qed.
Lemma put_same n p w : records (putRecord n p w) !! n = Some p. Proof. apply lookup_insert. Qed.
Lemma put_other n k p w : k <> n -> records (putRecord k p w) !! n = records w !! n. Proof. intros H. apply lookup_insert_ne, H. Qed.
Lemma reset_other n k w : k <> n -> records (snd (reset k w)) !! n = records w !! n.
Proof. intros H. unfold reset. destruct (active w); [|reflexivity]. destruct (records w !! k); [apply put_other, H|reflexivity]. Qed.
Lemma step_other n c r w : other n c -> records (snd (step c r w)) !! n = records w !! n.
Proof.
  destruct c as [k|k|k|k| | | |m]; cbn [other WatchModel.step]; intros H; try contradiction.
  - unfold start. destruct (active w); [|reflexivity]. destruct (take_time _ r); cbn [snd]; rewrite !put_other by exact H; reflexivity.
  - unfold stop. destruct (active w); [|reflexivity]. destruct (take_time _ r); [|reflexivity]. destruct (records w !! k); [|reflexivity]. apply put_other, H.
  - unfold pause. destruct (active w); [|reflexivity]. destruct (records w !! k); [|reflexivity]. apply put_other, H.
  - apply reset_other, H.
Qed.
Lemma reset_mode n w : active (snd (reset n w)) = active w /\ mode (snd (reset n w)) = mode w.
Proof. unfold reset. destruct (active w) eqn:E; [|auto]. destruct (records w !! n); cbn; auto. Qed.
Lemma step_mode n c r w : other n c \/ c = Start n \/ c = Stop n -> active (snd (step c r w)) = active w /\ mode (snd (step c r w)) = mode w.
Proof.
  intros H. destruct c as [k|k|k|k| | | |m]; cbn [WatchModel.step].
  - unfold start. destruct (active w) eqn:E; [|auto]. destruct (take_time _ r); cbn; auto.
  - unfold stop. destruct (active w) eqn:E; [|auto]. destruct (take_time _ r); [|auto]. destruct (records w !! k); cbn; auto.
  - unfold pause. destruct (active w) eqn:E; [|auto]. destruct (records w !! k); cbn; auto.
  - apply reset_mode.
  - destruct H as [[]|[H|H]]; discriminate.
  - destruct H as [[]|[H|H]]; discriminate.
  - destruct H as [[]|[H|H]]; discriminate.
  - destruct H as [[]|[H|H]]; discriminate.
Qed.

(** the record after the laps [l] *)
Definition minStep (mn x : R) : R := if Rleb x mn || (if Req_EM_T mn 0 then true else false) then x else mn.
Definition maxStep (mx x : R) : R := if Rleb mx x then x else mx.
Lemma take_seconds w r : mode w <> NONE -> exists t, take_time w r = Some t /\ forall s, lapseOf cps (mode w) (t - s) = seconds (mode w) r - lapseOf cps (mode w) s.
Proof.
  intros H. unfold take_time, lapseOf, WatchSpec.seconds. destruct (mode w); [congruence| |]; eexists; (split; [reflexivity|]); intros s; [unfold Rdiv; ring|reflexivity].
Qed.
Lemma run_measured n m : m <> NONE -> forall h t l w p, measured m n t h l -> active w = true -> mode w = m -> records w !! n = Some p ->
  lapseOf cps m (clock_start p) = t ->
  exists p', records (run h w) !! n = Some p' /\ active (run h w) = true /\ mode (run h w) = m /\
    total_time p' = total_time p + sum l /\ stops p' = (stops p + length l)%nat /\ last_time p' = List.last l (last_time p) /\
    min_time p' = fold_left minStep l (min_time p) /\ max_time p' = fold_left maxStep l (max_time p).
Proof.
  intros Hm h t l w p H. revert w p. induction H as [t|t r h l H IH|t r h l H IH|t c r h l Ho H IH]; intros w p Ha Hw Hp Ht.
  - exists p. cbn. split_and!; auto; lra.
  - cbn [WatchModel.run fold_left fst snd WatchModel.step]. destruct (take_seconds w r) as (s & Hs & Hl); [congruence|].
    unfold start. rewrite Ha, Hp. change (take_time (putRecord n p w) r) with (take_time w r). rewrite Hs. cbn [snd].
    set (p1 := Perf s (total_time p) (min_time p) (max_time p) (last_time p) (stops p)).
    refine (IH (putRecord n p1 (putRecord n p w)) p1 Ha Hw (put_same _ _ _) _). cbn [clock_start p1]. rewrite Hw in Hl. specialize (Hl 0). rewrite Rminus_0_r in Hl. rewrite Hl.
    unfold lapseOf. destruct m; unfold Rdiv; lra.
  - cbn [WatchModel.run fold_left fst snd WatchModel.step]. destruct (take_seconds w r) as (s & Hs & Hl); [congruence|].
    unfold stop. rewrite Ha, Hs, Hp. cbn [snd].
    destruct (IH (putRecord n (Perf (clock_start p) (total_time p + lapseOf cps (mode w) (s - clock_start p)) (minStep (min_time p) (lapseOf cps (mode w) (s - clock_start p)))
        (maxStep (max_time p) (lapseOf cps (mode w) (s - clock_start p))) (lapseOf cps (mode w) (s - clock_start p)) (S (stops p))) w)
      (Perf (clock_start p) (total_time p + lapseOf cps (mode w) (s - clock_start p)) (minStep (min_time p) (lapseOf cps (mode w) (s - clock_start p)))
        (maxStep (max_time p) (lapseOf cps (mode w) (s - clock_start p))) (lapseOf cps (mode w) (s - clock_start p)) (S (stops p))))
      as (p' & P1 & P2 & P3 & P4 & P5 & P6 & P7 & P8); [exact Ha|exact Hw|apply put_same|exact Ht|].
    cbn [total_time min_time max_time last_time stops] in *. rewrite Hl, Hw, Ht in *.
    exists p'. split; [exact P1|]. split; [exact P2|]. split; [exact P3|]. split; [rewrite P4; change (sum (seconds m r - t :: l)) with ((seconds m r - t) + sum l); lra|]. split; [rewrite P5; cbn; lia|].
    split; [rewrite P6; symmetry; apply last_of|]. split; [exact P7|exact P8].
  - cbn [WatchModel.run fold_left fst snd]. destruct (step_mode n c r w (or_introl Ho)) as [Ea Em].
    apply (IH _ p); [congruence|congruence|rewrite (step_other n) by exact Ho; exact Hp|exact Ht].
Qed.
Lemma max_fold l mx : mx ∈ [mx] ++ l /\ greatest (fold_left maxStep l mx) (mx :: l).
Proof.
  split; [left|]. revert mx. induction l as [|x l IH]; intros mx; cbn [fold_left].
  - split; [left|]. intros y Hy. apply elem_of_list_singleton in Hy as ->. lra.
  - assert (M : maxStep mx x = if Rleb mx x then x else mx) by reflexivity. rewrite M. destruct (IH (if Rleb mx x then x else mx)) as [I1 I2]. destruct (Rleb mx x) eqn:E.
    + apply Rleb_true in E. split; [right; exact I1|]. intros y Hy. apply elem_of_cons in Hy as [->|Hy]; [|apply I2, Hy]. apply Rle_trans with x; [exact E|apply I2; left].
    + apply Rleb_false in E. split; [apply elem_of_cons in I1 as [I1|I1]; [rewrite I1; left|right; right; exact I1]|].
      intros y Hy. apply elem_of_cons in Hy as [->|Hy]; [apply I2; left|]. apply elem_of_cons in Hy as [->|Hy]; [|apply I2; right; exact Hy].
      apply Rle_trans with mx; [lra|apply I2; left].
Qed.
Lemma min_fold l mn : mn > 0 -> (forall y, y ∈ l -> 0 < y) -> least (fold_left minStep l mn) (mn :: l).
Proof.
  revert mn. induction l as [|x l IH]; intros mn Hmn Hl; cbn [fold_left].
  - split; [left|]. intros y Hy. apply elem_of_list_singleton in Hy as ->. lra.
  - assert (Hx : 0 < x) by (apply Hl; left). assert (Hl' : forall y, y ∈ l -> 0 < y) by (intros y Hy; apply Hl; right; exact Hy).
    replace (minStep mn x) with (if Rleb x mn then x else mn).
    2: { unfold minStep. destruct (Req_EM_T mn 0); [lra|]. rewrite orb_false_r. reflexivity. }
    destruct (Rleb x mn) eqn:E.
    + apply Rleb_true in E. destruct (IH x Hx Hl') as [I1 I2]. split; [right; exact I1|].
      intros y Hy. apply elem_of_cons in Hy as [->|Hy]; [|apply I2, Hy]. apply Rle_trans with x; [apply I2; left|exact E].
    + apply Rleb_false in E. destruct (IH mn Hmn Hl') as [I1 I2]. split; [apply elem_of_cons in I1 as [I1|I1]; [rewrite I1; left|right; right; exact I1]|].
      intros y Hy. apply elem_of_cons in Hy as [->|Hy]; [apply I2; left|]. apply elem_of_cons in Hy as [->|Hy]; [|apply I2; right; exact Hy].
      apply Rle_trans with mn; [apply I2; left|lra].
Qed.
Lemma min_first x l : 0 < x -> (forall y, y ∈ l -> 0 < y) -> least (fold_left minStep (x :: l) 0) (x :: l).
Proof.
  intros Hx Hl. cbn [fold_left]. replace (minStep 0 x) with x; [apply min_fold; [lra|exact Hl]|].
  unfold minStep. destruct (Req_EM_T 0 0); [|lra]. rewrite orb_true_r. reflexivity.
Qed.
Lemma min_zero mn l : 0 <= mn -> (forall y, y ∈ l -> 0 <= y) -> fold_left minStep (l ++ [0]) mn = 0.
Proof.
  intros Hmn Hl. rewrite fold_left_app. cbn [fold_left]. set (z := fold_left minStep l mn). assert (Hz : 0 <= z).
  { unfold z. clear z. revert mn Hmn. induction l as [|x l IH]; intros mn Hmn; cbn [fold_left]; [exact Hmn|].
    apply IH; [intros y Hy; apply Hl; right; exact Hy|]. unfold minStep. destruct (_ || _); [apply Hl; left|exact Hmn]. }
  unfold minStep. rewrite (proj2 (Rleb_true 0 z) Hz). reflexivity.
Qed.

(** * The measures *)
Lemma run_start n m h t l w r : m <> NONE -> measured m n t ((Start n, r) :: h) l -> active w = true -> mode w = m -> nothing_yet n w ->
  exists p, records (run ((Start n, r) :: h) w) !! n = Some p /\ total_time p = sum l /\ stops p = length l /\ last_time p = List.last l 0 /\
    min_time p = fold_left minStep l 0 /\ max_time p = fold_left maxStep l 0.
Proof.
  intros Hm H Ha Hw Hn.
  set (w1 := putRecord n newPerf w).
  assert (E : run ((Start n, r) :: h) w = run ((Start n, r) :: h) w1).
  { cbn [WatchModel.run fold_left fst snd WatchModel.step]. f_equal. unfold start. cbn [active putRecord w1]. rewrite Ha.
    replace (match records w !! n with Some p => p | None => newPerf end) with newPerf by (destruct Hn as [->| ->]; reflexivity).
    unfold w1, putRecord. cbn [records active mode]. rewrite ?lookup_insert, ?insert_insert. unfold take_time. cbn [mode]. destruct (mode w); cbn [snd records active mode]; rewrite ?insert_insert; reflexivity. }
  rewrite E.
  assert (H0 : measured m n 0 ((Start n, r) :: h) l).
  { inversion H as [| | |? ? ? ? ? Ho]; subst; [constructor; assumption|]. cbn in Ho. congruence. }
  destruct (run_measured n m Hm _ _ _ w1 newPerf H0) as (p & P1 & _ & _ & P4 & P5 & P6 & P7 & P8); [exact Ha|exact Hw|apply put_same|cbn; destruct m; unfold lapseOf, Rdiv; cbn; lra|].
  exists p. cbn in P4, P5, P6, P7, P8. split_and!; auto. lra.
Qed.
Lemma measures_of n l w p : records w !! n = Some p -> total_time p = sum l -> stops p = length l -> last_time p = List.last l 0 ->
  min_time p = fold_left minStep l 0 -> max_time p = fold_left maxStep l 0 -> measures n l w /\ min_after_zero n l w.
Proof.
  intros E1 E2 E3 E4 E5 E6. unfold measures, min_after_zero, get_total_time, get_last_time, get_average_time, get_max_time, get_min_time. rewrite E1. cbn [fmap option_fmap option_map].
  split.
  - split; [congruence|]. split; [congruence|]. split; [unfold averageOf; rewrite E2, E3; destruct l; reflexivity|]. split.
    + intros H0 Hne. eexists. split; [reflexivity|]. rewrite E6. destruct (max_fold l 0) as [_ [M1 M2]]. split; [|intros y Hy; apply M2; right; exact Hy].
      apply elem_of_cons in M1 as [M1|M1]; [|exact M1]. rewrite M1 in *. destruct l as [|x l]; [congruence|].
      assert (x = 0) as <-; [|left]. apply Rle_antisym; [apply M2; right; left|apply H0; left].
    + intros H0 Hne. eexists. split; [reflexivity|]. rewrite E5. destruct l as [|x l]; [congruence|]. apply min_first; [apply H0; left|]. intros y Hy. apply H0. right. exact Hy.
  - intros l1 l2 -> H1 H2. rewrite E5. replace (l1 ++ 0 :: l2) with ((l1 ++ [0]) ++ l2) by (rewrite <- app_assoc; reflexivity).
    rewrite fold_left_app, (min_zero 0 l1 (Rle_refl 0) H1). destruct l2 as [|x l2]; [reflexivity|]. eexists. split; [reflexivity|].
    apply min_first; [apply H2; left|]. intros y Hy. apply H2. right. exact Hy.
Qed.
Lemma measure n m h t l w r : m <> NONE -> measured m n t ((Start n, r) :: h) l -> active w = true -> mode w = m -> nothing_yet n w ->
  measures n l (run ((Start n, r) :: h) w).
Proof. intros Hm H Ha Hw Hn. destruct (run_start n m h t l w r Hm H Ha Hw Hn) as (p & E1 & E2 & E3 & E4 & E5 & E6). eapply measures_of; eassumption. Qed.
Lemma min_forgets n m h t l w r : m <> NONE -> measured m n t ((Start n, r) :: h) l -> active w = true -> mode w = m -> nothing_yet n w ->
  min_after_zero n l (run ((Start n, r) :: h) w).
Proof. intros Hm H Ha Hw Hn. destruct (run_start n m h t l w r Hm H Ha Hw Hn) as (p & E1 & E2 & E3 & E4 & E5 & E6). eapply measures_of; eassumption. Qed.
(** a stop right after a reset measures from the origin of times *)
Lemma after_reset n m h l w : m <> NONE -> measured m n 0 h l -> active w = true -> mode w = m -> records w !! n = Some newPerf -> measures n l (run h w).
Proof.
  intros Hm H Ha Hw Hn. destruct (run_measured n m Hm _ _ _ w newPerf H) as (p & P1 & _ & _ & P4 & P5 & P6 & P7 & P8); [exact Ha|exact Hw|exact Hn|cbn; destruct m; unfold lapseOf, Rdiv; cbn; lra|].
  cbn in P4, P5, P6, P7, P8. eapply measures_of; try eassumption. lra.
Qed.
Lemma laps_nonneg n m h t l s : measured m n t h l -> t <= s -> forward cps m s h -> forall y, y ∈ l -> 0 <= y.
Proof.
  intros H. revert s. induction H as [t|t r h l H IH|t r h l H IH|t c r h l Ho H IH]; intros s Hs Hf y Hy; cbn [forward] in Hf.
  - inversion Hy.
  - apply (IH (seconds m r)); [lra|apply Hf|exact Hy].
  - destruct Hf as [F1 F2]. apply elem_of_cons in Hy as [->|Hy]; [lra|]. apply (IH (seconds m r)); [lra|exact F2|exact Hy].
  - apply (IH (seconds m r)); [destruct Hf; lra|apply Hf|exact Hy].
Qed.
Lemma some_measure n m : forall h t, Forall (fun cr => other n (fst cr) \/ fst cr = Start n \/ fst cr = Stop n) h -> exists l, measured m n t h l.
Proof.
  induction h as [|[c r] h IH]; intros t H; [exists []; constructor|]. inversion H as [|? ? Hc Hh]; subst. cbn in Hc. destruct Hc as [Hc|[->| ->]].
  - destruct (IH t Hh) as [l Hl]. exists l. constructor 4; assumption.
  - destruct (IH (seconds m r) Hh) as [l Hl]. exists l. constructor. assumption.
  - destruct (IH t Hh) as [l Hl]. eexists. constructor. eassumption.
Qed.

(** * Pause *)
Lemma pause_ticks n w r1 r2 p : active w = true -> mode w <> NONE -> records w !! n = Some p ->
  let w' := run [(Start n, r1); (Pause n, r2)] w in
  let d := ticks r2 - match mode w with CPU_TIME => ticks r1 | _ => wall r1 end in
  get_total_time n w' = Some (total_time p + d) /\ get_last_time n w' = Some (last_time p + d) /\
  get_min_time n w' = Some (min_time p) /\ get_max_time n w' = Some (max_time p) /\
  get_average_time n w' = Some (match stops p with O => NotFinite | S k => Mean ((total_time p + d) / INR (S k)) end).
Proof.
  intros Ha Hm Hp. destruct w as [a mo rs]. cbn [active mode records] in *. subst a.
  unfold get_total_time, get_last_time, get_min_time, get_max_time, get_average_time.
  assert (E : exists t, match mo with CPU_TIME => ticks r1 | _ => wall r1 end = t /\
    records (run [(Start n, r1); (Pause n, r2)] (Watch true mo rs)) !! n = Some (Perf t (total_time p + (ticks r2 - t)) (min_time p) (max_time p) (last_time p + (ticks r2 - t)) (stops p))).
  { destruct mo; [congruence| |]; (eexists; split; [reflexivity|]);
    unfold WatchModel.run; cbn [fold_left fst snd WatchModel.step]; unfold start; cbn [active records]; rewrite Hp; unfold take_time; cbn [mode putRecord active records snd];
    unfold pause; cbn [active records putRecord]; rewrite lookup_insert; cbn [snd records putRecord clock_start total_time min_time max_time last_time stops]; apply lookup_insert. }
  destruct E as (t & Et & E). cbv zeta. rewrite E, Et. cbn. split_and!; [reflexivity..|]. unfold averageOf. cbn [stops total_time]. destruct (stops p); reflexivity.
Qed.

(** * Off, exceptions, resets, other names *)
Lemma off_step c r w : active w = false -> ~ wakes c -> step c r w = (true, w).
Proof.
  intros Ha Hc. destruct w as [a m rs]. cbn in Ha. subst a. destruct c; cbn; try reflexivity.
  - destruct Hc. left. reflexivity.
  - destruct Hc. right. eauto.
Qed.
Lemma off h w : active w = false -> Forall (fun cr => ~ wakes (fst cr)) h -> run h w = w.
Proof.
  intros Ha H. induction H as [|[c r] h Hc H IH]; [reflexivity|]. cbn [WatchModel.run fold_left fst snd]. cbn in Hc. rewrite off_step by assumption. exact IH.
Qed.
Lemma throws c r w : fst (step c r w) = false <-> fails c w.
Proof.
  unfold fails. destruct c as [n|n|n|n| | | |m]; cbn [WatchModel.step].
  - unfold start, take_time. destruct (active w); [|split; [discriminate|intros [H _]; discriminate]]. rewrite put_mode. destruct (mode w); cbn; split; try discriminate; intros; try split; auto; destruct H; discriminate.
  - unfold stop, take_time. destruct (active w); [|split; [discriminate|intros [H _]; discriminate]]. destruct (mode w).
    + cbn. split; auto.
    + destruct (records w !! n); cbn; split; try discriminate; auto. intros [_ [H|H]]; discriminate.
    + destruct (records w !! n); cbn; split; try discriminate; auto. intros [_ [H|H]]; discriminate.
  - unfold pause. destruct (active w); [|split; [discriminate|intros [H _]; discriminate]]. destruct (records w !! n); cbn; split; try discriminate; auto. intros [_ H]; discriminate.
  - unfold reset. destruct (active w); [|split; [discriminate|intros [H _]; discriminate]]. destruct (records w !! n); cbn; split; try discriminate; auto. intros [_ H]; discriminate.
  - unfold reset_all. destruct (active w); cbn; split; try discriminate; intros [_ []].
  - split; [discriminate|intros [_ []]].
  - split; [discriminate|intros [_ []]].
  - split; [discriminate|intros [_ []]].
Qed.
Lemma off_silent c r w : active w = false -> fst (step c r w) = true.
Proof. intros H. apply not_false_iff_true. intros E. apply throws in E as [E _]. congruence. Qed.
Lemma throw_effect c r w : fst (step c r w) = false ->
  match c with
  | Start n => snd (step c r w) = Watch (active w) (mode w) (<[n := default newPerf (records w !! n)]> (records w))
  | _ => snd (step c r w) = w
  end.
Proof.
  destruct c as [n|n|n|n| | | |m]; cbn [WatchModel.step]; try discriminate.
  - unfold start, take_time. destruct (active w) eqn:Ea; [|discriminate]. rewrite put_mode. destruct (mode w) eqn:Em; cbn; try discriminate. intros _. unfold putRecord. rewrite Ea, Em. destruct (records w !! n); reflexivity.
  - unfold stop. destruct (active w); [|discriminate]. destruct (take_time w r); [|reflexivity]. destruct (records w !! n); [discriminate|reflexivity].
  - unfold pause. destruct (active w); [|discriminate]. destruct (records w !! n); [discriminate|reflexivity].
  - unfold reset. destruct (active w); [|discriminate]. destruct (records w !! n); [discriminate|reflexivity].
  - unfold reset_all. destruct (active w); discriminate.
Qed.
Lemma reset_one n r w : active w = true -> is_Some (records w !! n) -> let w' := snd (step (Reset n) r w) in records w' !! n = Some newPerf /\ active w' = true /\ mode w' = mode w.
Proof. intros Ha [p Hp]. cbn [WatchModel.step]. unfold reset. rewrite Ha, Hp. cbn [snd]. split; [apply put_same|]. split; [exact Ha|reflexivity]. Qed.
Lemma reset_every r w : active w = true -> let w' := snd (step ResetAll r w) in
  active w' = true /\ mode w' = mode w /\ forall n, records w' !! n = (fun _ => newPerf) <$> records w !! n.
Proof.
  intros Ha. cbn [WatchModel.step]. unfold reset_all. rewrite Ha. cbn [snd].
  assert (G : forall ks w0, active w0 = true -> let w1 := fold_left (fun w n => snd (reset n w)) ks w0 in
    active w1 = true /\ mode w1 = mode w0 /\ forall n, records w1 !! n = if bool_decide (n ∈ ks) then (fun _ => newPerf) <$> records w0 !! n else records w0 !! n).
  { induction ks as [|k ks IH]; intros w0 Ha0; cbn [fold_left].
    - split; [exact Ha0|]. split; [reflexivity|]. intros n. rewrite bool_decide_eq_false_2 by (intros H; inversion H). reflexivity.
    - destruct (reset_mode k w0) as [M1 M2]. destruct (IH (snd (reset k w0))) as (I1 & I2 & I3); [congruence|]. split; [exact I1|]. split; [congruence|].
      intros n. rewrite I3. destruct (decide (n = k)) as [->|Hn].
      + assert (Hk : records (snd (reset k w0)) !! k = (fun _ => newPerf) <$> records w0 !! k).
        { unfold reset. rewrite Ha0. destruct (records w0 !! k) eqn:E; [apply put_same|exact E]. }
        rewrite Hk. rewrite (bool_decide_eq_true_2 (k ∈ k :: ks)) by left. destruct (bool_decide (k ∈ ks)); [destruct (records w0 !! k); reflexivity|reflexivity].
      + rewrite reset_other by congruence. replace (bool_decide (n ∈ k :: ks)) with (bool_decide (n ∈ ks)); [reflexivity|].
        apply bool_decide_ext. rewrite elem_of_cons. tauto. }
  destruct (G (skeys (records w)) w Ha) as (G1 & G2 & G3). split; [exact G1|]. split; [exact G2|]. intros n. rewrite G3. case_bool_decide as H; [reflexivity|].
  destruct (records w !! n) eqn:E; [|reflexivity]. destruct H. apply elem_of_skeys. eauto.
Qed.

(** * Reports *)
Lemma report_one n w p : active w = true -> records w !! n = Some p ->
  report n w = Some [Row n (40 - String.length n) (min_time p * 1000)
    (match stops p with O => NotFinite | S _ => Mean (total_time p * 1000 / INR (stops p)) end) (max_time p * 1000) (total_time p * 1000) (stops p)].
Proof. intros Ha Hp. unfold report. rewrite Ha, Hp. reflexivity. Qed.
Lemma report_every w : active w = true -> exists rows, report_all w = Some rows /\
  StronglySorted str_le (map rname rows) /\ NoDup (map rname rows) /\
  (forall n, n ∈ map rname rows <-> is_Some (records w !! n)) /\
  (forall row, row ∈ rows -> report (rname row) w = Some [row]).
Proof.
  intros Ha. unfold report_all. rewrite Ha.
  assert (G : forall ns, (forall n, n ∈ ns -> is_Some (records w !! n)) -> exists rows, reportAll ns w = Some rows /\ map rname rows = ns /\ forall row, row ∈ rows -> report (rname row) w = Some [row]).
  { induction ns as [|n ns IH]; intros H; cbn [reportAll].
    - exists []. split_and!; [reflexivity..|]. intros row Hr. inversion Hr.
    - destruct (H n ltac:(left)) as [p Hp]. rewrite (report_one n w p Ha Hp). destruct IH as (rows & -> & E & Hr); [intros k Hk; apply H; right; exact Hk|].
      eexists. split; [reflexivity|]. cbn [app map rname]. split; [rewrite E; reflexivity|]. intros row Hin. apply elem_of_cons in Hin as [->|Hin]; [|apply Hr, Hin].
      cbn [rname]. apply report_one; assumption. }
  destruct (G (skeys (records w))) as (rows & E & Em & Hr); [intros n Hn; apply elem_of_skeys, Hn|].
  exists rows. rewrite Em. split; [exact E|]. split; [apply skeys_sorted|]. split; [apply skeys_NoDup|]. split; [intros n; apply elem_of_skeys|exact Hr].
Qed.
Lemma report_off w n : active w = false -> report n w = Some [] /\ report_all w = Some [].
Proof. intros Ha. unfold report, report_all. rewrite Ha. auto. Qed.
Lemma so_far n r w p : records w !! n = Some p -> mode w <> NONE ->
  forall r0, lapseOf cps (mode w) (clock_start p) = seconds (mode w) r0 -> get_time_so_far cps n r w = Some (seconds (mode w) r - seconds (mode w) r0).
Proof.
  intros Hp Hm r0 Hc. unfold get_time_so_far. rewrite Hp. destruct (take_seconds w r Hm) as (t & -> & Hl). rewrite Hl, Hc. reflexivity.
Qed.
Lemma so_far_started n r0 r w h : active w = true -> mode w <> NONE -> Forall (fun cr => other n (fst cr) \/ fst cr = Stop n) h ->
  get_time_so_far cps n r (run ((Start n, r0) :: h) w) = Some (seconds (mode w) r - seconds (mode w) r0).
Proof.
  intros Ha Hm H. cbn [WatchModel.run fold_left fst snd WatchModel.step]. set (w1 := snd (start n r0 w)).
  assert (E1 : exists p, records w1 !! n = Some p /\ lapseOf cps (mode w) (clock_start p) = seconds (mode w) r0 /\ mode w1 = mode w).
  { unfold w1, start. rewrite Ha. unfold take_time. rewrite put_mode. destruct (mode w) eqn:Em; [congruence| |]; cbn [snd]; eexists; (split; [apply put_same|]); split; auto; cbn; unfold WatchSpec.seconds, lapseOf; lra. }
  clearbody w1. revert w1 E1. induction H as [|[c r1] h Hc H IH]; intros w1 (p & Hp & Hcl & Hmo); cbn [fold_left fst snd].
  - rewrite <- Hmo in Hm, Hcl |- *. apply (so_far n r w1 p); assumption.
  - cbn in Hc. apply IH. destruct (step_mode n c r1 w1) as [_ M2]; [tauto|]. destruct Hc as [Hc| ->].
    + exists p. rewrite (step_other n) by exact Hc. split; [exact Hp|]. split; [exact Hcl|congruence].
    + cbn [WatchModel.step] in *. unfold stop in *. destruct (active w1); [|eauto]. destruct (take_time w1 r1); [|eauto]. rewrite Hp in *. cbn [snd] in *. eexists. split; [apply put_same|]. split; [exact Hcl|congruence].
Qed.
End W.

(** * Counts *)
Lemma add_lookup e k nb m : add_to_count e nb m !! k = if bool_decide (e = k) then Some (default 0%Z (m !! k) + nb)%Z else m !! k.
Proof.
  unfold add_to_count. case_bool_decide as H.
  - subst k. destruct (m !! e); rewrite lookup_insert; reflexivity.
  - destruct (m !! e); apply lookup_insert_ne; exact H.
Qed.
Lemma counts h m k : addAll h m !! k = if bool_decide (k ∈ map fst h) then Some (default 0 (m !! k) + occurrences k h)%Z else m !! k.
Proof.
  revert m. induction h as [|[e nb] h IH]; intros m; cbn [addAll fold_left map fst snd].
  - rewrite bool_decide_eq_false_2 by (intros H; inversion H). reflexivity.
  - change (fold_left _ h ?m0) with (addAll h m0). rewrite IH, add_lookup. cbn [occurrences fold_right fst snd]. change (fold_right _ 0%Z h) with (occurrences k h).
    destruct (decide (e = k)) as [->|Hne].
    + rewrite !(bool_decide_eq_true_2 (k = k)) by reflexivity. rewrite (bool_decide_eq_true_2 (k ∈ k :: map fst h)) by left. cbn [default].
      case_bool_decide as H; [f_equal; cbn; lia|]. f_equal. assert (occurrences k h = 0%Z) as ->; [|lia].
      clear -H. induction h as [|[e' nb'] h IH]; [reflexivity|]. cbn [map fst] in H. rewrite not_elem_of_cons in H. cbn. rewrite bool_decide_eq_false_2 by naive_solver. change (fold_right _ 0%Z h) with (occurrences k h). rewrite IH by tauto. reflexivity.
    + rewrite !(bool_decide_eq_false_2 (e = k)) by exact Hne. replace (bool_decide (k ∈ e :: map fst h)) with (bool_decide (k ∈ map fst h)) by (apply bool_decide_ext; rewrite elem_of_cons; naive_solver).
      case_bool_decide; [f_equal; lia|reflexivity].
Qed.
Lemma count_report m : StronglySorted str_le (map fst (report_count m)) /\ forall e k, (e, k) ∈ report_count m <-> m !! e = Some k.
Proof.
  unfold report_count. split.
  - replace (map fst _) with (skeys m); [apply skeys_sorted|].
    assert (G : forall ns, (forall n, n ∈ ns -> is_Some (m !! n)) -> map fst (omap (fun n => match m !! n with Some k => Some (n, k) | None => None end) ns) = ns).
    { induction ns as [|n ns IH]; intros H; [reflexivity|]. cbn. destruct (H n ltac:(left)) as [k ->]. cbn. f_equal. apply IH. intros x Hx. apply H. right. exact Hx. }
    symmetry. apply G. intros n Hn. apply elem_of_skeys, Hn.
  - intros e k. rewrite elem_of_list_omap. split.
    + intros (n & Hn & H). destruct (m !! n) eqn:E; [|discriminate]. injection H as <- <-. exact E.
    + intros H. exists e. split; [apply elem_of_skeys; eauto|]. rewrite H. reflexivity.
Qed.
