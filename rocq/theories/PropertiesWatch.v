(** C148-C153: the profiler (stop-watch.cc, rbprm-profiler.hh). *)
From Coq Require Import Reals ZArith Lra Lia.
From stdpp Require Import gmap strings.
From Verif Require Import Maps WatchModel WatchSpec WatchProofs WatchExamples.
Local Open Scope R_scope.

Section P.
(** CLOCKS_PER_SEC *)
Variable cps : R.

(** C148.  After any history of starts and stops, mixed with calls for other names, the getters
    return sum, mean, last, least and greatest of the durations measured. *)
Theorem C148_measures n m h t l w r : m <> NONE -> measured cps m n t ((Start n, r) :: h) l ->
  active w = true -> mode w = m -> nothing_yet n w -> measures n l (run cps ((Start n, r) :: h) w).
Proof. exact (measure cps n m h t l w r). Qed.
Theorem C148_any_history n m h t : Forall (fun cr => other n (fst cr) \/ fst cr = Start n \/ fst cr = Stop n) h ->
  exists l, measured cps m n t h l.
Proof. exact (some_measure cps n m h t). Qed.
Theorem C148_nonnegative n m h t l s : measured cps m n t h l -> t <= s -> forward cps m s h -> forall y, y ∈ l -> 0 <= y.
Proof. exact (laps_nonneg cps n m h t l s). Qed.
Theorem C148_so_far n r0 r w h : active w = true -> mode w <> NONE -> Forall (fun cr => other n (fst cr) \/ fst cr = Stop n) h ->
  get_time_so_far cps n r (run cps ((Start n, r0) :: h) w) = Some (seconds cps (mode w) r - seconds cps (mode w) r0).
Proof. exact (so_far_started cps n r0 r w h). Qed.

(** C149.  A duration of zero erases the minimum: what is returned is the least of the durations
    measured after it. *)
Theorem C149_zero n m h t l w r : m <> NONE -> measured cps m n t ((Start n, r) :: h) l ->
  active w = true -> mode w = m -> nothing_yet n w -> min_after_zero n l (run cps ((Start n, r) :: h) w).
Proof. exact (min_forgets cps n m h t l w r). Qed.

(** C150.  Exceptions: exactly in these cases, and without any effect but that a start without
    clock creates the record. *)
Theorem C150_throws c r w : fst (step cps c r w) = false <-> fails c w.
Proof. exact (throws cps c r w). Qed.
Theorem C150_effect c r w : fst (step cps c r w) = false ->
  match c with
  | Start n => snd (step cps c r w) = Watch (active w) (mode w) (<[n := default newPerf (records w !! n)]> (records w))
  | _ => snd (step cps c r w) = w
  end.
Proof. exact (throw_effect cps c r w). Qed.

(** C151.  A pause adds the ticks of the processor clock, from the start in the unit of the mode:
    ticks less seconds of real time, or ticks in place of seconds; it is not counted as a stop. *)
Theorem C151_pause n w r1 r2 p : active w = true -> mode w <> NONE -> records w !! n = Some p ->
  let w' := run cps [(Start n, r1); (Pause n, r2)] w in
  let d := ticks r2 - match mode w with CPU_TIME => ticks r1 | _ => wall r1 end in
  get_total_time n w' = Some (total_time p + d) /\ get_last_time n w' = Some (last_time p + d) /\
  get_min_time n w' = Some (min_time p) /\ get_max_time n w' = Some (max_time p) /\
  get_average_time n w' = Some (match stops p with O => NotFinite | S k => Mean ((total_time p + d) / INR (S k)) end).
Proof. exact (pause_ticks cps n w r1 r2 p). Qed.

(** C152.  Resets; a watch that is off; independence of the names. *)
Theorem C152_reset n r w : active w = true -> is_Some (records w !! n) ->
  let w' := snd (step cps (Reset n) r w) in records w' !! n = Some newPerf /\ active w' = true /\ mode w' = mode w.
Proof. exact (reset_one cps n r w). Qed.
Theorem C152_reset_all r w : active w = true -> let w' := snd (step cps ResetAll r w) in
  active w' = true /\ mode w' = mode w /\ forall n, records w' !! n = (fun _ => newPerf) <$> records w !! n.
Proof. exact (reset_every cps r w). Qed.
(** after a reset a stop without start measures the time from the origin *)
Theorem C152_after_reset n m h l w : m <> NONE -> measured cps m n 0 h l -> active w = true -> mode w = m ->
  records w !! n = Some newPerf -> measures n l (run cps h w).
Proof. exact (after_reset cps n m h l w). Qed.
Theorem C152_off h w : active w = false -> Forall (fun cr => ~ wakes (fst cr)) h -> run cps h w = w.
Proof. exact (off cps h w). Qed.
Theorem C152_off_silent c r w : active w = false -> fst (step cps c r w) = true.
Proof. exact (off_silent cps c r w). Qed.
Theorem C152_other n c r w : other n c -> records (snd (step cps c r w)) !! n = records w !! n.
Proof. exact (step_other cps n c r w). Qed.
End P.

(** C153.  Reports: one line per name, in alphabetical order, in milliseconds; counts of events. *)
Theorem C153_report n w p : active w = true -> records w !! n = Some p ->
  report n w = Some [Row n (40 - String.length n) (min_time p * 1000)
    (match stops p with O => NotFinite | S _ => Mean (total_time p * 1000 / INR (stops p)) end) (max_time p * 1000) (total_time p * 1000) (stops p)].
Proof. exact (report_one n w p). Qed.
Theorem C153_report_all w : active w = true -> exists rows, report_all w = Some rows /\
  StronglySorted str_le (map rname rows) /\ NoDup (map rname rows) /\
  (forall n, n ∈ map rname rows <-> is_Some (records w !! n)) /\
  (forall row, row ∈ rows -> report (rname row) w = Some [row]).
Proof. exact (report_every w). Qed.
Theorem C153_off w n : active w = false -> report n w = Some [] /\ report_all w = Some [].
Proof. exact (report_off w n). Qed.
Theorem C153_counts h m k :
  addAll h m !! k = if bool_decide (k ∈ map fst h) then Some (default 0 (m !! k) + occurrences k h)%Z else m !! k.
Proof. exact (counts h m k). Qed.
Theorem C153_report_count m : StronglySorted str_le (map fst (report_count m)) /\ forall e k, (e, k) ∈ report_count m <-> m !! e = Some k.
Proof. exact (count_report m). Qed.
Print Assumptions C148_measures.
Print Assumptions C148_any_history.
Print Assumptions C148_nonnegative.
Print Assumptions C148_so_far.
Print Assumptions C149_zero.
Print Assumptions C150_throws.
Print Assumptions C150_effect.
Print Assumptions C151_pause.
Print Assumptions C152_reset.
Print Assumptions C152_reset_all.
Print Assumptions C152_after_reset.
Print Assumptions C152_off.
Print Assumptions C152_off_silent.
Print Assumptions C152_other.
Print Assumptions C153_report.
Print Assumptions C153_report_all.
Print Assumptions C153_off.
Print Assumptions C153_counts.
Print Assumptions C153_report_count.

Example C148_case : measured 1000 REAL_TIME "a" 0 wh [3 - 1; 5 - 4] /\ measured 1000 CPU_TIME "a" 0 wh [3000 / 1000 - 1000 / 1000; 5000 / 1000 - 4000 / 1000] /\
  forward 1000 REAL_TIME 0 wh /\ nothing_yet "a" (newWatch REAL_TIME).
Proof. split; [exact wh_measured|]. split; [exact wh_measured_cpu|]. split; [exact wh_forward|left; reflexivity]. Qed.
(** durations 3, 0 and 2: the minimum is 2 *)
Example C149_case : measured 1000 REAL_TIME "a" 0 wz [4 - 1; 5 - 5; 7 - 5] /\ get_min_time "a" (run 1000 wz (newWatch REAL_TIME)) = Some (7 - 5).
Proof. exact (conj wz_measured wz_min). Qed.
Example C150_case : fails (Start "a") (newWatch NONE) /\ fails (Stop "a") (newWatch REAL_TIME) /\ ~ fails (Start "a") (newWatch REAL_TIME).
Proof. split; [split; reflexivity|]. split; [split; [reflexivity|right; reflexivity]|]. intros [_ H]. discriminate. Qed.
Example C151_case : exists p, records ww !! "a"%string = Some p /\ stops p = 2%nat /\ active ww = true /\ mode ww = REAL_TIME.
Proof. exact ww_exists. Qed.
Example C152_case : Forall (fun cr => ~ wakes (fst cr)) wh /\ active (Watch false REAL_TIME ∅) = false /\ other "a" (Start "b").
Proof. split; [unfold wh; repeat constructor; intros [H|[m H]]; discriminate|]. split; [reflexivity|discriminate]. Qed.
Example C153_case : addAll [("x", 2); ("y", 1); ("x", 3)]%Z ∅ !! "x"%string = Some 5%Z /\ addAll [("x", 2); ("y", 1); ("x", 3)]%Z ∅ !! "z"%string = None.
Proof. split; reflexivity. Qed.
