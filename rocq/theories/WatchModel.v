(** Model of src/utils/stop-watch.cc (declared in include/hpp/rbprm/utils/stop-watch.hh) and of
    include/hpp/rbprm/rbprm-profiler.hh: measures of durations and counts of events by name.
    Exact reals for long double; the numbers of stops and of events do not overflow.  Not
    modelled: the functions that return the two static objects (stop-watch.cc:45-48,
    rbprm-profiler.cc:9-12), the Windows branch, the messages of turn_on and turn_off, the
    digits printed (the numbers are kept).  PerformanceData::paused is never true and never
    read: it is left out. *)
From Coq Require Import Reals ZArith.
From stdpp Require Import gmap strings.
From Verif Require Import Maps Vec.
Local Open Scope R_scope.

(** what a call sees of the system: gettimeofday in seconds, clock() in ticks *)
Record reading := Rd { wall : R; ticks : R }.
(** stop-watch.hh:44-49 *)
Inductive watchMode := NONE | CPU_TIME | REAL_TIME.
(** stop-watch.hh:208-239 *)
Record perf := Perf { clock_start : R; total_time : R; min_time : R; max_time : R; last_time : R; stops : nat }.
Definition newPerf : perf := Perf 0 0 0 0 0 0.
(** stop-watch.hh:241-249 *)
Record watch := Watch { active : bool; mode : watchMode; records : gmap string perf }.
(** stop-watch.cc:50-52 *)
Definition newWatch (m : watchMode) : watch := Watch true m ∅.

Section watch.
(** CLOCKS_PER_SEC *)
Variable cps : R.

(** stop-watch.cc:58-60 *)
Definition performance_exists (n : string) (w : watch) : bool := bool_decide (is_Some (records w !! n)).
(** stop-watch.cc:62-102: [None]: StopwatchException *)
Definition take_time (w : watch) (r : reading) : option R :=
  match mode w with CPU_TIME => Some (ticks r) | REAL_TIME => Some (wall r) | NONE => None end.
(** stop-watch.cc:136, 257 *)
Definition lapseOf (m : watchMode) (d : R) : R := match m with CPU_TIME => d / cps | _ => d end.

(** the calls that change the watch (stop-watch.hh:75-200) *)
Inductive call := Start (n : string) | Stop (n : string) | Pause (n : string) | Reset (n : string)
  | ResetAll | TurnOn | TurnOff | SetMode (m : watchMode).
Definition putRecord (n : string) (p : perf) (w : watch) : watch := Watch (active w) (mode w) (<[n := p]> (records w)).

(** stop-watch.cc:104-120: the record is inserted before the time is taken *)
Definition start (n : string) (r : reading) (w : watch) : bool * watch :=
  if active w then
    let p := match records w !! n with Some p => p | None => newPerf end in
    let w1 := putRecord n p w in
    match take_time w1 r with
    | Some t => (true, putRecord n (Perf t (total_time p) (min_time p) (max_time p) (last_time p) (stops p)) w1)
    | None => (false, w1)
    end
  else (true, w).
(** stop-watch.cc:122-148 *)
Definition stop (n : string) (r : reading) (w : watch) : bool * watch :=
  if active w then
    match take_time w r with
    | None => (false, w)
    | Some t =>
      match records w !! n with
      | None => (false, w)
      | Some p =>
        let lapse := lapseOf (mode w) (t - clock_start p) in
        let mx := if Rleb (max_time p) lapse then lapse else max_time p in
        let mn := if Rleb lapse (min_time p) || (if Req_EM_T (min_time p) 0 then true else false) then lapse else min_time p in
        (true, putRecord n (Perf (clock_start p) (total_time p + lapse) mn mx lapse (S (stops p))) w)
      end
    end
  else (true, w).
(** stop-watch.cc:150-166: clock() whatever the mode, and in ticks *)
Definition pause (n : string) (r : reading) (w : watch) : bool * watch :=
  if active w then
    match records w !! n with
    | None => (false, w)
    | Some p =>
      let lapse := ticks r - clock_start p in
      (true, putRecord n (Perf (clock_start p) (total_time p + lapse) (min_time p) (max_time p) (last_time p + lapse) (stops p)) w)
    end
  else (true, w).
(** stop-watch.cc:189-205 *)
Definition reset (n : string) (w : watch) : bool * watch :=
  if active w then
    match records w !! n with
    | None => (false, w)
    | Some _ => (true, putRecord n newPerf w)
    end
  else (true, w).
(** stop-watch.cc:168-176: the iteration over the map; reset of a name of the map does not throw *)
Definition reset_all (w : watch) : bool * watch :=
  if active w then (true, fold_left (fun w n => snd (reset n w)) (skeys (records w)) w) else (true, w).

(** one call: whether it returns without exception, and the watch after it (stop-watch.cc:62-205) *)
Definition step (c : call) (r : reading) (w : watch) : bool * watch :=
  match c with
  | Start n => start n r w
  | Stop n => stop n r w
  | Pause n => pause n r w
  | Reset n => reset n w
  | ResetAll => reset_all w
  | TurnOn => (true, Watch true (mode w) (records w))
  | TurnOff => (true, Watch false (mode w) (records w))
  | SetMode m => (true, Watch (active w) m (records w))
  end.
(** a history of calls, the caller going on after an exception (stop-watch.cc:62-205) *)
Definition run (h : list (call * reading)) (w : watch) : watch := fold_left (fun w cr => snd (step (fst cr) (snd cr) w)) h w.

(** stop-watch.cc:249-310: the getters do not look at [active]; [None]: StopwatchException *)
Definition get_time_so_far (n : string) (r : reading) (w : watch) : option R :=
  match records w !! n with
  | None => None
  | Some p => match take_time w r with Some t => Some (lapseOf (mode w) (t - clock_start p)) | None => None end
  end.
Definition get_total_time (n : string) (w : watch) : option R := total_time <$> records w !! n.
Definition get_min_time (n : string) (w : watch) : option R := min_time <$> records w !! n.
Definition get_max_time (n : string) (w : watch) : option R := max_time <$> records w !! n.
Definition get_last_time (n : string) (w : watch) : option R := last_time <$> records w !! n.
(** total divided by the number of stops; by zero: infinite or not a number (stop-watch.cc:122-205) *)
Inductive average := Mean (x : R) | NotFinite.
Definition averageOf (p : perf) : average := match stops p with O => NotFinite | S _ => Mean (total_time p / INR (stops p)) end.
Definition get_average_time (n : string) (w : watch) : option average := averageOf <$> records w !! n.

(** stop-watch.cc:217-247: one line: the name, padded to 40 characters, and milliseconds *)
Record row := Row { rname : string; rpad : nat; rmin : R; ravg : average; rmax : R; rtotal : R; rstops : nat }.
Definition report (n : string) (w : watch) : option (list row) :=
  if active w then
    match records w !! n with
    | None => None
    | Some p => Some [Row n (40 - String.length n) (min_time p * 1000)
                        (match stops p with O => NotFinite | S _ => Mean (total_time p * 1000 / INR (stops p)) end)
                        (max_time p * 1000) (total_time p * 1000) (stops p)]
    end
  else Some [].
(** stop-watch.cc:178-187 *)
Fixpoint reportAll (ns : list string) (w : watch) : option (list row) :=
  match ns with
  | [] => Some []
  | n :: ns' => match report n w, reportAll ns' w with Some a, Some b => Some (a ++ b) | _, _ => None end
  end.
Definition report_all (w : watch) : option (list row) := if active w then reportAll (skeys (records w)) w else Some [].
End watch.

(** * rbprm-profiler.hh:40-64 *)
Definition add_to_count (e : string) (nb : Z) (m : gmap string Z) : gmap string Z :=
  match m !! e with None => <[e := nb]> m | Some k => <[e := (k + nb)%Z]> m end.
Definition addAll (h : list (string * Z)) (m : gmap string Z) : gmap string Z := fold_left (fun m en => add_to_count (fst en) (snd en) m) h m.
Definition report_count (m : gmap string Z) : list (string * Z) :=
  omap (fun n => match m !! n with Some k => Some (n, k) | None => None end) (skeys m).
