(** Vocabulary of the properties of the profiler. *)
From Coq Require Import Reals ZArith.
From stdpp Require Import gmap strings.
From Verif Require Export Maps WatchModel.
Local Open Scope R_scope.

(** a call that does not concern the name [n] nor the whole watch *)
Definition other (n : string) (c : call) : Prop :=
  match c with Start k | Stop k | Pause k | Reset k => k <> n | _ => False end.
(** the time in seconds, in a mode *)
Definition seconds (cps : R) (m : watchMode) (r : reading) : R :=
  match m with CPU_TIME => ticks r / cps | _ => wall r end.
(** [measured n t h l]: the durations measured for [n] along the history [h], the last start
    before it being at time [t]: those from each stop back to the last start *)
Inductive measured (cps : R) (m : watchMode) (n : string) : R -> list (call * reading) -> list R -> Prop :=
| me_nil t : measured cps m n t [] []
| me_start t r h l : measured cps m n (seconds cps m r) h l -> measured cps m n t ((Start n, r) :: h) l
| me_stop t r h l : measured cps m n t h l -> measured cps m n t ((Stop n, r) :: h) ((seconds cps m r - t) :: l)
| me_other t c r h l : other n c -> measured cps m n t h l -> measured cps m n t ((c, r) :: h) l.
(** nothing measured yet: a name never started, or reset *)
Definition nothing_yet (n : string) (w : watch) : Prop := records w !! n = None \/ records w !! n = Some newPerf.
Definition sum (l : list R) : R := fold_right Rplus 0 l.
Definition greatest (x : R) (l : list R) : Prop := x ∈ l /\ forall y, y ∈ l -> y <= x.
Definition least (x : R) (l : list R) : Prop := x ∈ l /\ forall y, y ∈ l -> x <= y.
(** times that do not decrease, from [t] on *)
Fixpoint forward (cps : R) (m : watchMode) (t : R) (h : list (call * reading)) : Prop :=
  match h with [] => True | (_, r) :: h' => t <= seconds cps m r /\ forward cps m (seconds cps m r) h' end.
(** calls that do something when the watch is off *)
Definition wakes (c : call) : Prop := c = TurnOn \/ exists m, c = SetMode m.
(** the conditions of an exception *)
Definition fails (c : call) (w : watch) : Prop :=
  active w = true /\
  match c with
  | Start n => mode w = NONE
  | Stop n => mode w = NONE \/ records w !! n = None
  | Pause n | Reset n => records w !! n = None
  | _ => False
  end.
(** the number of occurrences declared for an event *)
Definition occurrences (e : string) (h : list (string * Z)) : Z :=
  fold_right (fun en s => (if bool_decide (fst en = e) then snd en else 0) + s)%Z 0%Z h.
(** what the getters return after the durations [l] *)
Definition measures (n : string) (l : list R) (w : watch) : Prop :=
  get_total_time n w = Some (sum l) /\
  get_last_time n w = Some (List.last l 0) /\
  get_average_time n w = Some (match l with [] => NotFinite | _ => Mean (sum l / INR (length l)) end) /\
  ((forall y, y ∈ l -> 0 <= y) -> l <> [] -> exists x, get_max_time n w = Some x /\ greatest x l) /\
  ((forall y, y ∈ l -> 0 < y) -> l <> [] -> exists x, get_min_time n w = Some x /\ least x l).
(** the minimum forgets everything up to a duration of zero *)
Definition min_after_zero (n : string) (l : list R) (w : watch) : Prop :=
  forall l1 l2, l = l1 ++ 0 :: l2 -> (forall y, y ∈ l1 -> 0 <= y) -> (forall y, y ∈ l2 -> 0 < y) ->
    match l2 with [] => get_min_time n w = Some 0 | _ => exists x, get_min_time n w = Some x /\ least x l2 end.
