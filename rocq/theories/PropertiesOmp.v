(** C136, with the accesses of the threads interleaved (time-constraint-helper.inl:295-347). *)
From Coq Require Import Reals Lra Lia.
From Verif Require Import SampModel TrajModel TrajSpec.
From Verif Require Import Maps Vec StateModel StateSpec StateReal ProjModel ProjSpec InterModel InterSpec
  InterProofs InterProofs2 ProjExamples InterExamples OmpModel OmpProofs.
Local Open Scope nat_scope.

Section P.
Variables P E : Type.
Variable B : fullbody.
Variable cur : list R.
Variable solve : nat -> nat -> rrtProblem P -> solveResult E.
Variables randomShortcut partialShortcut : nat -> nat -> nat -> rrtProblem P -> list E -> outcome (list E).
Variables (sf : shooterFactory P) (cf : constraintFactory P) (th : R) (maxIter numOpt : nat).
Variable X : Type.
Variable get : X -> PSt.
Variable getPath : X -> X -> outcome P.
Notation Inter := (@interpolate P E B cur solve randomShortcut partialShortcut X sf cf th maxIter numOpt get getPath).
Notation Interleaved := (interleaved P E B cur solve randomShortcut partialShortcut sf cf th maxIter numOpt X get getPath).
Notation Defined_calls := (defined_calls P E cur randomShortcut partialShortcut cf X get getPath).

(** C136.  However the accesses of the threads to the two arrays they share are interleaved, and
    whatever the array of flags contains before the first attempt, a call ends as the loop in
    any order does. *)
Theorem C136_interleaved keep states sched f o : fair (length states - 1) sched -> Defined_calls states ->
  Interleaved keep states f o -> forall fuel, f <= fuel -> Inter keep states fuel sched = Some o.
Proof. exact (interleaved_same P E B cur solve randomShortcut partialShortcut sf cf th maxIter numOpt X get getPath states keep sched f o). Qed.
(** hence two executions end the same way *)
Theorem C136_same_end keep states f1 o1 f2 o2 : Defined_calls states ->
  Interleaved keep states f1 o1 -> Interleaved keep states f2 o2 -> o1 = o2.
Proof. exact (interleaved_unique P E B cur solve randomShortcut partialShortcut sf cf th maxIter numOpt X get getPath states keep f1 o1 f2 o2). Qed.
(** and each end of the loop in order is one of an interleaved execution *)
Theorem C136_interleaved_exists keep states sched fuel o : fair (length states - 1) sched -> Defined_calls states ->
  Inter keep states fuel sched = Some o -> exists f, f <= fuel /\ Interleaved keep states f o.
Proof. exact (interleaved_exists P E B cur solve randomShortcut partialShortcut sf cf th maxIter numOpt X get getPath states keep sched fuel o). Qed.
End P.
(** one attempt never hangs: it makes at most three accesses per iteration, and wherever it is it
    can go on to its end *)
Theorem C136_loop_ends L ans n k m tr c : begun L ans k (replicate n Todo, m) tr c ->
  length tr <= 3 * n /\ exists o, region L ans k c o.
Proof. exact (loop_ends L ans n k m tr c). Qed.
Print Assumptions C136_interleaved.
Print Assumptions C136_same_end.
Print Assumptions C136_interleaved_exists.
Print Assumptions C136_loop_ends.

(** three states: an interleaved execution ends with the path *)
Example C136_interleaved_case keep : fair (length istates - 1) isched2 /\
  defined_calls unit iE icur ishort ishort (contactsOnly unit) PSt (fun s => s) ipath istates /\
  exists f, f <= 2 /\ interleaved unit iE ebody icur isolve ishort ishort (LimbShooter unit) (contactsOnly unit) (1/1000) 0 3 PSt (fun s => s) ipath
    keep istates f (IPath iE (iresult keep)).
Proof.
  split; [exact ifair2|]. split; [exact idefined|].
  exact (C136_interleaved_exists unit iE ebody icur isolve ishort ishort (LimbShooter unit) (contactsOnly unit) (1/1000) 0 3 PSt (fun s => s) ipath
    keep istates isched2 2 _ ifair2 idefined (ex_other_order keep)).
Qed.
(** two iterations, the writes of the second one between those of the first one *)
Example C136_loop_case v0 v1 : exists o, region nat twoAns 0 (replicate 2 Todo, Mem [None; None] [v0; v1]) o /\
  o = Ok (Mem [Some 10; Some 11] [true; true]) /\
  exists c, begun nat twoAns 0 (replicate 2 Todo, Mem [None; None] [v0; v1]) [1; 0; 0; 1] c /\ fst c = [Stored; Stored].
Proof. exact (two_mixed v0 v1). Qed.
