(** Model of the path optimizers: src/planner/random-shortcut-dynamic.cc (optimize, steer)
    and src/planner/oriented-path-optimizer.cc (optimize, checkReplaceOrientation).
    Doubles are reals; the paths, the steering method, the projector and the path
    validation are those of hpp-core: parameters. *)
From Coq Require Import Reals ZArith.
From Verif Require Export Maps Vec.
Local Open Scope R_scope.

(** sequencing of C++ calls that may throw (used for random-shortcut-dynamic.cc:107-242) *)
Definition ubind {A B} (o : outcome A) (f : A -> outcome B) : outcome B :=
  match o with Ok a => f a | Throw => Throw | Ub => Ub end.

(** Configuration_t::operator== (used at random-shortcut-dynamic.cc:134-231) *)
Fixpoint ceqb (a b : list R) : bool :=
  match a, b with
  | [], [] => true
  | x :: a, y :: b => Reqb x y && ceqb a b
  | _, _ => false
  end.

Section Shortcut.
(** the elements of a path vector (core::Path): first and last configurations, length *)
Variable E : Type.
Variables (einit eend : E -> list R) (elen : E -> R).
(** core::PathVector::operator() (None: the configuration could not be projected) and
    extract (None: core::projection_error) *)
Variable evalAt : list E -> R -> option (list R).
Variable extract : list E -> R -> R -> option (list E).
(** the kinodynamic steering method, called with a node built from the contacts at q1, the
    path projector of the problem (None: the problem has none), the path validation *)
Variable sm : list R -> list R -> option E.
Variable projector : option (E -> option E).
Variable validate : E -> bool.

(** random-shortcut-dynamic.cc:90-105 and core::PathVector::length: the time range of a path
    vector is [0, sum of the lengths of its elements]; both variants of PathLength are that
    sum *)
Definition pvlen (p : list E) : R := foldr (fun e s => elen e + s) 0 p.

(** random-shortcut-dynamic.cc:244-281, and oriented-path-optimizer.cc:232-266 which is the same (the contacts computed at q1 are an input of [sm]) *)
Definition steer (q1 q2 : list R) : option E :=
  match sm q1 q2 with
  | None => None
  | Some dp =>
      if negb (ceqb (einit dp) q1) || negb (ceqb (eend dp) q2) then None
      else if Rleb (elen dp) (1 / 1000) then None
      else match projector with None => Some dp | Some apply => apply dp end
  end.

(** random-shortcut-dynamic.cc:137-153.  [rs]: the values rand()/RAND_MAX still to come;
    None: they are exhausted and the loop is still running *)
Fixpoint sample (m t3 : R) (rs : list R) : option (R * R * list R) :=
  match rs with
  | r2 :: r1 :: rs' =>
      let u2 := 0 + m + (t3 - 0 - 2 * m) * r2 in
      let u1 := 0 + m + (t3 - 0 - 2 * m) * r1 in
      let '(t1, t2) := if Rltb u1 u2 then (u1, u2) else (u2, u1) in
      if Rltb (t1 - 0) m || Rltb (t3 - t2) m || Rltb (t2 - t1) m then sample m t3 rs'
      else Some (t1, t2, rs')
  | _ => None
  end.

(** random-shortcut-dynamic.cc:174-189, one iteration: Some s when valid[i] (s = straight[i]).
    The exception of extract is not caught there *)
Definition testPart (p : list E) (q q' : list R) (t t' : R) : outcome (option E) :=
  match steer q q' with
  | None => Ok None
  | Some s =>
      match extract p t t' with
      | None => Throw
      | Some part =>
          if Rltb (elen s) (pvlen part) then (if validate s then Ok (Some s) else Ok None)
          else Ok None
      end
  end.

(** The path vectors are shared objects: [heap] gives the contents of each; the argument of
    optimize is object 0 (random-shortcut-dynamic.cc:107-242) *)
Notation heap := (list (list E)).
Definition contents (h : heap) (a : nat) : list E := default [] (h !! a).
Definition appendTo (h : heap) (a : nat) (es : list E) : heap := alter (fun p => (p ++ es)%list) a h.
(** decrement of a std::size_t (used at random-shortcut-dynamic.cc:158, 165, 210, 222) *)
Definition pdec (z : Z) : Z := ((z - 1) mod 2 ^ 64)%Z.

(** random-shortcut-dynamic.cc:200-214, one iteration.  After an exception result is the
    current path itself and the [continue] is that of the inner loop: the following parts
    are appended to the current path *)
Definition addPart (cur : nat) (x : heap * nat * Z) (part : option E * (R * R)) : heap * nat * Z :=
  let '(h, res, pe) := x in
  match part with
  | (Some s, _) => (appendTo h res [s], res, pe)
  | (None, (t, t')) =>
      match extract (contents h cur) t t' with
      | Some p' => (appendTo h res p', res, pe)
      | None => (h, cur, pdec pe)
      end
  end.

(** the variables of the loop: object of tmpPath, object of result, projectionError, the
    deque of lengths (None: infinity), finished (random-shortcut-dynamic.cc:107-153) *)
Record ost := mkOst {
  hp : heap; cur : nat; res : option nat; perr : Z; lens : list (option R); fin : bool
}.

(** std::numeric_limits<double>::epsilon() (used at random-shortcut-dynamic.cc:218) *)
Definition depsilon : R := / 2 ^ 52.

(** a - b <= c for an [a] that may be infinite (used at random-shortcut-dynamic.cc:217-218) *)
Definition inf_sub_le (a : option R) (b c : R) : bool :=
  match a with None => false | Some x => Rleb (x - b) c end.

(** random-shortcut-dynamic.cc:154-230, given the two sampled times *)
Definition round (n : nat) (q0 q3 : list R) (t1 t2 : R) (s : ost) : outcome ost :=
  let p := contents (hp s) (cur s) in
  let t3 := pvlen p in
  let failed := Ok (mkOst (hp s) (cur s) (res s) (pdec (perr s)) (lens s) (fin s)) in
  match evalAt p t1 with
  | None => failed
  | Some q1 =>
  match evalAt p t2 with
  | None => failed
  | Some q2 =>
    ubind (testPart p q0 q1 0 t1) (fun v0 =>
    ubind (testPart p q1 q2 t1 t2) (fun v1 =>
    ubind (testPart p q2 q3 t2 t3) (fun v2 =>
    let r := length (hp s) in
    let '(h, r, pe) :=
      fold_left (addPart (cur s)) [(v0, (0, t1)); (v1, (t1, t2)); (v2, (t2, t3))]
                ((hp s ++ [[]])%list, r, perr s) in
    let newLength := pvlen (contents h r) in
    match lens s !! (n - 1)%nat with
    | None => Ub
    | Some old =>
        if inf_sub_le old newLength (10 * depsilon)
        then Ok (mkOst h (cur s) (Some (cur s)) (pdec pe) (lens s) (fin s))
        else
          let lens' := (tail (lens s) ++ [Some newLength])%list in
          match lens' !! 0%nat, lens' !! (n - 1)%nat with
          | Some l0, Some (Some l1) =>
              Ok (mkOst h r (Some r) (Z.of_nat n) lens' (inf_sub_le l0 l1 (1 / 10000 * l1)))
          | _, _ => Ub
          end
    end)))
  end
  end.

(** random-shortcut-dynamic.cc:134-231: the number of rounds made and, when the loop has
    ended within the draws [rs], the result (object and contents of all the objects).  The
    final loop of the function calls a method of result: it must not be null *)
Fixpoint rounds (fuel : nat) (n : nat) (m : R) (q0 q3 : list R) (s : ost) (rs : list R) (k : nat)
  : nat * option (outcome (nat * heap)) :=
  if fin s || (perr s =? 0)%Z then
    (k, Some (match res s with Some a => Ok (a, hp s) | None => Ub end))
  else
    match fuel with
    | O => (k, None)
    | S fuel =>
        match sample m (pvlen (contents (hp s) (cur s))) rs with
        | None => (k, None)
        | Some (t1, t2, rs') =>
            match round n q0 q3 t1 t2 s with
            | Ok s' => rounds fuel n m q0 q3 s' rs' (S k)
            | Throw => (S k, Some Throw)
            | Ub => (S k, Some Ub)
            end
        end
    end.

(** random-shortcut-dynamic.cc:107-242.  [n]: NumberOfLoops; for n = 0 the deque of n - 1
    elements cannot be built.  The first and last configurations of an empty path vector do
    not exist.  Each round uses at least two draws, so the draws bound the rounds *)
Definition shortcut (n : nat) (path : list E) (rs : list R) : nat * option (outcome (nat * heap)) :=
  match path, last path with
  | e0 :: _, Some e1 =>
      if Nat.eqb n 0 then (O, Some Throw)
      else
        let m := Rmin 1 (pvlen path * (1 / 5)) in
        rounds (length rs) n m (einit e0) (eend e1)
               (mkOst [path] 0 None (Z.of_nat n)
                      (replicate (n - 1) None ++ [Some (pvlen path)])%list false) rs 0
  | _, _ => (O, Some Ub)
  end.
End Shortcut.

(** * OrientedPathOptimizer *)
Section Oriented.
(** core::Path pointers; [kino]: dynamic_pointer_cast<KinodynamicPath> succeeds.  [orient]:
    KinodynamicOrientedPath::create (None: null); [withEnd e e'] a copy of [e] whose final
    configuration is the first one of [e']; [withInit e e'] a copy of [e] whose first
    configuration is the final one of [e'] (None: the copy failed) *)
Variable P : Type.
Variable kino : P -> bool.
Variable orient : P -> option P.
Variables (withEnd withInit : P -> P -> option P).
Variable valid : P -> bool.

(** oriented-path-optimizer.cc:169-230.  The four vectors are passed by value: the function
    returns a boolean only.  [fuel]: numPaths - index, the recursion is on index + 1.  A
    null pointer in resultPaths given to createCopy, or in orientedPaths, is an error *)
Fixpoint checkReplace (fuel index last : nat) (replaceValid orientedValid : list bool)
  (orientedPaths resultPaths : list (option P)) : outcome bool :=
  match fuel with
  | O => Ub
  | S fuel =>
  match orientedValid !! index, orientedPaths !! index with
  | Some false, _ => Ok false
  | Some true, Some (Some o) =>
      let previousValid :=
        if Nat.ltb 0 index then
          match orientedValid !! (index - 1)%nat, replaceValid !! (index - 1)%nat with
          | Some true, Some true => Ok true
          | Some _, Some _ =>
              match resultPaths !! (index - 1)%nat with
              | Some (Some r) => Ok (match withEnd r o with Some p => valid p | None => false end)
              | _ => Ub
              end
          | _, _ => Ub
          end
        else Ok true in
      ubind previousValid (fun pv =>
      if negb pv then Ok false
      else if Nat.ltb index (last - 1) then
        match orientedValid !! (index + 1)%nat with
        | Some true =>
            checkReplace fuel (index + 1) last (<[index := true]> replaceValid) orientedValid
                         orientedPaths resultPaths
        | Some false =>
            match resultPaths !! (index + 1)%nat with
            | Some (Some r) =>
                match withInit r o with
                | Some p => Ok (valid p)
                | None => match replaceValid !! index with Some b => Ok b | None => Ub end
                end
            | _ => Ub
            end
        | None => Ub
        end
      else Ok true)
  | _, _ => Ub
  end
  end.

(** oriented-path-optimizer.cc:135-141: the loop over the elements.  The updates of
    resultPaths made by checkReplaceOrientation are lost with its copies *)
Fixpoint replaceLoop (k i last : nat) (replaceValid orientedValid : list bool)
  (orientedPaths resultPaths : list (option P)) : outcome (list bool) :=
  match k with
  | O => Ok replaceValid
  | S k =>
      match replaceValid !! i with
      | Some true => replaceLoop k (S i) last replaceValid orientedValid orientedPaths resultPaths
      | Some false =>
          ubind (checkReplace (S last) i last replaceValid orientedValid orientedPaths resultPaths) (fun b =>
          replaceLoop k (S i) last (<[i := b]> replaceValid) orientedValid orientedPaths resultPaths)
      | None => Ub
      end
  end.

(** oriented-path-optimizer.cc:92-155.  appendPath of a null pointer is an error *)
Definition orientedOptimize (path : list P) : outcome (list P) :=
  let numPaths := length path in
  let resultPaths := map (fun e => if kino e then Some e else None) path in
  let orientedPaths := map (fun e => if kino e then orient e else None) path in
  let orientedValid := map (fun o => match o with Some o => valid o | None => false end) orientedPaths in
  ubind (replaceLoop numPaths 0 numPaths (replicate numPaths false) orientedValid orientedPaths resultPaths)
        (fun _ =>
  foldr (fun r acc => ubind acc (fun l => match r with Some p => Ok (p :: l) | None => Ub end)) (Ok []) resultPaths).
End Oriented.
