(** Model of the validations of the reachability planner:
    src/rbprm-rom-validation.cc, src/rbprm-validation.cc,
    src/rbprm-path-validation.cc, src/dynamic/dynamic-validation.cc. *)
From Verif Require Export Maps Vec.
Local Open Scope nat_scope.

(** * One ROM *)
(** rbprm-rom-validation.hh:41-81 over core::CollisionValidation: the collision pairs, one
    request for each, and optional_.  Simplified: a range of motion is a device with one
    body, so that a pair is its obstacle ([pairs()[i].second]) *)
Record romv (O Q : Type) := mkRom { pairs : list O; requests : list Q; optional : bool }.
Arguments mkRom {O Q}.
Arguments pairs {O Q}.
Arguments requests {O Q}.
Arguments optional {O Q}.

(** RbprmValidationReport (rbprm-validation-report.hh:36-45), what the ROMs write in it:
    ROMFilters, and of ROMReports the colliding obstacle (object2) *)
Record romReports (O : Type) := mkReports { romFilters : gmap string bool; romObjects : gmap string O }.
Arguments mkReports {O}.
Arguments romFilters {O}.
Arguments romObjects {O}.

Section rom.
Context {O Q : Type} `{EqDecision O}.
Notation Rom := (romv O Q).

(** core::CollisionValidation::validate (hpp-core, not in this repository): goes through
    the pairs in order and stops at the first in collision, which is reported (called at rbprm-rom-validation.cc:49-98) *)
Definition firstHit (hit : O -> bool) (l : list O) : option O := List.find hit l.

(** std::swap(v[0], v[i]) and the general one (used at rbprm-rom-validation.cc:86-87, 105-106) *)
Definition swap {A} (i j : nat) (l : list A) : option (list A) :=
  match l !! i, l !! j with
  | Some x, Some y => Some (<[i := y]> (<[j := x]> l))
  | _, _ => None
  end.

(** rbprm-rom-validation.cc:81-83: index of the pair in collision, or the size *)
Fixpoint indexOf (o : O) (l : list O) : nat :=
  match l with
  | [] => 0
  | x :: l' => if bool_decide (x = o) then 0 else S (indexOf o l')
  end.

(** rbprm-rom-validation.cc:79-88 *)
Definition bringToFront (o : O) (r : Rom) : outcome Rom :=
  let i := indexOf o (pairs r) in
  if (i =? 0) || (length (pairs r) =? 0) then Ok r
  else match swap 0 i (pairs r), swap 0 i (requests r) with
       | Some p, Some q => Ok (mkRom p q (optional r))
       | _, _ => Ub
       end.

(** std::map::insert (used in rbprm-validation.cc:65-141) *)
Definition insertNew {A} (k : string) (v : A) (m : gmap string A) : gmap string A :=
  match m !! k with Some _ => m | None => <[k := v]> m end.

(** rbprm-rom-validation.cc:49-98 for the ROM [name]; [rep] is the report if it is a
    RbprmValidationReport.  Returns the verdict, the ROM and the report *)
Definition romValidate (hit : O -> bool) (name : string) (r : Rom) (rep : option (romReports O))
  : outcome (bool * Rom * option (romReports O)) :=
  match firstHit hit (pairs r) with
  | None =>
    let rep' := match rep with
                | Some p => Some (mkReports (insertNew name false (romFilters p)) (romObjects p))
                | None => None end in
    Ok (optional r, r, rep')
  | Some o =>
    match rep with
    | None => Ok (true, r, None)
    | Some p =>
      match bringToFront o r with
      | Ok r' => Ok (true, r', Some (mkReports (insertNew name true (romFilters p)) (insertNew name o (romObjects p))))
      | Throw => Throw
      | Ub => Ub
      end
    end
  end.

(** rbprm-rom-validation.cc:100-109; [rands] are the answers of std::rand() *)
Fixpoint shuffleFrom (i : nat) (n : nat) (rands : list nat) (r : Rom) : outcome Rom :=
  match n with
  | 0 => Ok r
  | S n' =>
    let j := (hd 0 rands) mod (i + 1) in
    if i =? j then shuffleFrom (S i) n' (tail rands) r
    else match swap i j (pairs r), swap i j (requests r) with
         | Some p, Some q => shuffleFrom (S i) n' (tail rands) (mkRom p q (optional r))
         | _, _ => Ub
         end
  end.
Definition randomnizeCollisionPairs (rands : list nat) (r : Rom) : outcome Rom :=
  shuffleFrom 0 (length (pairs r)) rands r.
End rom.

(** * All ROMs and the trunk (rbprm-validation.hh) (lines 170-174) *)
Record rbValidation (O Q : Type) := mkVal { roms : gmap string (romv O Q); defaultFilter : list string }.
Arguments mkVal {O Q}.
Arguments roms {O Q}.
Arguments defaultFilter {O Q}.

Section validation.
Context {O Q : Type} `{EqDecision O}.
Notation Val := (rbValidation O Q).

(** rbprm-validation.cc:121-134: the obstacles of one ROM, the objects of the affordances
    named in its filter; unknown affordances are skipped *)
Definition affordanceObjects (affordances : gmap string (list O)) (kinds : list string) : list O :=
  concat (map (fun k => default [] (affordances !! k)) kinds).

(** rbprm-validation.cc:37-58 and 99-141; [q] is the default collision request *)
Definition createRom (q : Q) (filter : list string) (affFilters : gmap string (list string))
  (affordances : gmap string (list O)) (name : string) : romv O Q :=
  match affFilters !! name with
  | None => mkRom [] [] false
  | Some kinds =>
    let objs := affordanceObjects affordances kinds in
    mkRom objs (map (fun _ => q) objs) (negb (inb name filter))
  end.

(** rbprm-validation.cc:65-141; [names] are the names of the robot's ROMs (a std::map) *)
Definition create (q : Q) (names : gmap string unit) (filter : list string)
  (affFilters : gmap string (list string)) (affordances : gmap string (list O)) : Val :=
  mkVal (map_imap (fun n _ => Some (createRom q filter affFilters affordances n)) names)
    (List.filter (fun n => has n affFilters) (skeys names)).

(** rbprm-validation.cc:150-159, the loop over [todo] *)
Fixpoint romsLoop (hit : string -> O -> bool) (filter : list string) (todo : list (string * romv O Q))
  (matches : nat) (rs : gmap string (romv O Q)) (rep : option (romReports O))
  : outcome (nat * gmap string (romv O Q) * option (romReports O)) :=
  match todo with
  | [] => Ok (matches, rs, rep)
  | (n, r) :: todo' =>
    if (matches <? 1) || (matches <? length filter) then
      if (length filter =? 0) || inb n filter then
        match romValidate (hit n) n r rep with
        | Ok (b, r', rep') => romsLoop hit filter todo' (if b then S matches else matches) (<[n := r']> rs) rep'
        | Throw => Throw
        | Ub => Ub
        end
      else romsLoop hit filter todo' matches rs rep
    else Ok (matches, rs, rep)
  end.

(** rbprm-validation.cc:143-163; a null report is dereferenced at the end
    (the overloads of lines 173-182 pass one) *)
Definition validateRoms (hit : string -> O -> bool) (filter : list string) (rep : option (romReports O)) (v : Val)
  : outcome (bool * Val * romReports O) :=
  match romsLoop hit filter (sitems (roms v)) 0 (roms v) rep with
  | Ok (m, rs, Some rep') => Ok ((length filter <=? m), mkVal rs (defaultFilter v), rep')
  | Ok (_, _, None) => Ub
  | Throw => Throw
  | Ub => Ub
  end.

(** rbprm-validation.cc:196-222; [trunkFree] and [inBounds] are the answers of the trunk's
    collision validation and of the joint bounds validation *)
Definition validate (trunkFree inBounds : bool) (hit : string -> O -> bool) (filter : list string) (v : Val)
  : outcome (bool * Val * romReports O) :=
  match validateRoms hit filter (Some (mkReports ∅ ∅)) v with
  | Ok (b, v', rep) => Ok (b && trunkFree && inBounds, v', rep)
  | Throw => Throw
  | Ub => Ub
  end.

(** rbprm-validation.cc:246-251 *)
Fixpoint shuffleAll (todo : list (string * romv O Q)) (rands : string -> list nat) (rs : gmap string (romv O Q))
  : outcome (gmap string (romv O Q)) :=
  match todo with
  | [] => Ok rs
  | (n, r) :: todo' =>
    match randomnizeCollisionPairs (rands n) r with
    | Ok r' => shuffleAll todo' rands (<[n := r']> rs)
    | Throw => Throw
    | Ub => Ub
    end
  end.
Definition randomnize (rands : string -> list nat) (v : Val) : outcome Val :=
  match shuffleAll (sitems (roms v)) rands (roms v) with
  | Ok rs => Ok (mkVal rs (defaultFilter v))
  | Throw => Throw
  | Ub => Ub
  end.

(** a use of the validation object (rbprm-validation.cc:143-251) *)
Inductive val_op :=
| OValidate (trunkFree inBounds : bool) (hit : string -> O -> bool) (filter : list string)
| ORandomnize (rands : string -> list nat).
Definition val_call (o : val_op) (v : Val) : outcome Val :=
  match o with
  | OValidate t b hit f => match validate t b hit f v with Ok (_, v', _) => Ok v' | Throw => Throw | Ub => Ub end
  | ORandomnize rands => randomnize rands v
  end.
Fixpoint val_run (ops : list val_op) (v : Val) : outcome Val :=
  match ops with
  | [] => Ok v
  | o :: ops' => match val_call o v with Ok v' => val_run ops' v' | Throw => Throw | Ub => Ub end
  end.
End validation.
Arguments val_op : clear implicits.

(** * Paths *)
Section path.
Local Open Scope R_scope.
(** the part of the path found valid: the whole path or path->extract(from, to) (rbprm-path-validation.cc:86-113) *)
Inductive validPart := Whole | Extract (from to : R).

(** rbprm-path-validation.cc:86-113; [ok t]: path evaluation succeeds at t and the
    configuration is valid for the filter.  [None]: out of [fuel].  Returns the verdict,
    the valid part and the parameter of the report *)
Fixpoint forwardLoop (ok : R -> bool) (step tmin tmax : R) (fuel : nat) (finished : nat) (t last : R)
  : option (bool * validPart * option R) :=
  match fuel with
  | O => None
  | S fuel' =>
    if (finished <? 2)%nat then
      if ok t then
        let t' := t + step in
        if Rltb tmax t' then forwardLoop ok step tmin tmax fuel' (S finished) tmax t
        else forwardLoop ok step tmin tmax fuel' finished t' t
      else Some (false, Extract tmin last, Some t)
    else Some (true, Whole, None)
  end.
(** rbprm-path-validation.cc:56-84 *)
Fixpoint reverseLoop (ok : R -> bool) (step tmin tmax : R) (fuel : nat) (finished : nat) (t last : R)
  : option (bool * validPart * option R) :=
  match fuel with
  | O => None
  | S fuel' =>
    if (finished <? 2)%nat then
      if ok t then
        let t' := t - step in
        if Rltb t' tmin then reverseLoop ok step tmin tmax fuel' (S finished) tmin t
        else reverseLoop ok step tmin tmax fuel' finished t' t
      else Some (false, Extract last tmax, Some t)
    else Some (true, Whole, None)
  end.
(** rbprm-path-validation.cc:49-115 *)
Definition validatePath (ok : R -> bool) (step tmin tmax : R) (reverse : bool) (fuel : nat)
  : option (bool * validPart * option R) :=
  if reverse then reverseLoop ok step tmin tmax fuel 0 tmax tmax
  else forwardLoop ok step tmin tmax fuel 0 tmin tmin.
End path.

(** * Dynamics *)
Section dynamic.
Context {Obj Conf Acc Mat : Type} `{EqDecision Obj} `{EqDecision Acc}.
(** dynamic-validation.hh:75-86: lastReport_ (of each ROM in it, the obstacle; a null
    pointer before setInitialReport), initContacts_, lastAcc_, and H_, h_ with the contact
    cone of sEq_ *)
Record dynVal := mkDyn {
  lastReport : option (gmap string Obj);
  initContacts : bool;
  lastAcc : Acc;
  matrices : Mat
}.
(** config.segment<3>(size - 3) *)
Variable accOf : Conf -> Acc.
(** RbprmNode::fillNodeMatrices *)
Variable fill : Conf -> gmap string Obj -> Mat.
(** Equilibrium::checkAdmissibleAcceleration *)
Variable admissible : Mat -> Acc -> bool.

(** dynamic-validation.cc:62-82: ROMs that only one of the reports has are not compared *)
Definition sameContacts (last rep : gmap string Obj) : bool :=
  forallb (fun n => match last !! n, rep !! n with
                    | Some o, Some o' => bool_decide (o = o')
                    | _, _ => true end) (skeys rep).

(** dynamic-validation.cc:38-131; [rep] is [None] if the report is no
    RbprmValidationReport *)
Definition dynValidate (q : Conf) (rep : option (gmap string Obj)) (d : dynVal) : outcome (bool * dynVal) :=
  match rep with
  | None => Ok (false, d)
  | Some r =>
    match lastReport d with
    | None => Ub
    | Some last =>
      if negb (size last =? size r) then Ok (false, d)
      else if sameContacts last r && initContacts d then Ok (true, d)
      else if sameContacts last r then
        if bool_decide (accOf q = lastAcc d) then Ok (true, d)
        else Ok (admissible (matrices d) (accOf q), mkDyn (lastReport d) (initContacts d) (accOf q) (matrices d))
      else Ok (admissible (fill q r) (accOf q), mkDyn (Some r) false (accOf q) (fill q r))
    end
  end.

(** dynamic-validation.cc:133-142 *)
Definition setInitialReport (rep : option (gmap string Obj)) (d : dynVal) : dynVal :=
  match rep with
  | Some r => mkDyn (Some r) true (lastAcc d) (matrices d)
  | None => d
  end.

(** a user that stops at the first rejected configuration, as the path validation does
    (rbprm-path-validation.cc:56-113) *)
Fixpoint dyn_run (calls : list (Conf * gmap string Obj)) (d : dynVal) : outcome (bool * dynVal) :=
  match calls with
  | [] => Ok (true, d)
  | (q, r) :: calls' =>
    match dynValidate q (Some r) d with
    | Ok (true, d') => dyn_run calls' d'
    | res => res
    end
  end.
End dynamic.
Arguments dynVal : clear implicits.
