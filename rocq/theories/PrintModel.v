(** Model of the text of a State: printInternal (src/rbprm-state.cc:216-239),
    print(stringstream&) (:241-251), print(stringstream&, const State&) (:253-308); not print() on
    the standard output.
    The text a stream makes of a number is a parameter.  Each function gives what it adds to
    the stream and how it ends: what was written before an exception stays written. *)
From Coq Require Import ZArith Ascii String.
From Verif Require Export Maps Vec StateModel StateReal.
Local Open Scope string_scope.

(** the end of a line, '\n' (rbprm-state.cc:232, 238, 242, 249, 254, 273) *)
Definition eol : string := String "010"%char "".
(** a rotation matrix by rows (rbprm-state.cc:227-231) *)
Definition rows : Type := vec3 * vec3 * vec3.
(** the states printed: configurations are vectors of numbers (rbprm-state.hh:120-128) *)
Notation PState := (State (list R) vec3 rows R).

(** text written and end of a call (rbprm-state.cc:216) *)
Definition written : Type := string * outcome unit.
(** one statement after the other (rbprm-state.cc:216-308) *)
Definition before (a : written) (b : written) : written :=
  match snd a with Ok _ => (fst a ++ fst b, snd b) | Throw => (fst a, Throw) | Ub => (fst a, Ub) end.
Definition put (t : string) : written := (t, Ok tt).

Section print.
(** ss << x for a double, and for a size_t or a bool *)
Context (num : R -> string) (int : Z -> string).

(** std::string::substr(1) (rbprm-state.cc:223, 270): out_of_range on an empty string *)
Definition substr1 (name : string) : outcome string :=
  match name with EmptyString => Throw | String _ t => Ok t end.
(** rbprm-state.cc:224-226 *)
Definition put3 (v : vec3) : string := " " ++ num (vx v) ++ " " ++ num (vy v) ++ " " ++ num (vz v).
(** rbprm-state.cc:227-231 *)
Definition putRows (m : rows) : string := let '(a, b, c) := m in put3 a ++ put3 b ++ put3 c.

(** rbprm-state.cc:219-233: [n] iterations left, the iterator is in front of [names] *)
Fixpoint printContacts (s : PState) (n : nat) (names : list string) : written :=
  match n with
  | O => put ""
  | S n' =>
    match names with
    | [] => ("", Ub)
    | name :: names' =>
      match positions s !! name with
      | None => ("", Throw)
      | Some p =>
        match rotations s !! name with
        | None => ("", Throw)
        | Some r =>
          match substr1 name with
          | Ok t => before (put (t ++ put3 p ++ putRows r ++ eol)) (printContacts s n' names')
          | _ => ("", Throw)
          end
        end
      end
    end
  end.
(** rbprm-state.cc:235-237 *)
Fixpoint putConfig (q : list R) : string :=
  match q with [] => "" | x :: q' => " " ++ num x ++ putConfig q' end.
(** rbprm-state.cc:216-239 *)
Definition printInternal (s : PState) : written :=
  before (printContacts s (Z.to_nat (nbContacts s)) (skeys (normals s)))
    (put ("configuration " ++ putConfig (configuration s) ++ eol ++ " " ++ eol)).

(** rbprm-state.cc:246-248 *)
Fixpoint printNames (n : nat) (names : list string) : written :=
  match n with
  | O => put ""
  | S n' => match names with
            | [] => ("", Ub)
            | name :: names' => before (put (" " ++ name ++ " ")) (printNames n' names')
            end
  end.
(** rbprm-state.cc:241-251 *)
Definition print1 (s : PState) : written :=
  before (put (int (nbContacts s) ++ eol))
    (before (printNames (Z.to_nat (nbContacts s)) (skeys (normals s)))
      (before (put eol) (printInternal s))).

(** rbprm-state.cc:257-272 *)
Fixpoint printNew (previous : PState) (items : list (string * vec3)) : written :=
  match items with
  | [] => put ""
  | (name, p) :: items' =>
    let newContact := match positions previous !! name with Some q => moved3 q p | None => true end in
    if newContact then
      match substr1 name with
      | Ok t => before (put (t ++ " ")) (printNew previous items')
      | _ => ("", Throw)
      end
    else printNew previous items'
  end.
(** rbprm-state.cc:253-308 *)
Definition print2 (s previous : PState) : written :=
  before (put (int (nbContacts s) ++ eol))
    (before (printNew previous (sitems (positions s))) (before (put eol) (printInternal s))).
End print.
