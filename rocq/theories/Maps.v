(** Common vocabulary of the models: outcomes of a C++ call, [std::map] with
    [std::string] keys, [size_t] arithmetic and the list searches of
    <algorithm> the code uses.  Nothing here models a function of /repo by
    itself; the models cite these definitions. *)
From Coq Require Import ZArith.
From stdpp Require Export gmap strings sorting list.

(** Outcome of a C++ call: normal return, exception, undefined behaviour. *)
Inductive outcome (A : Type) : Type :=
| Ok (a : A)
| Throw            (* an exception leaves the function *)
| Ub.              (* undefined behaviour: out-of-range access, end() dereference ... *)
Arguments Ok {A} a.
Arguments Throw {A}.
Arguments Ub {A}.

(** [std::string::operator<=]: lexicographic on unsigned characters. *)
Definition str_le (s t : string) : Prop := String.leb s t = true.
Global Instance str_le_dec : RelDecision str_le.
Proof. intros s t. unfold str_le. apply _. Defined.

(** Keys of a [std::map<std::string,V>] in iteration order. *)
Definition skeys {V} (m : gmap string V) : list string :=
  merge_sort str_le (map_to_list m).*1.

(** Entries of a [std::map<std::string,V>] in iteration order. *)
Definition sitems {V} (m : gmap string V) : list (string * V) :=
  omap (fun k => match m !! k with Some v => Some (k, v) | None => None end) (skeys m).

(** [std::find(l.begin(), l.end(), x) != l.end()] *)
Definition inb (x : string) (l : list string) : bool := bool_decide (x ∈ l).

(** [map.find(k) != map.end()] *)
Definition has {V} (k : string) (m : gmap string V) : bool :=
  match m !! k with Some _ => true | None => false end.

(** unsigned 64 bit [--n] and [++n] on [std::size_t] *)
Definition wdec (n : Z) : Z := ((n - 1) mod 2 ^ 64)%Z.
Definition winc (n : Z) : Z := ((n + 1) mod 2 ^ 64)%Z.
