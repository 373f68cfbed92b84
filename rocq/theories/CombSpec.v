(** Specification vocabulary of the combinatorial properties. *)
From Coq Require Import ZArith.
From Verif Require Import Maps StateModel StateSpec.

(** [s] after RemoveContact has been called for each id of [ids] in turn *)
Definition without {Cfg Pos Rot Rob} (ids : list string) (s : State Cfg Pos Rot Rob)
  : State Cfg Pos Rot Rob :=
  fold_left (fun s id => snd (RemoveContact id s)) ids s.

(** [ids] is a duplicate-free choice of at most [m] contacts of [s] *)
Definition breakable {Cfg Pos Rot Rob} (s : State Cfg Pos Rot Rob) (m : nat) (ids : list string) : Prop :=
  NoDup ids /\ ids ⊆ order s /\ length ids <= m.

(** [seq] is a repetition-free sequence of at most [m] of the candidates *)
Definition arrangement (cands : list string) (m : nat) (seq : list string) : Prop :=
  NoDup seq /\ seq ⊆ cands /\ length seq <= m.

(** [sub] occurs in [s] *)
Definition substring_of (sub s : string) : Prop :=
  exists pre post, s = (pre +:+ sub +:+ post)%string.

(** the choices of [k] elements of [l], each in the order of [l], the first elements first
    (lexicographic order) *)
Fixpoint combinations {A} (k : nat) (l : list A) : list (list A) :=
  match k, l with
  | O, _ => [[]]
  | S _, [] => []
  | S k', x :: l' => map (cons x) (combinations k' l') ++ combinations k l'
  end.

(** [a] comes before [b] in the list of the arrangements of [cands]: shorter, or as long and
    at the first place where they differ its element is the earlier one of [cands] *)
Definition arranged_before (cands a b : list string) : Prop :=
  length a < length b \/
  length a = length b /\ exists pre x y a' b' i j,
    a = pre ++ x :: a' /\ b = pre ++ y :: b' /\ cands !! i = Some x /\ cands !! j = Some y /\ i < j.
