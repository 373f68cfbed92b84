(** Model of the combinatorial part of
    src/contact_generation/contact_generation.cc. *)
From Coq Require Import ZArith.
From Verif Require Export Maps StateModel.

(** include/hpp/rbprm/tools.hh:221-228 *)
Definition insertIfNew (data : list string) (v : string) : bool * list string :=
  if inb v data then (false, data) else (true, data ++ [v]).

Section Maintain.
Context {Cfg Pos Rot Rob : Type}.
Notation St := (State Cfg Pos Rot Rob).

(** contact_generation.cc:74-80: compares the contact orders only *)
Definition push_if_new (states : list St) (cur : St) : bool * list St :=
  if existsb (fun c => bool_decide (order cur = order c)) states
  then (false, states) else (true, states ++ [cur]).

(** contact_generation.cc:90-130.  [fuel] is [maxBrokenContacts - depth]: the
    test [depth >= maxBrokenContacts] is [fuel = 0].  [res] is the vector of
    depths; the recursive calls are issued for the ids of a copy of the contact
    order of [cur], front first (the counter [i] only bounds the loop by the
    queue size, which the emptiness test already does). *)
Fixpoint maintain_rec (fuel : nat) (depth : nat) (cur : St) (res : list (list St))
  : list (list St) :=
  let '(isnew, lvl) := push_if_new (default [] (res !! depth)) cur in
  let res := <[depth := lvl]> res in
  if isnew then
    match fuel with
    | O => res
    | S f =>
      fold_left (fun res id => maintain_rec f (S depth) (snd (RemoveContact id cur)) res)
        (order cur) res
    end
  else res.

(** contact_generation.cc:142-156 with flatten (132-140) = concat *)
Definition maintain_contacts_combinatorial (cur : St) (maxBroken : nat) : list St :=
  let res := replicate (S maxBroken) [] in
  concat (if (nbContacts cur =? 1)%Z then <[0 := [cur]]> res
          else maintain_rec maxBroken 0 cur res).
End Maintain.

(** contact_generation.cc:259-281 *)
Definition sortLimbs (ord : list string) (freeLimbs : list string) : list string :=
  let res1 := fold_left (fun r l => if inb l freeLimbs then snd (insertIfNew r l) else r) ord [] in
  let res2 := filter (fun l => inb l res1 = false) freeLimbs in
  res2 ++ res1.

(** contact_generation.cc:327-337: one extension of every sequence by every
    candidate not already in it *)
Definition extend_all (res : list (list string)) (candidates : list string) : list (list string) :=
  concat (map (fun seq =>
    omap (fun c => let '(isnew, seq') := insertIfNew seq c in if isnew then Some seq' else None)
      candidates) res).

(** contact_generation.cc:322-340 *)
Fixpoint stringCombinatorialRec (res : list (list string)) (candidates : list string) (depth : nat)
  : list (list string) :=
  match depth with
  | O => res
  | S d =>
    let newStates := extend_all res candidates in
    res ++ stringCombinatorialRec newStates candidates d
  end.

(** contact_generation.cc:342-354: std::rotate puts the first element last *)
Definition stringCombinatorial (candidates : list string) (maxDepth : nat) (maximise : bool)
  : list (list string) :=
  let res := stringCombinatorialRec [[]] candidates maxDepth in
  if maximise then tail res ++ take 1 res else res.

(** contact_generation.cc:356-380 *)
Definition gen_contacts_combinatorial {St} (freeEffs : list string) (previous : St)
    (maxCreated : nat) (maximise : bool) : list (St * list string) :=
  map (fun seq => (previous, seq)) (stringCombinatorial freeEffs maxCreated maximise).

(** std::string::find(sub) != npos (used at contact_generation.cc:204) *)
Fixpoint string_contains (sub s : string) : bool :=
  String.prefix sub s ||
  match s with
  | EmptyString => false
  | String _ s' => string_contains sub s'
  end.

(** contact_generation.cc:195-235.  Objects are values of [Obj]; [affordances]
    and [filters] are std::maps.  A type of the filter that is not a key of the
    affordance map makes [find] return end(), which is dereferenced: [Ub]. *)
Section Aff.
Context {Obj : Type}.

(** contact_generation.cc:226-230 and 195-232 *)
Fixpoint objects_of_types (affordances : gmap string (list (string * Obj))) (types : list string)
  : outcome (list Obj) :=
  match types with
  | [] => Ok []
  | t :: types' =>
    match affordances !! t with
    | None => Ub
    | Some objs =>
      match objects_of_types affordances types' with
      | Ok l => Ok (map snd objs ++ l)
      | o => o
      end
    end
  end.

Definition getAffObjectsForLimb (limb : string) (affordances : gmap string (list (string * Obj)))
    (filters : gmap string (list string)) : outcome (list Obj) :=
  let affs :=
    match List.find (fun kv => string_contains limb (fst kv)) (sitems filters) with
    | None => Ok (concat (map (fun kv => map snd (snd kv)) (sitems affordances)))
    | Some (_, types) => objects_of_types affordances types
    end in
  match affs with
  | Ok [] => Throw
  | o => o
  end.
End Aff.
