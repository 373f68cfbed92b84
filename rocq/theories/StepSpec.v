(** One step of the generator, from the request to the contact created: the attempts made, in
    order, the tests passed by the contact created, and the part of the configuration that is kept. *)
From Coq Require Import ZArith.
From Verif Require Import Maps StateModel StateSpec CombModel CombSpec GenModel GenSpec.

Section spec.
Context {Cfg Pos Rot Cand Smp : Type}.
Notation St := (State Cfg Pos Rot Z).
Variable S : services Cfg Pos Rot Cand Smp.

(** ** The request: previous state, threshold, reachability test (quasi-static or not), postural task *)
Section request.
Variable prev : St.
Variable threshold : Z.
Variable test quasi post : bool.

(** the state [p], with a new contact on top of [s], passes the tests: it is robust enough and, if asked,
    reachable; nothing is tested when the contact is the only one *)
Definition passes (s p : St) : Prop :=
  ((nbContacts s + 1) mod 2 ^ 64)%Z <> 1%Z ->
  (threshold <= isStable S p)%Z /\
  (test = true -> (quasi = true -> reachQS S s p = true) /\ (quasi = false -> reachDyn S prev p = true)).

(** no candidate of the limb gives such a state, with the postural task or without *)
Definition no_contact (s : St) (limb : string) : Prop :=
  no_projection_with S post limb s (passes s) (octree S limb s s) /\
  no_projection_with S false limb s (passes s) (octree S limb s s).
(** [p] is the state of the first candidate that gives one *)
Definition first_contact (s : St) (limb : string) (p : St) : Prop :=
  exists mode, (mode = post \/ (mode = false /\ no_projection_with S true limb s (passes s) (octree S limb s s))) /\
    first_projection_with S mode limb s (passes s) (octree S limb s s) p.

(** the limbs of [s] that can make contact, in the order in which they are tried *)
Definition to_try (s : St) : list string := sortLimbs (order s) (freeEffectors s (limbNames S)).

(** what becomes of the maintained state [s]: the first limb that can make contact does; if none can,
    the contacts of [s] are kept, if they are two at least and robust enough *)
Inductive completed (s : St) : status -> St -> Prop :=
| co_made l1 limb l2 p r : to_try s = l1 ++ limb :: l2 -> (forall x, x ∈ l1 -> no_contact s x) ->
    first_contact s limb p -> contact_added S (nbContacts s) true p r -> completed s REACHABLE_CONTACT r
| co_kept r : (forall x, x ∈ to_try s -> no_contact s x) -> (2 <= nbContacts s)%Z -> (threshold <= isStable S s)%Z ->
    same_but_robustness (with_stable true s) r -> completed s STABLE_CONTACT r.
Definition not_completed (s : St) : Prop :=
  (forall x, x ∈ to_try s -> no_contact s x) /\ ~ ((2 <= nbContacts s)%Z /\ (threshold <= isStable S s)%Z).

(** candidate [c] (some contacts of the previous state) is maintained: its contacts are kept while the
    root goes where it is in [w]; [s] is the state obtained *)
Definition maintained (w c s : St) : Prop :=
  exists c1 c2 s0, projRoot S (configuration w) c = (true, c1) /\ all_freed S (free_limbs S w c) c1 c2 /\
    validate S c2 = true /\ moved_to c2 c s0 /\ robustness s0 = junkRob S /\
    (quasi = true -> test = true -> reachQS S w s0 = true) /\
    same_but_robustness s0 s /\ robustness s = robustness w.

(** [attempts w q w' q']: starting with the working state [w] and the candidates [q], some attempts fail,
    and then the working state is [w'] and the candidates left are [q'].  After an attempt the working
    state is that of the attempt: it is not reset *)
Inductive attempts (w : St) (q : list St) : St -> list St -> Prop :=
| at_start : attempts w q w q
| at_next w1 l1 c l2 s : attempts w q w1 (l1 ++ c :: l2) -> (forall x y, x ∈ l1 -> ~ maintained w1 x y) ->
    maintained w1 c s -> not_completed s -> l2 <> [] -> attempts w q s l2.

(** the step succeeds with state [r]: after some failed attempts, a candidate is maintained and the state completed *)
Definition succeeds (w : St) (q : list St) (st : status) (r : St) : Prop :=
  exists w1 l1 c l2 s, attempts w q w1 (l1 ++ c :: l2) /\ (forall x y, x ∈ l1 -> ~ maintained w1 x y) /\
    maintained w1 c s /\ completed s st r.
(** the step fails: no candidate left *)
Definition fails (w : St) (q : list St) : Prop :=
  exists w1 q1, attempts w q w1 q1 /\
    ((forall x y, x ∈ q1 -> ~ maintained w1 x y) \/
     exists l1 c s, q1 = l1 ++ [c] /\ (forall x y, x ∈ l1 -> ~ maintained w1 x y) /\ maintained w1 c s /\ not_completed s).
End request.

(** the state a step starts from: the previous one, at the configuration asked for *)
Definition request (prev : St) (cfg : Cfg) : St :=
  mkState cfg (contacts prev) (normals prev) (positions prev) (rotations prev) (order prev) (nbContacts prev) false (robustness prev).
(** what it can keep: all contacts; all but one, the oldest first *)
Definition to_keep (w : St) : list St :=
  if bool_decide (order w = []) then []
  else if bool_decide (nbContacts w = 1%Z) then [w] else w :: map (fun id => without [id] w) (order w).

(** ** The root of the robot *)
(** [same_root c c']: the root is at the same place in the configurations [c] and [c'];
    [only limb c c']: they only differ by the joints of [limb] *)
Variable same_root : Cfg -> Cfg -> Prop.
Variable only : string -> Cfg -> Cfg -> Prop.
Record root_services : Prop := {
  ro_refl : forall c, same_root c c;
  ro_trans : forall a b c, same_root a b -> same_root b c -> same_root a c;
  (* a successful projection on a root configuration puts the root there *)
  ro_root : forall conf cur c, projRoot S conf cur = (true, c) -> same_root conf c;
  (* creating a contact, without the postural task, only moves the limb it is created for *)
  ro_create : forall limb x c cur, limb ∈ limbNames S -> only limb (configuration cur) c ->
    only limb (configuration cur) (snd (ik S false limb x c cur));
  ro_only_refl : forall limb c, only limb c c;
  ro_only : forall limb c c', limb ∈ limbNames S -> only limb c c' -> same_root c c';
  (* samples describe limbs *)
  ro_sample : forall limb smp c, limb ∈ limbNames S \/ limb ∈ nonContacting S -> smp ∈ samples S limb -> same_root c (loadS S smp c);
  ro_extra : forall c c', same_root c (copyExtra S c c');
  (* the group of a limb is made of limbs *)
  ro_groups : forall x l ls, x ∈ limbNames S -> groupOf S x = l :: ls -> l ∈ limbNames S
}.
End spec.
