(** Specification vocabulary of the State properties. *)
From Coq Require Import ZArith.
From Verif Require Import Maps StateModel.

Section spec.
Context {Cfg Pos Rot Rob : Type}.
Notation St := (State Cfg Pos Rot Rob).

(** [s'] agrees with [s] on the contact data of every id outside [P], on the
    configuration and on the robustness. *)
Record same_elsewhere (P : string -> Prop) (s s' : St) : Prop := {
  se_maps : forall k, ~ P k ->
    contacts s' !! k = contacts s !! k /\ normals s' !! k = normals s !! k /\
    positions s' !! k = positions s !! k /\ rotations s' !! k = rotations s !! k;
  se_configuration : configuration s' = configuration s;
  se_robustness : robustness s' = robustness s
}.

(** [s'] is [s] without the contact [id], and nothing else changed but the
    count (one less, modulo 2^64) and the stability flag (cleared). *)
Record removed_exactly (id : string) (s s' : St) : Prop := {
  re_contacts : contacts s' !! id = None;
  re_normals : normals s' !! id = None;
  re_positions : positions s' !! id = None;
  re_rotations : rotations s' !! id = None;
  re_others : forall k, k <> id ->
    contacts s' !! k = contacts s !! k /\ normals s' !! k = normals s !! k /\
    positions s' !! k = positions s !! k /\ rotations s' !! k = rotations s !! k;
  re_order : order s' = filter (fun x => x <> id) (order s);
  re_nb : nbContacts s' = ((nbContacts s - 1) mod 2 ^ 64)%Z;
  re_stable : stable s' = false;
  re_configuration : configuration s' = configuration s;
  re_robustness : robustness s' = robustness s
}.

(** [n] successive calls of RemoveFirstContact: returned ids and final state *)
Fixpoint drain (n : nat) (s : St) : list string * St :=
  match n with
  | O => ([], s)
  | S n => let '(id, s') := RemoveFirstContact s in
           let '(ids, s'') := drain n s' in (id :: ids, s'')
  end.

(** All bookkeeping of a State describes one and the same set of contacts. *)
Record consistent (s : St) : Prop := {
  co_keys : forall k,
    (is_Some (contacts s !! k) <-> k ∈ order s) /\
    (is_Some (normals s !! k) <-> k ∈ order s) /\
    (is_Some (positions s !! k) <-> k ∈ order s) /\
    (is_Some (rotations s !! k) <-> k ∈ order s);
  co_active : forall k, k ∈ order s -> contacts s !! k = Some true;
  co_order : NoDup (order s);
  co_nb : nbContacts s = (Z.of_nat (size (contacts s)) mod 2 ^ 64)%Z
}.

(** operation number [n] is the last one that records a contact of [k] *)
Definition added_at (ops : list (state_op Cfg Pos Rot)) (n : nat) (k : string) : Prop :=
  exists cfg p nn r, ops !! n = Some (OpAdd k cfg p nn r).
Definition last_added_at (ops : list (state_op Cfg Pos Rot)) (n : nat) (k : string) : Prop :=
  added_at ops n k /\ forall m, n < m -> ~ added_at ops m k.
(** contact [k] of [to] is new w.r.t. [from]: absent there, or displaced *)
Definition created (moved : Pos -> Pos -> bool) (from to : St) (k : string) : Prop :=
  exists p, positions to !! k = Some p /\
    (positions from !! k = None \/ exists q, positions from !! k = Some q /\ moved q p = true).

(** contact [k] is present in both states and not displaced *)
Definition kept (moved : Pos -> Pos -> bool) (from to : St) (k : string) : Prop :=
  exists p q, positions to !! k = Some p /\ positions from !! k = Some q /\ moved q p = false.
(** boolean version of [created], for proofs *)
Definition createdb (moved : Pos -> Pos -> bool) (from to : St) (k : string) : bool :=
  match positions to !! k with
  | Some p => isNew moved from k p
  | None => false
  end.
End spec.
