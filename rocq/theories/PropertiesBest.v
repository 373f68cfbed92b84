(** C174: the best state of a repositioning (rbprm-path-interpolation.cc). *)
From Coq Require Import Reals.
From Verif Require Import Maps Vec CombModel StateModel SampModel ToolModel ToolSpec ProjModel SeqModel HoldExamples BestModel BestProofs BestExamples.
From Verif Require Import StateModel ToolSpec ProjModel.
Local Open Scope R_scope.

(** C174.  The state chosen is the first with the greatest sum of the scores of the limbs, evaluated in the
    direction from the first to the last candidate; states with a score that is not a number are never
    chosen, unless all are so: then the last is.  It throws when a limb is unknown, or without contact in a
    candidate; it is undefined without candidates. *)
Theorem C174_best B evaluate candidates limbs : match findBestRepositionState B evaluate candidates limbs with
  | Ok f => exists d, root_move candidates d /\ (forall c, c ∈ candidates -> exists v, scored B evaluate d (snd c) limbs v) /\
      ((exists l1 l2 r, candidates = l1 ++ f :: l2 /\ scored B evaluate d (snd f) limbs (Some r) /\
          (forall c r', c ∈ l1 -> scored B evaluate d (snd c) limbs (Some r') -> r' < r) /\
          (forall c r', c ∈ l2 -> scored B evaluate d (snd c) limbs (Some r') -> r' <= r)) \/
       (last candidates = Some f /\ forall c, c ∈ candidates -> scored B evaluate d (snd c) limbs None))
  | Throw => exists c l, c ∈ candidates /\ l ∈ limbs /\ (limbsOf B !! l = None \/ normals (snd c) !! l = None)
  | Ub => candidates = [] \/ exists c, (head candidates = Some c \/ last candidates = Some c) /\ (length (configuration (snd c)) < 3)%nat
  end.
Proof. exact (best_state B evaluate candidates limbs). Qed.
Print Assumptions C174_best.
Theorem C174_exists B evaluate candidates limbs : candidates <> [] ->
  (forall c, c ∈ candidates -> (3 <= length (configuration (snd c)))%nat) ->
  (forall l, l ∈ limbs -> is_Some (limbsOf B !! l)) ->
  (forall c l, c ∈ candidates -> l ∈ limbs -> is_Some (normals (snd c) !! l)) ->
  exists f, findBestRepositionState B evaluate candidates limbs = Ok f /\ f ∈ candidates.
Proof. exact (best_exists B evaluate candidates limbs). Qed.
Print Assumptions C174_exists.
Example C174_case : findBestRepositionState hbody bev bcands ["leg"%string] = Ok (1, bst 1) /\
  (findBestRepositionState hbody bev bcands ["arm"%string] = Throw /\ findBestRepositionState hbody bev [] ["leg"%string] = Ub).
Proof. exact (conj bbest bmissing). Qed.
Example C174_exists_case : bcands <> [] /\ (forall c, c ∈ bcands -> (3 <= length (configuration (snd c)))%nat) /\
  (forall l, l ∈ ["leg"%string] -> is_Some (limbsOf hbody !! l)) /\ (forall c l, c ∈ bcands -> l ∈ ["leg"%string] -> is_Some (normals (snd c) !! l)).
Proof. exact bexists_case. Qed.
