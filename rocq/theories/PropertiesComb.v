(** Properties C10-C14: enumeration of contact candidates. *)
From Coq Require Import ZArith.
From Verif Require Import Maps MapsProofs StateModel StateSpec StateProofs StateExamples
  CombModel CombSpec CombProofs CombProofs2 CombOrder CombOrder2 CombExamples.

(** C10 *)
Theorem C10_maintain_candidates_exact {Cfg Pos Rot Rob} (s : State Cfg Pos Rot Rob) (m : nat) :
  consistent s -> nbContacts s <> 1%Z ->
  let Q := maintain_contacts_combinatorial s m in
  (exists Q', Q = s :: Q') /\
  (forall c, c ∈ Q <-> exists ids, breakable s m ids /\ c = without ids s) /\
  NoDup (map order Q) /\
  StronglySorted (fun c c' => length (order c') <= length (order c)) Q.
Proof. exact (maintain_combinatorial_correct s m). Qed.
Print Assumptions C10_maintain_candidates_exact.
(** the exact list: the choices of 0, 1, ..., m contacts, those of the same size in lexicographic
    order of the order of creation *)
Theorem C10_exact_list {Cfg Pos Rot Rob} (s : State Cfg Pos Rot Rob) (m : nat) :
  consistent s -> nbContacts s <> 1%Z ->
  maintain_contacts_combinatorial s m =
  concat (map (fun k => map (fun ids => without ids s) (combinations k (order s))) (seq 0 (S m))).
Proof. exact (maintain_order s m). Qed.
Print Assumptions C10_exact_list.
Theorem C10_maintain_candidates_one_break {Cfg Pos Rot Rob} (s : State Cfg Pos Rot Rob) :
  consistent s -> nbContacts s <> 1%Z ->
  maintain_contacts_combinatorial s 1 = s :: map (fun id => without [id] s) (order s).
Proof. exact (maintain_combinatorial_one s). Qed.
Print Assumptions C10_maintain_candidates_one_break.
Example C10_example : consistent ex3 /\ nbContacts ex3 <> 1%Z /\
  map order (maintain_contacts_combinatorial ex3 2) =
  [["lh"; "rf"; "lf"]; ["rf"; "lf"]; ["lh"; "lf"]; ["lh"; "rf"]; ["lf"]; ["rf"]; ["lh"]]%string.
Proof. split_and!; [exact ex3_consistent|done|vm_compute; reflexivity]. Qed.

(** C11 *)
Theorem C11_lone_contact_kept {Cfg Pos Rot Rob} (s : State Cfg Pos Rot Rob) (m : nat) :
  nbContacts s = 1%Z -> maintain_contacts_combinatorial s m = [s].
Proof. exact (maintain_single s m). Qed.
Print Assumptions C11_lone_contact_kept.
Theorem C11_at_least_one_contact_kept {Cfg Pos Rot Rob} (s : State Cfg Pos Rot Rob) (m : nat) :
  consistent s -> nbContacts s <> 1%Z -> m < length (order s) ->
  forall c, c ∈ maintain_contacts_combinatorial s m -> order c <> [].
Proof. exact (maintain_keeps_one s m). Qed.
Print Assumptions C11_at_least_one_contact_kept.
Example C11_example : nbContacts (without ["lh"; "rf"]%string ex3) = 1%Z /\ 2 < length (order ex3).
Proof. split; [reflexivity|]. vm_compute. repeat constructor. Qed.

(** C12 *)
Theorem C12_creation_candidates_exact (cands : list string) (m : nat) (maximise : bool) :
  NoDup cands ->
  let L := stringCombinatorial cands m maximise in
  NoDup L /\
  (forall seq, seq ∈ L <-> arrangement cands m seq) /\
  exists L', L = (if maximise then L' ++ [[]] else [] :: L') /\
    StronglySorted (fun a b => length a <= length b) L' /\ [] ∉ L'.
Proof. exact (stringCombinatorial_correct cands m maximise). Qed.
Print Assumptions C12_creation_candidates_exact.
Theorem C12_creation_states {St} cands (prev : St) m maximise c :
  NoDup cands ->
  (c ∈ gen_contacts_combinatorial cands prev m maximise <-> fst c = prev /\ arrangement cands m (snd c)).
Proof. exact (gen_contacts_combinatorial_correct cands prev m maximise c). Qed.
Print Assumptions C12_creation_states.
(** the exact order of the candidates, which is their priority *)
Theorem C12_order (cands : list string) (m : nat) (maximise : bool) : exists L',
  StronglySorted (arranged_before cands) ([] :: L') /\
  stringCombinatorial cands m maximise = (if maximise then L' ++ [[]] else [] :: L').
Proof. exact (stringCombinatorial_order cands m maximise). Qed.
Print Assumptions C12_order.
Theorem C12_order_strict (cands : list string) a b : NoDup cands -> arranged_before cands a b -> ~ arranged_before cands b a.
Proof. exact (arranged_before_asym cands a b). Qed.
Print Assumptions C12_order_strict.
Example C12_example : NoDup ["a"; "b"]%string /\
  stringCombinatorial ["a"; "b"]%string 2 true = [["a"]; ["b"]; ["a"; "b"]; ["b"; "a"]; []]%string.
Proof. split; [|reflexivity]. apply (bool_decide_unpack _). vm_compute. done. Qed.

(** C13 *)
Theorem C13_sortLimbs_order (ord fl : list string) :
  NoDup fl ->
  sortLimbs ord fl ≡ₚ fl /\
  (NoDup ord -> sortLimbs ord fl = filter (fun l => l ∉ ord) fl ++ filter (fun l => l ∈ fl) ord).
Proof. exact (sortLimbs_correct ord fl). Qed.
Print Assumptions C13_sortLimbs_order.
Example C13_example : sortLimbs ["c"; "a"; "x"]%string ["a"; "b"; "c"; "d"]%string = ["b"; "d"; "c"; "a"]%string.
Proof. reflexivity. Qed.

(** C14 *)
Theorem C14_no_filter_all_objects {Obj} limb (aff : gmap string (list (string * Obj))) filters :
  (forall k, is_Some (filters !! k) -> ~ substring_of limb k) ->
  getAffObjectsForLimb limb aff filters =
  match concat (map (fun t => map snd (default [] (aff !! t))) (skeys aff)) with
  | [] => Throw
  | l => Ok l
  end.
Proof. exact (getAff_no_filter limb aff filters). Qed.
Print Assumptions C14_no_filter_all_objects.
(** the filter applied is the first one (in name order) whose name contains the
    limb's (finding); a type unknown to the affordance map is undefined
    behaviour (finding) *)
Theorem C14_filter_objects {Obj} limb (aff : gmap string (list (string * Obj))) filters k types :
  filters !! k = Some types -> substring_of limb k ->
  (forall k', is_Some (filters !! k') -> substring_of limb k' -> str_le k k') ->
  ((forall t, t ∈ types -> is_Some (aff !! t)) ->
     getAffObjectsForLimb limb aff filters =
     match concat (map (fun t => map snd (default [] (aff !! t))) types) with
     | [] => Throw
     | l => Ok l
     end) /\
  ((exists t, t ∈ types /\ aff !! t = None) -> getAffObjectsForLimb limb aff filters = Ub).
Proof. exact (getAff_filter limb aff filters k types). Qed.
Print Assumptions C14_filter_objects.
Theorem C14_unknown_type : exists (aff : gmap string (list (string * nat))) filters,
  filters !! "leg"%string = Some ["Support"; "Lean"]%string /\
  is_Some (aff !! "Support"%string) /\ getAffObjectsForLimb "leg" aff filters = Ub.
Proof. exact aff_unknown_type. Qed.
Print Assumptions C14_unknown_type.
(** a limb with its own filter is given the objects of another limb's filter *)
Theorem C14_own_filter_ignored : exists (aff : gmap string (list (string * nat))) filters,
  filters !! "leg"%string = Some ["Support"]%string /\
  aff !! "Support"%string = Some [("floor"%string, 1)] /\
  getAffObjectsForLimb "leg" aff filters = Ok [2].
Proof. exact aff_own_filter. Qed.
Example C14_example : let aff : gmap string (list (string * nat)) := {["Support" := [("floor", 1); ("step", 3)]; "Lean" := [("wall", 2)]]}%string in
  getAffObjectsForLimb "leg" aff ∅ = Ok [2; 1; 3] /\
  getAffObjectsForLimb "leg" aff {["leg" := ["Support"]]}%string = Ok [1; 3].
Proof. split; by vm_compute. Qed.
Print Assumptions C14_own_filter_ignored.
