(** Concrete cases for one step of the generator. *)
From Coq Require Import ZArith Lia.
From Verif Require Import Maps MapsProofs StateModel StateSpec StateProofs CombModel CombSpec GenModel GenSpec HoldSpec HoldExamples StepSpec StepProofs StepProofs2.
From Verif Require Import StateModel.
Local Open Scope string_scope.
Local Open Scope nat_scope.

(** ** A robot with a root: its place, and those of a leg and an arm *)
Definition rkeeps (s : State (nat * (nat * nat)) nat nat Z) (c : nat * nat) : bool :=
  forallb (fun e => match positions s !! e with Some p => Nat.eqb p (ntwo e c) | None => true end) ["arm"; "leg"].
Definition rserv : services (nat * (nat * nat)) nat nat nat (string * nat) :=
  mkServices (nat * (nat * nat)) nat nat nat (string * nat) (fun _ _ _ => [3; 5]) (fun _ e x c _ => (Nat.leb 4 x, (fst c, nset e x (snd c)))) (fun x => x)
    (fun e c => ntwo e (snd c)) (fun _ _ => 0)
    (fun _ => 9%Z) (fun _ _ => true) (fun _ _ => true) (fun _ _ => true) (fun e => [(e, 7)]) (fun s c => (fst c, nset (fst s) (snd s) (snd c)))
    (fun c s => (rkeeps s (snd c), c)) (fun _ => true) ["arm"; "leg"] [] (fun l => [l]) (fun a _ => a) (0, (0, 0)) 0 0 0%Z (-1)%Z.
Lemma rserv_root : root_services rserv (fun c c' => fst c = fst c') (fun _ c c' => fst c = fst c').
Proof.
  split; try done.
  - intros a b c H1 H2. congruence.
  - by intros conf cur c [= _ <-].
  - intros x l ls Hx [= -> _]. done.
Qed.
(** the leg is in contact at 1 *)
Definition rstart : State (nat * (nat * nat)) nat nat Z := fold_left state_step [OpAdd "leg" (0, (1, 2)) 1 0 0] (state_default (0, (1, 2)) 0%Z).
Lemma rstart_ok : consistent rstart /\ forall x, x ∈ order rstart -> x ∈ limbNames rserv.
Proof.
  split; [apply consistent_history|]. intros x Hx. change (order rstart) with ["leg"] in Hx. apply elem_of_list_singleton in Hx as ->. simpl. set_solver.
Qed.
(** the root goes to 4: the leg stays and the arm makes contact at 5, or the leg cannot stay and the root stays at 0 *)
Lemma rstep : (exists cr h, ComputeContacts_next rserv (fun a b => negb (Nat.eqb a b)) 10 rstart (4, (1, 2)) 3 false true false = Some (cr, h) /\
    repositionedInPlace cr = false /\ configuration (result (cr_rep cr)) = (4, (1, 5)) /\ rstatus (cr_rep cr) = REACHABLE_CONTACT) /\
  exists cr h, ComputeContacts_next rserv (fun a b => negb (Nat.eqb a b)) 10 rstart (4, (8, 2)) 3 false true false = Some (cr, h) /\
    repositionedInPlace cr = true /\ configuration (result (cr_rep cr)) = (0, (5, 2)).
Proof. split; (eexists _, _; split; [vm_compute; reflexivity|]; split_and!; reflexivity). Qed.

(** ** Failed attempts are not undone *)
(** three contacts, no place for a new one; the robot is robust with the contacts A and C only; a state is
    reachable from another if they differ by one contact at most *)
Definition differ (a b : list string) : nat := length (filter (fun x => x ∉ b) a) + length (filter (fun x => x ∉ a) b).
Definition kserv : services nat nat nat nat nat :=
  mkServices nat nat nat nat nat (fun _ _ _ => []) (fun _ _ _ c _ => (false, c)) (fun x => x) (fun _ _ => 0) (fun _ _ => 0)
    (fun s => if bool_decide (order s = ["A"; "C"]) then 5%Z else 0%Z) (fun a b => Nat.leb (differ (order a) (order b)) 1)
    (fun _ _ => true) (fun _ _ => true) (fun _ => []) (fun _ c => c)
    (fun c _ => (true, c)) (fun _ => true) ["A"; "B"; "C"] [] (fun l => [l]) (fun a _ => a) 0 0 0 0%Z 0%Z.
Definition kstart : State nat nat nat Z := fold_left state_step [OpAdd "A" 0 0 0 0; OpAdd "B" 0 0 0 0; OpAdd "C" 0 0 0 0] (state_default 0 0%Z).
Lemma kstart_queue : to_keep (request kstart 1) = [request kstart 1; without ["A"] (request kstart 1); without ["B"] (request kstart 1); without ["C"] (request kstart 1)].
Proof. reflexivity. Qed.
Definition ktwo : State nat nat nat Z := without ["B"] (request kstart 1).
Lemma kfree : free_limbs kserv (request kstart 1) ktwo = ["B"].
Proof. vm_compute. reflexivity. Qed.
Lemma ktwo_kept : maintained kserv true true (request kstart 1) ktwo ktwo.
Proof.
  exists 1, 1, ktwo. split; [done|]. split.
  { rewrite kfree. econstructor; [by left|constructor]. }
  split; [done|]. split; [by split|]. split; [by vm_compute|]. split; [intros _ _; by vm_compute|]. split; [by split|by vm_compute].
Qed.
Lemma ktwo_made prev test qs post : completed kserv prev 3 test qs post ktwo STABLE_CONTACT (with_stable true ktwo).
Proof.
  apply co_kept; [|by vm_compute|by vm_compute|by split].
  intros x _. split; intros a y b p E; simpl in E; by destruct a.
Qed.
Lemma knot_reset : exists cr h, ComputeContacts_next kserv (fun a b => negb (Nat.eqb a b)) 10 kstart 1 3 true true false = Some (cr, h) /\
  repositionedInPlace cr = true /\ success (cr_rep cr) = false.
Proof. eexists _, _. split; [vm_compute; reflexivity|]. split; reflexivity. Qed.
