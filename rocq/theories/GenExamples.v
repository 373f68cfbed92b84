(** Concrete services, states and helpers: they meet the hypotheses of the
    generator theorems, and witness the refutations. *)
From Coq Require Import ZArith.
From Verif Require Import Maps MapsProofs StateModel StateSpec StateProofs CombModel CombSpec CombProofs
  GenModel GenSpec GenProofs GenProofs4.
Local Open Scope string_scope.

(** Everything is a number: a configuration is one number, the effector is
    placed at 100 + configuration, and projecting candidate c sets the
    configuration to c. *)
Notation nState := (State nat nat nat Z).
Notation nServices := (services nat nat nat nat nat).
Notation nHelper := (helper nat nat nat).

Definition mk_services (oct : string -> list nat) (ikf : bool -> string -> nat -> nat -> bool * nat)
    (stab : nState -> Z) (rq : nState -> nState -> bool) (lv : string -> nat -> bool)
    (proj : nat -> nState -> bool * nat) (val : nat -> bool) (names : list string)
    (grp : string -> list string) : nServices :=
  mkServices nat nat nat nat nat (fun l _ _ => oct l) (fun p l c q _ => ikf p l c q) (fun c => 10 * c)
    (fun _ q => 100 + q) (fun _ q => 200 + q) stab rq rq lv (fun _ => [41; 42; 43]) (fun s _ => s)
    proj val names [] grp (fun a _ => a) 0 666 667 668%Z (-1000)%Z.

(** candidate 1 never projects; the full state cannot be maintained *)
Definition sv : nServices :=
  mk_services (fun _ => [1; 2; 3; 4]) (fun _ _ c _ => (Nat.leb 2 c, c)) (fun s => Z.of_nat (configuration s))
    (fun _ s => Nat.leb 4 (configuration s)) (fun _ _ => true)
    (fun q s => (negb (has "lf" (contacts s)), q)) (fun _ => true)
    ["lf"; "lh"; "rf"] (fun l => [l]).

(** two contacts *)
Definition w2 : nState :=
  fold_left state_step [OpAdd "lf" 0 10 20 30; OpAdd "rf" 0 11 21 31] (state_default 0 0%Z).
Lemma w2_consistent : consistent w2.
Proof. apply consistent_history. Qed.

Definition hp (chkM chkG ifFails one : bool) (t : Z) (m : nat) (qs reach acc post : bool) (w : nState) : nHelper :=
  mkHelper w w [] chkM chkG ifFails one t 1 m qs reach false acc post.

(** ** witnesses of the refutations *)

(** C15 with the stability check: the result is neither stable nor looked for *)
Definition sv_unstable : nServices :=
  mk_services (fun _ => []) (fun _ _ c _ => (true, c)) (fun _ => 0%Z) (fun _ _ => true) (fun _ _ => true)
    (fun q _ => (true, q)) (fun _ => true) ["lf"; "rf"] (fun l => [l]).
Lemma C15_unstable_success : exists rep h',
  maintain_contacts sv_unstable (hp true true false true 3 1 false false true false w2) = (rep, h') /\
  success rep = true /\ stable (result rep) = false /\ (isStable sv_unstable (result rep) < 3)%Z /\
  cands h' <> [].
Proof. eexists _, _. split_and!; [by vm_compute|done|done|by vm_compute|done]. Qed.

(** the full state does not project; without "lf" unstable; without "rf" stable but in collision *)
Definition sv_collide : nServices :=
  mk_services (fun _ => []) (fun _ _ c _ => (true, c))
    (fun s => if has "lf" (contacts s) then 9%Z else 0%Z) (fun _ _ => true) (fun _ _ => true)
    (fun q s => if has "lf" (contacts s) then (negb (has "rf" (contacts s)), 7) else (true, 5))
    (fun q => negb (Nat.eqb q 7)) ["lf"; "rf"] (fun l => [l]).
Lemma C15_collision_success : exists rep h',
  maintain_contacts sv_collide (hp true true false true 3 1 false false true false w2) = (rep, h') /\
  success rep = true /\ validate sv_collide (configuration (result rep)) = false.
Proof. eexists _, _. split_and!; [by vm_compute|done|done]. Qed.

(** C17: with the postural task a stable but unreachable sample of the first pass
    is announced by the second pass, which found nothing: the configuration is
    the default one and the placement was never assigned *)
Definition sv_postural : nServices :=
  mk_services (fun _ => [3]) (fun p _ c _ => (p, c)) (fun _ => 9%Z) (fun _ _ => false) (fun _ _ => true)
    (fun q _ => (true, q)) (fun _ => true) ["lf"; "lh"; "rf"] (fun l => [l]).
Lemma C17_postural_junk : exists rep,
  generate_contact sv_postural (hp false true false true 3 1 true true true true w2) "lh" w2 = (rep, true) /\
  success rep = true /\ rstatus rep = STABLE_CONTACT /\
  configuration (result rep) = emptyCfg sv_postural /\
  positions (result rep) !! "lh" = Some (junkPos sv_postural) /\
  normals (result rep) !! "lh" = Some (junkPos sv_postural) /\
  rotations (result rep) !! "lh" = Some (junkRot sv_postural).
Proof. eexists. split_and!; [by vm_compute|reflexivity..]. Qed.

(** C17: the first contact is declared stable without being looked at *)
Definition w0 : nState := state_default 5 0%Z.
Lemma C17_single_unchecked : exists rep,
  generate_contact sv (hp false true false false 100 1 true true true false w0) "lh" w0 = (rep, false) /\
  rstatus rep = REACHABLE_CONTACT /\ stable (result rep) = true /\ (isStable sv (result rep) < 100)%Z.
Proof. eexists. split_and!; [by vm_compute|reflexivity..]. Qed.

(** C20: two free limbs a and b; the state is only stable once [a] has been
    created a second time *)
Definition sv_twice : nServices :=
  mk_services (fun _ => [3]) (fun _ _ c _ => (true, c))
    (fun s => if Nat.leb 3 (length (order s)) then 9%Z else 0%Z) (fun _ _ => true) (fun _ _ => true)
    (fun q _ => (true, q)) (fun _ => true) ["a"; "b"] (fun l => [l]).
Lemma C20_twice : exists rep h',
  consistent w0 /\
  gen_contacts sv_twice (hp false true false true 3 2 true false true false w0) = (rep, h') /\
  success rep = true /\ order (result rep) = ["a"; "b"; "a"].
Proof.
  eexists _, _. split_and!; [apply consistent_default|by vm_compute|reflexivity..].
Qed.

(** C21: a failing creation leaves the first limb of the arrangement in the
    helper's working state *)
Lemma C21_working : exists rep h',
  gen_contacts sv_twice (hp false true false true 100 2 true false true false w0) = (rep, h') /\
  success rep = false /\ working h' <> w0.
Proof. eexists _, _. split_and!; [by vm_compute|reflexivity|done]. Qed.

(** C23: no contact can be created again: all of them are lost *)
Lemma C23_lost : exists rep h',
  repositionContacts sv_unstable (hp false true false true 3 1 true false true false w2) = (rep, h') /\
  consistent w2 /\ success rep = false /\ order (result rep) = [] /\
  contacts (result rep) !! "lf" = None /\ contacts (result rep) !! "rf" = None.
Proof. eexists _, _. split_and!; [by vm_compute|apply w2_consistent|reflexivity..]. Qed.

(** C23: unreachable contacts are not accepted, the repositioning succeeds *)
Definition sv_unreach : nServices :=
  mk_services (fun _ => [3]) (fun _ _ c _ => (true, c)) (fun _ => 9%Z) (fun _ _ => false) (fun _ _ => true)
    (fun q _ => (true, q)) (fun _ => true) ["lf"; "rf"] (fun l => [l]).
Lemma C23_unreachable : exists rep h',
  repositionContacts sv_unreach (hp false true false true 3 1 true true false false w2) = (rep, h') /\
  success rep = true /\ order (result rep) = ["rf"; "lf"] /\ acceptUnreach h' = false /\
  forall limb w ps, success (fst (generate_contact sv_unreach
    (hp false true false true 3 1 true true false false w) limb ps)) = false.
Proof.
  eexists _, _. split; [by vm_compute|]. split; [reflexivity|]. split; [reflexivity|]. split; [reflexivity|].
  intros limb w ps. unfold generate_contact, findValidCandidate, candidate_pass. simpl.
  unfold try_candidate. simpl. rewrite andb_false_r. reflexivity.
Qed.

(** C24: no contact at all, and the last one's stability test failed: still stable *)
Lemma C24_stable_unchecked : exists r,
  ComputeContacts_initial sv_unstable 5 3 false = (r, false) /\
  stable r = true /\ order r = [].
Proof. eexists. split_and!; [by vm_compute|reflexivity..]. Qed.

(** "z" is last but its group is in contact: the state is never tested *)
Definition sv_groups : nServices :=
  mk_services (fun _ => [3]) (fun _ _ c _ => (true, c)) (fun _ => 0%Z) (fun _ _ => true) (fun _ _ => true)
    (fun q _ => (true, q)) (fun _ => true) ["a"; "b"; "z"]
    (fun l => if decide (l = "a") then ["a"] else if decide (l = "b" \/ l = "z") then ["b"; "z"] else []).
Lemma sv_groups_sym a b : a ∈ groupOf sv_groups b <-> b ∈ groupOf sv_groups a.
Proof. simpl. repeat case_decide; set_solver. Qed.
Lemma C24_last_group : exists r,
  ComputeContacts_initial sv_groups 5 3 false = (r, false) /\
  stable r = true /\ order r = ["a"; "b"] /\ (isStable sv_groups r < 3)%Z.
Proof. eexists. split_and!; [by vm_compute|reflexivity..]. Qed.
