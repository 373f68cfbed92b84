(** Examples for the validity of generated configurations. *)
From Coq Require Import Reals ZArith Lra Lia.
From Verif Require Import Maps MapsProofs CombModel GenModel GenSpec GenProofs13 StateModel StateSpec StateReal StateProofs Vec VecProofs SampModel ToolModel ToolSpec
  ProjModel ProjSpec ProjProofs ProjProofs2 SeqModel SeqSpec SeqProofs SeqProofs2 SeqProofs3 SeqProofs4 SeqProofs5 SeqProofs7 SeqProofs8 SeqExamples HoldSpec HoldProofs HoldRobot HoldProofs2 HoldProofs3
  HoldExamples StepSpec StepProofs StepRobot SafeSpec SafeProofs SafeProofs2.
From Verif Require Import StateModel ToolSpec ProjModel.

(** ** Numbers: there is an obstacle at 5 *)
Section numbers.
Local Open Scope string_scope.
Local Open Scope nat_scope.
Definition vclear (e : string) (c : nat * nat) : bool := negb (Nat.eqb (ntwo e c) 5).
Definition vserv : services (nat * nat) nat nat nat (string * nat) :=
  mkServices (nat * nat) nat nat nat (string * nat) (fun _ _ _ => [3; 5; 6]) (fun _ e x c _ => (Nat.leb 4 x, nset e x c)) (fun x => x) ntwo (fun _ _ => 0)
    (fun _ => 9%Z) (fun _ _ => true) (fun _ _ => true) vclear (fun e => [(e, 5); (e, 7)]) (fun s c => nset (fst s) (snd s) c)
    (fun c s => (nfits s c, c)) (fun c => vclear "arm" c && vclear "leg" c) ["arm"; "leg"] [] (fun l => [l]) (fun a _ => a) (0, 0) 0 0 0%Z (-1)%Z.
Definition vonly (e : string) (c c' : nat * nat) : Prop := forall e', e' ∈ ["arm"; "leg"] -> e' <> e -> ntwo e' c = ntwo e' c'.
Lemma vserv_safe : safe_services vserv vonly.
Proof.
  split.
  - by intros limb c e _ _.
  - intros limb a b c H1 H2 e He Hn. by rewrite (H1 e He Hn), (H2 e He Hn).
  - intros limb x c cur Hl Ho e He Hn. rewrite (Ho e He Hn). simpl. by rewrite nset_other.
  - intros limb smp c Hl Hs e He Hn. simpl in Hs. rewrite !elem_of_cons, elem_of_nil in Hs.
    destruct Hs as [->|[->|[]]]; simpl; by rewrite nset_other.
  - intros limb c c' Hl Ho Hv Hlv. simpl in *. rewrite andb_true_iff in *. destruct Hv as [Ha Hg]. unfold vclear in *.
    rewrite !elem_of_cons, elem_of_nil in Hl. destruct Hl as [->|[->|[]]].
    + split; [exact Hlv|]. rewrite <- (Ho "leg") by set_solver. exact Hg.
    + split; [|exact Hlv]. rewrite <- (Ho "arm") by set_solver. exact Ha.
  - done.
  - intros x l ls Hx [= -> _]. done.
Qed.
(** the leg is in contact at 1, the arm at 2; the second configuration has the leg at 1 and the arm at 5,
    where the arm may not be *)
Definition vstart : State (nat * nat) nat nat Z := fold_left state_step [OpAdd "leg" (1, 2) 1 0 0] (state_default (1, 2) 0%Z).
Lemma vstart_ok : (consistent vstart /\ forall x, x ∈ order vstart -> x ∈ limbNames vserv) /\ validate vserv (configuration vstart) = true.
Proof.
  split; [|reflexivity]. split; [apply consistent_history|]. intros x Hx. change (order vstart) with ["leg"] in Hx. apply elem_of_list_singleton in Hx as ->. simpl. set_solver.
Qed.
Lemma vstep : (exists cr h, ComputeContacts_next vserv (fun a b => negb (Nat.eqb a b)) 10 vstart (1, 5) 3 false true false = Some (cr, h) /\
    repositionedInPlace cr = false /\ configuration (result (cr_rep cr)) = (1, 6) /\ rstatus (cr_rep cr) = REACHABLE_CONTACT) /\
  exists cr h, ComputeContacts_next vserv (fun a b => negb (Nat.eqb a b)) 10 vstart (8, 2) 3 false true false = Some (cr, h) /\
    repositionedInPlace cr = true /\ configuration (result (cr_rep cr)) = (6, 2).
Proof. split; (eexists _, _; split; [vm_compute; reflexivity|]; split_and!; reflexivity). Qed.
Lemma vfirst : exists r, ComputeContacts_initial vserv (1, 2) 3 false = (r, false) /\ configuration r = (6, 6) /\ validate vserv (1, 2) = true.
Proof. eexists. split; [vm_compute; reflexivity|]. split; reflexivity. Qed.
End numbers.

Local Open Scope R_scope.
(** ** The robot with a leg and an arm, in front of a wall: neither the root nor the leg go below -1 *)
Definition vvalid (q : list R) : bool := Rleb (-1) (nth 0 q 0) && Rleb (-1) (nth 7 q 0).
Definition vbody : fullbody := mkFullbody hrobot (<["leg" := hleg]> (<["arm" := harm]> ∅))%string (hq 0) [] false vvalid ∅ 0.
Lemma vvalid_hq x : vvalid (hq x) = true <-> -1 <= x.
Proof.
  unfold vvalid, Rleb, hq. cbn. destruct (Rle_dec (-1) 0); [|lra]. rewrite andb_true_r. destruct (Rle_dec (-1) x); split; (done || lra).
Qed.
Notation vsrv oct stab := (made hcheck (fun a _ => a) vbody oct stab hsamples).
Lemma vservices oct stab : robot_services hcheck (fun a _ => a) vbody (vsrv oct stab).
Proof.
  apply made_services.
  - intros e l [[_ ->]|[_ ->]]%hlimbs; by eexists.
  - intros e le fe x l [[-> ->]|[-> ->]]%hlimbs Hf [[-> ->]|[-> ->]]%hlimbs Hne j Hj; try done.
    + apply hframe_leg in Hf as ->. apply habove in Hj as [->|Hj]; [done|]. rewrite Hj. done.
    + apply hframe_arm in Hf as ->. apply habove in Hj as [->|Hj]; [done|]. rewrite Hj. done.
  - intros limb x e le fe [l [[-> ->]|[-> ->]]%hlimbs] Hx [[-> ->]|[-> ->]]%hlimbs Hf Hne j i Hj Hi Hs; try done.
    + apply hframe_arm in Hf as ->. destruct Hj as [Hj Hk]. pose proof (habove "shoulder" j (conj Hj Hk)) as Hn.
      unfold hsamples in Hx. simpl in Hx. rewrite !elem_of_cons, elem_of_nil in Hx.
      apply hin_tree in Hj as [->|[->| ->]]; cbn in Hi, Hn; destruct Hx as [->|[->|[]]]; unfold sets in Hs; cbn in Hs; try lia; naive_solver.
    + apply hframe_leg in Hf as ->. destruct Hj as [Hj Hk]. pose proof (habove "hip" j (conj Hj Hk)) as Hn.
      unfold hsamples in Hx. simpl in Hx. apply elem_of_list_singleton in Hx as ->.
      apply hin_tree in Hj as [->|[->| ->]]; cbn in Hi, Hn; unfold sets in Hs; cbn in Hs; try lia; naive_solver.
Qed.
Lemma vreaches n j : reaches (fun j => jname j = n) htree j -> in_tree htree j /\ jname j <> n.
Proof. intros H. split; [by eapply reaches_in_tree|]. by induction H. Qed.
Lemma vsafe oct stab : safe_robot vbody (vsrv oct stab).
Proof.
  split; [done| |done|done].
  intros limb l x j i Hl Hx Hj Hi Hs. apply (vreaches (limbJoint l)) in Hj as [Hj Hn].
  apply hlimbs in Hl as [[-> ->]|[-> ->]]; unfold hsamples in Hx; simpl in Hx; rewrite ?elem_of_cons, elem_of_nil in Hx;
    apply hin_tree in Hj as [->|[->| ->]]; cbn in Hi, Hn; destruct_or?; subst; unfold sets in Hs; cbn in Hs; try lia; naive_solver.
Qed.
Lemma vcomp_valid : keeps_valid vbody hcomp (holds hbody).
Proof. intros k prev c d a t _ _. apply vvalid_hq. pose proof (pos_INR (S k)). lra. Qed.
Lemma vcomp_run : exists r,
  InterpolateConfigs hcomp 9 0 false (fun _ _ => false) hcheck (fun a _ => a) vbody hbegin hend 10 None [hq 0; hq 1; hq 2] 1 0 false = Some (Ok r) /\
  r !! 0%nat = Some (0, hbegin) /\ last r = Some (0 + 1, hend).
Proof.
  unfold InterpolateConfigs. rewrite hcomp_loop. cbn [length Nat.ltb Nat.leb].
  rewrite (goal_one hcheck vbody hend None _ (0 + 1) (recount (sst (hq (INR 2)) (Some (hfoot (hq (INR 2)))) None)) "arm"); [|reflexivity|].
  - cbn [fst]. match goal with |- context [FilterStates _ _ _ _ _ _ ?l false] => destruct (FS_ends false (fun _ _ => false) hcheck (fun a _ => a) vbody l false) as (o & Ho & Hr) end.
    unfold FilterStates in *. cbn [length Nat.leb app] in *. specialize (Ho 10%nat ltac:(lia)). injection Ho as <-. eexists. split; [reflexivity|].
    destruct (Hr _ eq_refl) as [H1 H2]. split; [exact H1|]. exact H2.
  - intros e. unfold differs, hend.
    change (new_or_moved (recount (sst (hq (INR 2)) (Some (hfoot (hq (INR 2)))) None))) with (gained (sst (hq (INR 2)) (Some (hfoot (hq (INR 2)))) None)).
    change (new_or_moved (sst (hq 2) (Some (hfoot (hq 2))) (Some (hhand (hq 2)))) (recount (sst (hq (INR 2)) (Some (hfoot (hq (INR 2)))) None)))
      with (gained (sst (hq 2) (Some (hfoot (hq 2))) (Some (hhand (hq 2)))) (sst (hq (INR 2)) (Some (hfoot (hq (INR 2)))) None)).
    replace (INR 2) with 2 by (simpl; lra). rewrite !sst_gained, !moved_some. pose proof (near_self (hfoot (hq 2))). pose proof (moved_new (hhand (hq 2))). pose proof (moved_none (Some (hhand (hq 2)))). naive_solver.
Qed.
Lemma vends : wholeValid vbody (configuration hbegin) = true /\ wholeValid vbody (configuration hend) = true /\ wholeValid vbody (hq (-2)) = false.
Proof.
  split_and!; [apply vvalid_hq; cbn; lra|apply vvalid_hq; cbn; lra|]. apply not_true_iff_false. intros H. apply (proj1 (vvalid_hq (-2))) in H. lra.
Qed.
