(** Concrete cases for the dynamic path validation. *)
From Coq Require Import Lra Lia.
From Verif Require Import Maps MapsProofs Vec SampProofs ValidModel ValidSpec ValidProofs ValidProofs2 ValidProofs3 ValidExamples
  DpvModel DpvSpec DpvProofs DpvProofs2 DpvProofs3.
Local Open Scope nat_scope.

(** the robot of ValidExamples along the line of reals: the foot always touches obstacle 2
    and the arm obstacle 7 *)
Definition dp_hit (q : R) (n : string) (o : nat) : bool :=
  (bool_decide (n = "foot"%string) && (o =? 2)) || (bool_decide (n = "arm"%string) && (o =? 7)).
Definition dp_eval (t : R) : bool * R := (true, t).
Definition dp_any (t : R) : outcome R := Ok t.
Definition dp_acc (_ : R) : nat := 0.
Definition dp_fill (_ : R) (_ : gmap string nat) : nat := 0.
Definition dp_d : dynVal nat nat nat := mkDyn None false 0 0.
Definition dp_run := validateFilter dp_acc dp_fill (fun _ _ => false) (fun _ => true) (fun _ => true) dp_hit dp_eval dp_any (Req := nat) 1 0 (3/2).

Lemma dp_paired : all_paired ex_val. Proof. apply create_paired. Qed.
Lemma dp_default : defaultFilter ex_val = ["arm"%string; "foot"%string]. Proof. vm_compute. reflexivity. Qed.
Lemma dp_reach q n : n ∈ ["arm"%string; "foot"%string] -> reaches ex_val (dp_hit q) n.
Proof.
  intros Hn. assert (exists rom, roms ex_val !! n = Some rom /\ (n = "arm"%string /\ pairs rom = [7] \/ n = "foot"%string /\ pairs rom = [1; 2; 3; 7])) as (rom & Hr & Hp).
  { rewrite !elem_of_cons, elem_of_nil in Hn. destruct Hn as [->|[->|[]]]; eexists; (split; [vm_compute; reflexivity|]).
    - left. done.
    - right. done. }
  destruct Hp as [[-> Hp]|[-> Hp]]; [exists rom, 7|exists rom, 2]; rewrite Hp; (split; [done|]); (split; [|done]).
  - left.
  - right. left.
Qed.
Lemma dp_acceptable f t : f ⊆ ["arm"%string; "foot"%string] -> NoDup f ->
  acceptable (fun _ => true) (fun _ => true) dp_hit dp_eval ex_val f t t.
Proof. intros Hs Hn. split_and!; try done. intros r Hr. right. apply dp_reach. by apply Hs. Qed.
Lemma dp_steady qs : steady dp_hit ex_val qs.
Proof.
  intros q q' n o o' _ _ _ H H'. unfold dp_hit in H, H'.
  repeat case_bool_decide; subst; cbn in H, H'; rewrite ?orb_false_r in H, H'; try done; apply Nat.eqb_eq in H, H'; congruence.
Qed.
Lemma dp_touching q : same_touching dp_hit ex_val ["arm"%string; "foot"%string] 0%R q.
Proof. intros n. rewrite dp_default. split; intros [H _]; (split; [done|by apply dp_reach]). Qed.
(** accepted although no acceleration is admissible *)
Lemma dp_accepted : exists s, dp_run false ["arm"%string; "foot"%string] 9 (ex_val, dp_d) = Some (Ok (true, Whole, None, s)).
Proof.
  destruct (instants_exist 1 0 (3/2)) as [ts Hts]; [lra|lra|].
  destruct (steady_accepted dp_acc dp_fill (fun _ _ => false) (fun _ => true) (fun _ => true) dp_hit dp_eval dp_any 1 0 (3/2)
    ["arm"%string; "foot"%string] ex_val dp_d 0%R) as (v' & d' & n & H); [lra|lra|apply dp_paired|done|done|by rewrite dp_default| | |].
  - intros t _. exists t. split; [|apply dp_touching]. apply dp_acceptable; [done|]. rewrite <- dp_default. apply create_default_nodup.
  - apply dp_steady.
  - exists (v', d'). specialize (H (Nat.max n 9) ltac:(lia)). unfold dp_run. etransitivity; [|exact H]. clear H.
    unfold validateFilter. cbn [dp_any]. destruct (initialReport _ _ _ _ _); try done.
    destruct Hts as (k & Hk & ->).
    assert (Hk1 : k = 1).
    { assert (INR k < 2)%R by lra. assert (1/2 < INR k)%R by (rewrite S_INR in Hk; lra).
      assert (k < 2) by (apply INR_lt; cbn; lra). assert (0 < k) by (apply INR_lt; cbn; lra). lia. }
    subst k. assert (Hi : instants 1 0 (3/2) (map (fun k => 0 + INR k * 1)%R (seq 0 2) ++ [(3/2)%R])).
    { exists 1. split; [exact Hk|reflexivity]. }
    rewrite (forward_instants _ 1 0 (3/2) ltac:(lra) _ 9 a Hi) by (cbn; lia).
    rewrite (forward_instants _ 1 0 (3/2) ltac:(lra) _ (Nat.max n 9) a Hi); [done|]. cbn. lia.
Qed.
(** with the filter that leaves the arm out, the same path is rejected at its start *)
Lemma dp_rejected : exists s n, forall fuel, n <= fuel ->
  dp_run false ["foot"%string] fuel (ex_val, dp_d) = Some (Ok (false, Extract 0 0, Some 0%R, s)).
Proof.
  destruct (narrower_filter_rejected dp_acc dp_fill (fun _ _ => false) (fun _ => true) (fun _ => true) dp_hit dp_eval dp_any 1 0 (3/2)
    ["foot"%string] ex_val dp_d 0%R "arm"%string) as (v' & d' & n & H); [lra|lra|apply dp_paired|done|done|done| | | | |].
  - rewrite dp_default. intros x Hx. apply elem_of_list_singleton in Hx as ->. right. left.
  - rewrite dp_default. left.
  - rewrite elem_of_list_singleton. done.
  - apply dp_reach. left.
  - exists (v', d'), n. exact H.
Qed.
(** the evaluation in a vector of size zero *)
Lemma dp_empty filter fuel s : validateFilter dp_acc dp_fill (fun _ _ => true) (fun _ => true) (fun _ => true) dp_hit dp_eval
  (fun _ => Ub) (Req := nat) 1 0 (3/2) false filter fuel s = Some Ub.
Proof. reflexivity. Qed.
