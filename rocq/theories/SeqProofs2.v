(** The contact generator is a reliable generator. *)
From Coq Require Import Reals ZArith Lia Lra.
From Verif Require Import Maps Vec VecProofs StateModel StateSpec StateReal StateRealProofs ProjModel CombModel GenModel GenProofs13 SeqModel SeqSpec.
Local Open Scope R_scope.

Section proofs.
Context {Cand Smp : Type}.
Notation GSt := (State (list R) vec3 mat3 Z).

Lemma moved3_refl p : moved3 p p = false.
Proof.
  apply moved3_false. unfold dist3, vnorm, vnorm2, vsub, vdot. destruct p as [x y z]; simpl.
  match goal with |- R_sqrt.sqrt ?e <= _ => replace e with 0 by ring end. rewrite R_sqrt.sqrt_0. lra.
Qed.
Lemma alike_consistent (s : PSt) (t : GSt) : alike s t -> consistent s -> consistent t.
Proof.
  intros (_ & E1 & E2 & E3 & E4 & E5 & E6 & _) [H1 H2 H3 H4]. split; rewrite ?E1, ?E2, ?E3, ?E4, ?E5, ?E6; done.
Qed.
Lemma alike_counted (r s : PSt) (t : GSt) : alike r t -> counted r s -> consistent (recounted t) -> consistent s.
Proof.
  intros (_ & E1 & E2 & E3 & E4 & E5 & E6 & _) (_ & F1 & F2 & F3 & F4 & F5 & _ & _ & F7) [H1 H2 H3 H4]. simpl in *.
  split; rewrite ?F1, ?F2, ?F3, ?F4, ?F5, ?F7, <- ?E1, <- ?E2, <- ?E3, <- ?E4, <- ?E5; done.
Qed.

Definition on_limbs (limbs : list string) (s : PSt) : Prop := consistent s /\ forall x, x ∈ order s -> x ∈ limbs.

Lemma generated_reliable (Sv : nat -> vec3 -> vec3 -> R -> services (list R) vec3 mat3 Cand Smp) threshold test quasi postural compute limbs :
  generated Sv threshold test quasi postural compute ->
  (forall k d a t, limbNames (Sv k d a t) = limbs) -> NoDup limbs ->
  (forall k d a t x, x ∈ limbs -> groupOf (Sv k d a t) x = [x]) ->
  reliable compute (on_limbs limbs).
Proof.
  intros Hg Hl Hnd Hgr k prev c d a t [Hc Ho]. destruct (Hg k prev c d a t) as (prev' & fuel & cr & h & Hal & Hcc & F1 & F2 & F3 & F4 & F5 & Hr).
  pose proof (alike_consistent _ _ Hal Hc) as Hc'.
  assert (Ho' : order prev' = order prev) by apply Hal.
  assert (Hnd' : NoDup (limbNames (Sv k d a t))) by (by rewrite Hl).
  assert (Hgr' : forall x, x ∈ order prev' -> groupOf (Sv k d a t) x = [x]) by (intros x Hx; apply Hgr, Ho; by rewrite <- Ho').
  set (r := compute k prev c d a t) in *. simpl. split.
  - rewrite F1, F3, F5. by apply (next_step_reposition _ moved3 _ _ _ _ _ _ _ _ _ Hnd' Hc' moved3_refl Hcc).
  - intros s Hs. split.
    + eapply alike_counted; [exact Hr|exact Hs|]. by apply (next_step_tables _ moved3 _ _ _ _ _ _ _ _ _ Hnd' Hc' Hgr' Hcc).
    + intros x Hx. assert (Hx' : x ∈ order (result (cr_rep cr))).
      { destruct Hr as (_ & _ & _ & _ & _ & E & _). destruct Hs as (_ & _ & _ & _ & _ & F & _). by rewrite E, <- F. }
      destruct (next_step_order _ moved3 _ _ _ _ _ _ _ _ _ Hnd' Hc' Hgr' Hcc x Hx') as [H|H]; [|by rewrite Hl in H].
      apply Ho. by rewrite <- Ho'.
Qed.
End proofs.
