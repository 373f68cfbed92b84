(** Witnesses of the refutations about getAffObjectsForLimb. *)
From Coq Require Import ZArith.
From Verif Require Import Maps CombModel.

Lemma aff_unknown_type : exists (aff : gmap string (list (string * nat))) filters,
  filters !! "leg"%string = Some ["Support"; "Lean"]%string /\
  is_Some (aff !! "Support"%string) /\ getAffObjectsForLimb "leg" aff filters = Ub.
Proof.
  exists {["Support"%string := [("o"%string, 1)]]}, {["leg"%string := ["Support"; "Lean"]%string]}.
  split_and!; [done| |by vm_compute]. by eexists.
Qed.

Lemma aff_own_filter : exists (aff : gmap string (list (string * nat))) filters,
  filters !! "leg"%string = Some ["Support"]%string /\
  aff !! "Support"%string = Some [("floor"%string, 1)] /\
  getAffObjectsForLimb "leg" aff filters = Ok [2].
Proof.
  exists {["Support"%string := [("floor"%string, 1)]; "Lean"%string := [("wall"%string, 2)]]},
    {["leg"%string := ["Support"]%string; "back_leg"%string := ["Lean"]%string]}.
  split_and!; by vm_compute.
Qed.
