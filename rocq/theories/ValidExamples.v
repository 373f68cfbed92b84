(** Concrete cases for the validation properties. *)
From Verif Require Import Maps MapsProofs Vec ValidModel ValidSpec ValidProofs ValidProofs2 ValidProofs3.
Local Open Scope nat_scope.

Definition ex_names : gmap string unit := {["arm"%string := (); "foot"%string := ()]}.
Definition ex_aff_filters : gmap string (list string) :=
  {["arm"%string := ["Lean"%string]; "foot"%string := ["Support"%string; "Lean"%string]]}.
Definition ex_affordances : gmap string (list nat) := {["Lean"%string := [7]; "Support"%string := [1; 2; 3]]}.
Definition ex_val : rbValidation nat nat := create 0 ex_names ["foot"%string] ex_aff_filters ex_affordances.
(** the foot touches obstacle 2, the arm nothing *)
Definition ex_hit (r : string) (o : nat) : bool := bool_decide (r = "foot"%string) && (o =? 2).

Lemma ex_verdicts :
  (exists v rep, validate true true ex_hit (defaultFilter ex_val) ex_val = Ok (true, v, rep)) /\
  (exists v rep, validate true true (fun _ _ => false) (defaultFilter ex_val) ex_val = Ok (false, v, rep)) /\
  (exists v rep r, validate true true ex_hit ["foot"%string] ex_val = Ok (true, v, rep) /\
     roms v !! "foot"%string = Some r /\ pairs r = [2; 1; 3; 7]) /\
  (exists v rep, validate true true ex_hit ["foot"%string; "foot"%string] ex_val = Ok (false, v, rep)) /\
  (exists v rep, validate true true ex_hit ["head"%string] ex_val = Ok (false, v, rep)).
Proof. split_and!; repeat eexists; vm_compute; reflexivity. Qed.

(** the arm reaches nothing, yet a filter naming it passes: it is optional *)
Lemma ex_optional : exists v rep, validate true true (fun _ _ => false) ["arm"%string] ex_val = Ok (true, v, rep) /\
  ~ reaches ex_val (fun _ _ => false) "arm".
Proof.
  do 2 eexists. split; [vm_compute; reflexivity|]. intros (rom & o & _ & _ & H). done.
Qed.

(** the arm has to reach, but no affordance was given for it: nothing is asked *)
Lemma ex_unset : exists v rep,
  let val := create 0 ex_names ["arm"%string] (delete "arm"%string ex_aff_filters) ex_affordances in
  validate true true (fun _ _ => false) (defaultFilter val) val = Ok (true, v, rep).
Proof. do 2 eexists. vm_compute. reflexivity. Qed.

Section path.
Local Open Scope R_scope.
Lemma ex_path : validatePath (fun _ => true) 1 0 (3/2) false 5 = Some (true, Whole, None).
Proof.
  unfold validatePath. cbn [forwardLoop Nat.ltb Nat.leb]. unfold Rltb.
  repeat (match goal with |- context [Rlt_dec ?a ?b] => destruct (Rlt_dec a b); try lra end;
          cbn [forwardLoop Nat.ltb Nat.leb]); reflexivity.
Qed.
(** the first configuration is invalid, and so is the "valid part" *)
Lemma ex_path_invalid_part : exists ok, ok 0 = false /\
  validatePath ok 1 0 2 false 1 = Some (false, Extract 0 0, Some 0).
Proof. exists (fun _ => false). split; [done|]. by apply path_first_invalid. Qed.
End path.

(** one ROM on obstacle 1, then on obstacle 2 with an acceleration that is not admissible *)
Lemma ex_dyn_repeat : exists (d d' : dynVal nat nat nat),
  dynValidate (fun c : nat => c) (fun _ _ => 0) (fun _ _ => false) 5 (Some {["foot"%string := 2]})
    (setInitialReport (Some {["foot"%string := 1]}) d) = Ok (false, d') /\
  dynValidate (fun c : nat => c) (fun _ _ => 0) (fun _ _ => false) 5 (Some {["foot"%string := 2]}) d' = Ok (true, d').
Proof.
  set (d0 := mkDyn None false 0 0 : dynVal nat nat nat).
  destruct (dyn_repeat (fun c : nat => c) (fun _ _ => 0) (fun _ _ => false) 5 {["foot"%string := 2]} {["foot"%string := 1]}
    (setInitialReport (Some {["foot"%string := 1]}) d0)) as (d' & H1 & H2).
  - done.
  - vm_compute. reflexivity.
  - exists "foot"%string, 1, 2. split_and!; [vm_compute; reflexivity..|done].
  - done.
  - exists d0, d'. done.
Qed.
(** contacts change from foot on 1 to foot on 2: then the acceleration is tested *)
Lemma ex_dyn_history : dyn_passed (fun c : nat => c) (fun _ _ => 0) (fun _ a => a =? 5) None {["foot"%string := 1]}
  [(9, {["foot"%string := 1]}); (5, {["foot"%string := 2]}); (5, {["foot"%string := 2]})].
Proof.
  apply PassSame; [done|intros n o o'; congruence|done|].
  apply PassNew; [vm_compute; reflexivity| |done|].
  - intros H. specialize (H "foot"%string 1 2). assert (1 = 2); [apply H; vm_compute; reflexivity|done].
  - apply PassSame; [done|intros n o o'; congruence|done|constructor].
Qed.
(** foot on 1 and arm on 2: taken for the same contacts *)
Lemma ex_dyn_other : ({["foot"%string := 1]} : gmap string nat) <> {["arm"%string := 2]} /\
  forall accOf fill admissible q (d : dynVal nat nat nat), exists d',
  dynValidate accOf fill admissible (q : nat) (Some {["arm"%string := 2]}) (setInitialReport (Some {["foot"%string := 1]}) d) = Ok (true, d').
Proof.
  split.
  - intros H. apply (f_equal (fun m => m !! "arm"%string)) in H. vm_compute in H. done.
  - intros. eexists. apply dyn_other_roms; [vm_compute; reflexivity|].
    apply map_disjoint_singleton_l. vm_compute. reflexivity.
Qed.
