(** Witnesses for the text of a State. *)
From Coq Require Import ZArith Ascii String Lia Reals Lra.
From Verif Require Import Maps MapsProofs Vec StateModel StateSpec StateProofs StateReal PrintModel PrintSpec PrintProofs.
Local Open Scope string_scope.

Definition idrows : rows := (V3 1 0 0, V3 0 1 0, V3 0 0 1).
Definition prOps : list (state_op (list R) vec3 rows) :=
  [OpAdd "RFoot" [0%R] (V3 0 0 0) (V3 0 0 1) idrows; OpAdd "LFoot" [1%R] (V3 0 1 0) (V3 0 0 1) idrows].
Definition prState : PState := fold_left state_step prOps (state_default [] 0%R).
Lemma pr_consistent : consistent prState. Proof. apply consistent_history. Qed.
Lemma pr_contacts : contacts prState = <["LFoot" := true]> (<["RFoot" := true]> ∅). Proof. vm_compute. reflexivity. Qed.
Lemma pr_names k : is_Some (contacts prState !! k) -> k <> "" /\ oneWord k.
Proof.
  rewrite pr_contacts. intros [b Hb]. apply lookup_insert_Some in Hb. destruct Hb as [[<- _]|[_ Hb]].
  - split; [discriminate|]. cbn. repeat split; discriminate.
  - apply lookup_insert_Some in Hb. destruct Hb as [[<- _]|[_ Hb]]; [|rewrite lookup_empty in Hb; discriminate].
    split; [discriminate|]. cbn. repeat split; discriminate.
Qed.
Lemma pr_size : size (contacts prState) = 2%nat.
Proof. rewrite pr_contacts. rewrite map_size_insert_None by reflexivity. rewrite map_size_insert_None by reflexivity. reflexivity. Qed.
Lemma pr_small : (Z.of_nat (size (contacts prState)) < 2 ^ 64)%Z.
Proof. rewrite pr_size. reflexivity. Qed.
Lemma pr_numbers : exists ls, Forall2 (contactNumbers prState) (skeys (contacts prState)) ls.
Proof. apply numbers_exist, pr_consistent. Qed.

(** the previous step: LFoot was elsewhere *)
Definition prBefore : PState := fold_left state_step
  [OpAdd "RFoot" [0%R] (V3 0 0 0) (V3 0 0 1) idrows; OpAdd "LFoot" [1%R] (V3 0 2 0) (V3 0 0 1) idrows] (state_default [] 0%R).
Lemma pr_positions : positions prState = <["LFoot" := V3 0 1 0]> (<["RFoot" := V3 0 0 0]> ∅).
Proof. reflexivity. Qed.
Lemma pr_positions' : positions prBefore = <["LFoot" := V3 0 2 0]> (<["RFoot" := V3 0 0 0]> ∅).
Proof. reflexivity. Qed.
Lemma pr_moved k : k ∈ ["LFoot"] <-> new_or_moved prBefore prState k.
Proof.
  rewrite elem_of_list_singleton. unfold new_or_moved, displacement. rewrite pr_positions, pr_positions'. split.
  - intros ->. split; [eexists; reflexivity|]. right. exists 1%R. split; [|lra]. exists (V3 0 2 0), (V3 0 1 0). split; [reflexivity|]. split; [reflexivity|].
    unfold dist3, vnorm, vnorm2, vdot, vsub; cbn. replace ((0 - 0) * (0 - 0) + (2 - 1) * (2 - 1) + (0 - 0) * (0 - 0))%R with 1%R by lra. by rewrite sqrt_1.
  - intros [[p Hp] Hm]. apply lookup_insert_Some in Hp. destruct Hp as [[<- _]|[N Hp]]; [reflexivity|].
    apply lookup_insert_Some in Hp. destruct Hp as [[<- <-]|[_ Hp]]; [|rewrite lookup_empty in Hp; discriminate].
    exfalso. destruct Hm as [Hm|(d & (q & p & Hq & Hp & ->) & Hd)]; [discriminate Hm|].
    change (Some (V3 0 0 0) = Some q) in Hq. change (Some (V3 0 0 0) = Some p) in Hp. injection Hq as <-. injection Hp as <-.
    unfold dist3, vnorm, vnorm2, vdot, vsub in Hd; cbn in Hd. replace ((0 - 0) * (0 - 0) + (0 - 0) * (0 - 0) + (0 - 0) * (0 - 0))%R with 0%R in Hd by lra. rewrite sqrt_0 in Hd. lra.
Qed.
Lemma pr_sorted : StronglySorted str_le ["LFoot"] /\ NoDup ["LFoot"].
Proof. split; [repeat constructor|apply NoDup_singleton]. Qed.

(** a text of the integers *)
Fixpoint ticks (c : ascii) (n : nat) : string := match n with O => "" | S n' => String c (ticks c n') end.
Definition unary (z : Z) : string := if (z <? 0)%Z then ticks "-" (Z.to_nat (- z)) else ticks "1" (Z.to_nat z).
Lemma ticks_word c n : c <> " "%char -> c <> "010"%char -> oneWord (ticks c n).
Proof. intros H1 H2. induction n; cbn; auto. Qed.
Lemma unary_word z : oneWord (unary z).
Proof. unfold unary. destruct (z <? 0)%Z; apply ticks_word; discriminate. Qed.
Lemma ticks_inj c n m : ticks c n = ticks c m -> n = m.
Proof. revert m. induction n as [|n IH]; intros [|m] E; try discriminate; auto. injection E as E. f_equal; auto. Qed.
Lemma unary_inj x y : unary x = unary y -> x = y.
Proof.
  unfold unary. destruct (Z.ltb_spec x 0) as [Hx|Hx], (Z.ltb_spec y 0) as [Hy|Hy]; intros E.
  - apply ticks_inj in E. lia.
  - destruct (Z.to_nat (- x)) eqn:E1; [lia|]. destruct (Z.to_nat y) eqn:E2; [discriminate|]. discriminate.
  - destruct (Z.to_nat (- y)) eqn:E1; [lia|]. destruct (Z.to_nat x) eqn:E2; [discriminate|]. discriminate.
  - apply ticks_inj in E. lia.
Qed.
Definition sign (x : R) : string := if Rlt_dec x 0 then "-1" else "1".
Lemma sign_word x : oneWord (sign x).
Proof. unfold sign. destruct (Rlt_dec x 0); cbn; repeat split; discriminate. Qed.

(** a count that is too high, a contact without a name *)
Definition prHigh : PState := mkState [] ∅ ∅ ∅ ∅ [] 1 false 0%R.
Lemma pr_high : (Z.of_nat (size (normals prHigh)) < nbContacts prHigh)%Z. Proof. reflexivity. Qed.
Definition prEmpty : PState := fold_left state_step [OpAdd "" [] (V3 0 0 0) (V3 0 0 1) idrows] (state_default [] 0%R).
Lemma pr_empty : consistent prEmpty /\ (Z.of_nat (size (contacts prEmpty)) < 2 ^ 64)%Z /\ is_Some (contacts prEmpty !! "").
Proof. split; [apply consistent_history|]. split; [vm_compute; reflexivity|]. eexists. vm_compute. reflexivity. Qed.
