(** Concrete services for the hypotheses of C114-C118: a robot on a line, with a velocity, and
    an obstacle beyond 5. *)
From Coq Require Import Reals ZArith Lra Lia.
From Verif Require Import VecProofs.
From Verif Require Export PlanProofs4 PlanProofs5.
Local Open Scope R_scope.

(** from, to, duration *)
Definition zP : Type := list R * list R * R.
Definition zinit (p : zP) := fst (fst p).
Definition zend (p : zP) := snd (fst p).
Definition zrange (p : zP) : R * R := (0, snd p).
Definition zlen (p : zP) : R := snd p.
Definition zV (p : zP) : R * R * R := (1, 0, 0).
Definition zx (q : list R) : R := nth 0 q 0.
Definition zvalid (p : zP) : Prop := zx (zinit p) <= 5 /\ zx (zend p) <= 5.
Definition zsm (k : nat) (rev : bool) (n : node nat) (q : list R) : option zP :=
  Some (if rev then (q, cfg n, 1) else (cfg n, q, 1)).
Definition zpara (k : nat) (a b : list R) : option zP :=
  if (length a =? 4)%nat && (length b =? 4)%nat then Some (a, b, 1) else None.
Definition zwall : list R := [5; 0; 0; 0].
Definition zvalidate (k : nat) (p : zP) (rev : bool) : bool * option zP * option R :=
  if Rleb (zx (zinit p)) 5 && Rleb (zx (zend p)) 5 then (true, Some p, None)
  else if rev then
    (false, Some (if Rleb (zx (zend p)) 5 then (zwall, zend p, 1 / 2) else (zend p, zend p, 0)), Some (1 / 2))
  else
    (false, Some (if Rleb (zx (zinit p)) 5 then (zinit p, zwall, 1 / 2) else (zinit p, zinit p, 0)), Some (1 / 2)).
Definition znearest (k : nat) (ns : list (node nat)) (q : list R) (c : nat) (rev : bool) : nat :=
  match list_find (fun n => comp n = c) ns with Some (i, _) => i | None => 0%nat end.
Definition zsame (k : nat) (ns : list (node nat)) (c : nat) (q : list R) : option nat := None.
Definition zgiwc (k : nat) (q : list R) : nat := k.
Definition zshoot (k : nat) : list R := [3; 0; 0; 0].
Definition zqs : list (list R) := [[4; 0; 0; 0]; [7; 0; 0; 0]].

Lemma znearest_ok : nearest_ok znearest.
Proof.
  intros k ns q c rev (i & n & Hi & Hc). unfold znearest.
  destruct (list_find (fun n => comp n = c) ns) as [[j n']|] eqn:Hf.
  - apply list_find_Some in Hf as (Hj & Hcj & _). eauto.
  - exfalso. apply list_find_None in Hf. rewrite Forall_forall in Hf. apply (Hf n); [|assumption]. eapply elem_of_list_lookup_2; eauto.
Qed.
Lemma zsteering_ok : steering_ok zinit zend zsm.
Proof. intros k n q p. unfold zsm. split; intros [= <-]; reflexivity. Qed.
Lemma zparabola_ok : parabola_ok zinit zend zpara.
Proof. intros k a b p. unfold zpara. destruct (_ && _); [|discriminate]. intros [= <-]. auto. Qed.
Lemma zparabola_size : parabola_size zinit zend 1 zpara.
Proof.
  intros k a b p. unfold zpara. destruct (_ && _) eqn:H; [|discriminate]. apply andb_true_iff in H as [H1 H2].
  apply Nat.eqb_eq in H1, H2. intros [= <-]. cbn. lia.
Qed.
Lemma zvalidation_ok : validation_ok zinit zend zrange zvalid zvalidate.
Proof.
  intros k p rev b v r. unfold zvalidate.
  destruct (Rleb (zx (zinit p)) 5) eqn:H1, (Rleb (zx (zend p)) 5) eqn:H2, rev; cbn [andb]; intros [= <- <- <-];
    try apply Rleb_true in H1; try apply Rleb_true in H2; unfold zvalid, zrange; cbn; rewrite ?H1, ?H2;
    unfold zx, zwall in *; cbn in *; (split; [try discriminate; auto|split; try discriminate; intros _; split; auto; try (left; split; assumption || lra); try (intros H; contradiction)]); try (split; [assumption|lra]); try (split; assumption).
Qed.
Lemma zvalidation_reports : validation_reports zvalidate.
Proof.
  intros k p rev. unfold zvalidate. destruct (_ && _); [discriminate|]. destruct rev; discriminate.
Qed.
Lemma zprojector_ok : projector_ok zinit zrange None.
Proof. intros f k p p' H. discriminate. Qed.
Lemma zreaches : reaches_goals zend zsm None None zqs.
Proof.
  intros q _. split; [intros kernel apply_ b H; discriminate|]. intros k n p [= <-]. split; [reflexivity|]. intros f k' p' H. discriminate.
Qed.
Lemma zlasting : lasting zrange zsm None.
Proof. intros k n q p [= <-]. cbn. lra. Qed.

(** the first node at 0, a goal at 4, another one at 7, beyond the obstacle *)
Definition zs : rm zP nat := mkRm [mkNode [0; 0; 0; 0] 0 None; mkNode [4; 0; 0; 0] 1 None; mkNode [7; 0; 0; 0] 2 None] [] 0.
Lemma zfresh : fresh_roadmap 0 0 [1; 2]%nat [1; 2]%nat zs.
Proof.
  split; [reflexivity|]. split; [set_solver|]. split; [eexists; split; reflexivity|].
  split; [|split; [|split]].
  - intros g Hg. apply elem_of_cons in Hg as [->|Hg]; [eexists; split; [reflexivity|set_solver]|].
    apply elem_of_list_singleton in Hg as ->. eexists; split; [reflexivity|set_solver].
  - intros c Hc. apply elem_of_cons in Hc as [->|Hc]; [exists 1%nat; eexists; split; [set_solver|split; reflexivity]|].
    apply elem_of_list_singleton in Hc as ->. exists 2%nat; eexists; split; [set_solver|split; reflexivity].
  - intros i n Hi. destruct i as [|[|[|i]]]; [auto|set_solver..|]. discriminate.
  - intros g g' n n' Hg Hg' Hn Hn'. apply elem_of_cons in Hg as [->|Hg]; [|apply elem_of_list_singleton in Hg as ->];
      (apply elem_of_cons in Hg' as [->|Hg']; [|apply elem_of_list_singleton in Hg' as ->]);
      cbn in Hn, Hn'; injection Hn as <-; injection Hn' as <-; cbn; congruence.
Qed.
Lemma zgoals g n : g ∈ [1; 2]%nat -> nodes zs !! g = Some n -> cfg n ∈ zqs.
Proof.
  intros Hg. apply elem_of_cons in Hg as [->|Hg]; [|apply elem_of_list_singleton in Hg as ->]; intros [= <-]; cbn; unfold zqs; [left|right; left].
Qed.
Notation zplan tj := (plan zP nat zinit zend zrange zlen zV zV zshoot znearest zsame zsm zpara zvalidate zgiwc None None (fun _ _ _ => true) 1 tj).
Lemma zruns n : exists s', zplan true 0%nat 0%nat [1; 2]%nat [1; 2]%nat n zs = Ok (tt, s').
Proof.
  apply (plan_defined (valid := zvalid)) with (qs := zqs); [exact znearest_ok|exact zsteering_ok|exact zparabola_ok|exact zvalidation_ok|exact zprojector_ok|exact zreaches|exact zgoals|exact zfresh|exact zvalidation_reports|].
  intros _. split; [exact zparabola_size|exact zlasting].
Qed.

(** a roadmap where every configuration is before the obstacle: the goal at 4 only *)
Definition zvalidate' (k : nat) (p : zP) (rev : bool) : bool * option zP * option R := (true, Some p, None).
Lemma zjoined' (rev : bool) c q : always_joined zinit zend zrange zsm zvalidate' rev c q.
Proof.
  intros k n _. unfold zsm. destruct rev; (eexists; split; [reflexivity|]; split; [reflexivity|]; split; [cbn; lra|]; intros k'; exists None; reflexivity).
Qed.
Lemma zvalidation_ok' : validation_ok zinit zend zrange (fun _ => True) zvalidate'.
Proof. intros k p rev b v r [= <- <- <-]. auto. Qed.
Definition zs' : rm zP nat := mkRm [mkNode [0; 0; 0; 0] 0 (Some 0%nat); mkNode [4; 0; 0; 0] 1 (Some 0%nat)] [] 0.
Lemma ztrees' : trees 0 0 [1]%nat zs'.
Proof.
  intros i n Hi. destruct i as [|[|i]]; [| |discriminate]; injection Hi as <-; cbn; (split; [intros H; try discriminate; apply reach_refl|]);
    intros g ng Hg; apply elem_of_list_singleton in Hg as ->; intros [= <-]; cbn; intros H; try discriminate; apply reach_refl.
Qed.

(** the direct path, cut by the steering method at 1, is taken for a path to the goal at 4 *)
Definition zcut (k : nat) (rev : bool) (n : node nat) (q : list R) : option zP := Some (cfg n, [1; 0; 0; 0], 1).
Lemma zshort : tryConnectInitAndGoals zP nat zinit zend zrange zlen zV zV zsame zcut zpara zvalidate' zgiwc None None (fun _ _ _ => true) 1 false 0%nat [1]%nat
    (mkRm [mkNode [0; 0; 0; 0] 0 None; mkNode [4; 0; 0; 0] 1 None] [] 0) =
  Ok (tt, mkRm [mkNode [0; 0; 0; 0] 0 (Some 0%nat); mkNode [4; 0; 0; 0] 1 (Some 1%nat)] [(0%nat, 1%nat, ([0; 0; 0; 0], [1; 0; 0; 0], 1))] 4).
Proof.
  cbv -[Reqb ceqb IZR]. replace (Reqb 1 0) with false; [reflexivity|]. symmetry. destruct (Reqb 1 0) eqn:H; [|reflexivity]. apply Reqb_true in H. lra.
Qed.
(** a direct path of no duration, when jumps are asked for: the null report is read *)
Definition zstill (k : nat) (rev : bool) (n : node nat) (q : list R) : option zP := Some (cfg n, q, 0).
Lemma znull : tryConnectInitAndGoals zP nat zinit zend zrange zlen zV zV zsame zstill zpara zvalidate' zgiwc None None (fun _ _ _ => true) 1 true 0%nat [1]%nat
    (mkRm [mkNode [0; 0; 0; 0] 0 None; mkNode [4; 0; 0; 0] 1 None] [] 0) = Ub.
Proof.
  cbv -[Reqb ceqb IZR]. replace (Reqb 0 0) with true; [reflexivity|]. symmetry. apply Reqb_true. reflexivity.
Qed.

(** a constraint: not before 0, to which configurations are projected *)
Definition zC (q : list R) : Prop := 0 <= zx q.
Definition zG (p : zP) : Prop := zC (zinit p) /\ zC (zend p).
Definition zcons : option (option (list R -> list R -> list R) * (list R -> option (list R))) :=
  Some (None, fun q => match q with x :: l => Some (Rmax 0 x :: l) | [] => None end).
Lemma zkeep : keep_constraints zinit zend zC zG zcons zsm zpara zvalidate None.
Proof.
  split; [|split; [|split; [|split; [|split]]]].
  - intros [|x l] b; cbn; [discriminate|]. intros [= <-]. unfold zC, zx. cbn. apply Rmax_l.
  - intros k rev n q p Hn Hq [= <-]. destruct rev; split; assumption.
  - intros k a b p Ha Hb. unfold zpara. destruct (_ && _); [|discriminate]. intros [= <-]. split; assumption.
  - intros k p rev b v r Hv [H1 H2]. revert Hv. unfold zvalidate.
    assert (Hw : zC zwall) by (unfold zC, zx, zwall; cbn; lra).
    destruct (_ && _); [intros [= <- <- <-]; split; assumption|].
    destruct rev; intros [= <- <- <-]; destruct (Rleb _ 5); split; assumption.
  - intros f k p p' H. discriminate.
  - intros p H. exact H.
Qed.
Lemma zvel a b : zC a -> but_velocity 1 a b -> zC b.
Proof.
  intros Ha [_ Hb]. unfold zC, zx in *. rewrite !nth_lookup in *. rewrite <- (Hb 0%nat) by lia. exact Ha.
Qed.
Lemma zs_constrained : constrained zC zG zs.
Proof.
  split; [|intros i j p H; apply elem_of_nil in H; contradiction].
  intros i n Hi. destruct i as [|[|[|i]]]; [..|discriminate]; injection Hi as <-; unfold zC, zx; cbn; lra.
Qed.
Lemma zreaches_cons : reaches_goals zend zsm None zcons zqs.
Proof.
  intros q Hq. split.
  - intros kernel apply_ b [= <- <-] [[_ H]|(f & a & Hf & H)]; [|discriminate]; revert H. apply elem_of_cons in Hq as [->|Hq]; [|apply elem_of_list_singleton in Hq as ->]; cbn; intros [= <-]; rewrite Rmax_right by lra; reflexivity.
  - intros k n p [= <-]. split; [reflexivity|]. intros f k' p' H. discriminate.
Qed.
Notation zplan_cons := (plan zP nat zinit zend zrange zlen zV zV zshoot znearest zsame zsm zpara zvalidate zgiwc zcons None (fun _ _ _ => true) 1 true).
Lemma zruns_cons n : exists s', zplan_cons 0%nat 0%nat [1; 2]%nat [1; 2]%nat n zs = Ok (tt, s').
Proof.
  apply (plan_defined (valid := zvalid)) with (qs := zqs); [exact znearest_ok|exact zsteering_ok|exact zparabola_ok|exact zvalidation_ok|exact zprojector_ok|exact zreaches_cons|exact zgoals|exact zfresh|exact zvalidation_reports|].
  intros _. split; [exact zparabola_size|exact zlasting].
Qed.
