(** Proofs of C160: the nodes and edges of the roadmap satisfy the constraints. *)
From Coq Require Import Reals ZArith Lra Lia.
From Verif Require Import VecProofs.
From Verif Require Export PlanProofs4.
Local Open Scope R_scope.

Section Constrained.
Context {P M : Type} {pinit pend : P -> list R} {prange : P -> R * R} {plen : P -> R} {pV0 pVimp : P -> R * R * R}
  {shoot : nat -> list R} {nearest : nat -> list (node M) -> list R -> nat -> bool -> nat}
  {same : nat -> list (node M) -> nat -> list R -> option nat} {sm : nat -> bool -> node M -> list R -> option P}
  {smParabola : nat -> list R -> list R -> option P} {validate : nat -> P -> bool -> bool * option P * option R}
  {giwc : nat -> list R -> M}
  {constraints : option (option (list R -> list R -> list R) * (list R -> option (list R)))}
  {projector : option (nat -> P -> option P)} {trunkValid : nat -> P -> R -> bool} {indexECS : nat} {tryJump : bool}
  (C : list R -> Prop) (G : P -> Prop).
Context (HK : keep_constraints pinit pend C G constraints sm smParabola validate projector).
Context (HV : tryJump = true -> forall a b, C a -> but_velocity indexECS a b -> C b).
Notation rm := (rm P M).
Notation act := (PlanModel.act P M).
Notation bind := (PlanModel.bind P M).
Notation inv := (constrained C G).

Lemma projected_C a q b : projected constraints a q = Some b -> C b.
Proof.
  destruct HK as (H1 & _). unfold projected. destruct constraints as [[k f]|]; [|intros [= <-]; apply H1]. apply H1.
Qed.
Definition keeps {A} (m : act A) (Q : A -> Prop) : Prop := forall (s : rm) a s', inv s -> m s = Ok (a, s') -> inv s' /\ Q a.
Lemma k_ret {A} (a : A) (Q : A -> Prop) : Q a -> keeps (ret P M a) Q.
Proof. intros H s a' s' Hi [= <- <-]. auto. Qed.
Lemma k_bind {A B} (m : act A) (f : A -> act B) (Q : A -> Prop) (Q' : B -> Prop) :
  keeps m Q -> (forall a, Q a -> keeps (f a) Q') -> keeps (bind m f) Q'.
Proof.
  intros Hm Hf s b s' Hi. unfold PlanModel.bind. destruct (m s) as [[a s1]| |] eqn:E; try discriminate.
  destruct (Hm s a s1 Hi E) as [Hi1 Ha]. exact (Hf a Ha s1 b s' Hi1).
Qed.
Lemma k_call {A} (f : nat -> A) (Q : A -> Prop) : (forall k, Q (f k)) -> keeps (call P M f) Q.
Proof. intros H s a s' Hi [= <- <-]. split; [exact Hi|apply H]. Qed.
Lemma k_deref i : keeps (deref P M i) (fun n => C (cfg n)).
Proof.
  intros s n s' Hi. unfold deref. destruct (nodes s !! i) as [m|] eqn:E; [|discriminate]. intros [= <- <-].
  split; [exact Hi|]. exact (proj1 Hi i m E).
Qed.
Lemma k_getNodes : keeps (getNodes P M) (fun _ => True).
Proof. intros s n s' Hi [= <- <-]. auto. Qed.
Lemma k_ub {A} (Q : A -> Prop) : keeps (ub P M) Q.
Proof. intros s a s' _ H. discriminate. Qed.
Lemma k_addEdge i j p : G p -> keeps (addEdge P M i j p) (fun _ => True).
Proof.
  intros Hp s a s' [Hn He] [= <- <-]. split; [|exact I]. split; [exact Hn|]. cbn. intros i' j' p'.
  rewrite elem_of_app, elem_of_list_singleton. intros [H|[= -> -> ->]]; [exact (He _ _ _ H)|exact Hp].
Qed.
Lemma k_addNode c q : C q -> keeps (addNode P M same c q) (fun _ => True).
Proof.
  intros Hq. unfold addNode. apply (k_bind _ _ (fun _ => True)); [apply k_getNodes|]. intros ns _.
  apply (k_bind _ _ (fun _ => True)); [apply k_call; auto|]. intros found _.
  assert (Hnew : keeps (fun s : rm => Ok (length (nodes s), mkRm (nodes s ++ [mkNode q c None]) (edges s) (clock s))) (fun _ => True)).
  { intros s a s' [Hn He] [= <- <-]. split; [|exact I]. split; [|exact He]. cbn. intros i n Hi.
    apply lookup_app_Some in Hi as [Hi|[_ Hi]]; [exact (Hn i n Hi)|]. apply list_lookup_singleton_Some in Hi as [_ <-]. exact Hq. }
  destruct found as [i|]; [|exact Hnew]. destruct (ns !! i) as [n|]; [|exact Hnew].
  destruct (_ && _); [apply k_ret; exact I|exact Hnew].
Qed.
Lemma k_giwc i : keeps (computeGIWC P M giwc i) (fun _ => True).
Proof.
  unfold computeGIWC. apply (k_bind _ _ (fun _ => True)).
  { intros s a s' Hi E. split; [|exact I]. exact (proj1 (k_deref i s a s' Hi E)). }
  intros n _. apply (k_bind _ _ (fun _ => True)); [apply k_call; auto|]. intros m _ s a s' [Hn He] [= <- <-].
  split; [|exact I]. split; [|exact He]. cbn. intros j n' Hj.
  destruct (Nat.eq_dec i j) as [<-|Hne].
  - rewrite list_lookup_alter in Hj. destruct (nodes s !! i) as [x|] eqn:Ex; [|discriminate]. cbn in Hj. injection Hj as <-. exact (Hn i x Ex).
  - rewrite list_lookup_alter_ne in Hj by assumption. exact (Hn j n' Hj).
Qed.
Lemma k_fwd i q p : C q -> G p -> keeps (addNodeAndEdge P M same i q p) (fun _ => True).
Proof.
  intros Hq Hp. unfold addNodeAndEdge. eapply k_bind; [apply k_deref|]. intros n _.
  eapply k_bind; [apply k_addNode; exact Hq|]. intros j _. eapply k_bind; [apply k_addEdge; exact Hp|]. intros _ _. apply k_ret. exact I.
Qed.
Lemma k_rev i q p : C q -> G p -> keeps (addNodeAndEdgeRev P M same q i p) (fun _ => True).
Proof.
  intros Hq Hp. unfold addNodeAndEdgeRev. eapply k_bind; [apply k_deref|]. intros n _.
  eapply k_bind; [apply k_addNode; exact Hq|]. intros j _. eapply k_bind; [apply k_addEdge; exact Hp|]. intros _ _. apply k_ret. exact I.
Qed.
Definition goodpath (o : option P) : Prop := match o with Some p => G p | None => True end.
Lemma k_extend near target rev : keeps (extendInternal P M sm constraints near target rev) goodpath.
Proof.
  destruct HK as (_ & H2 & _). pose proof projected_C as H1. unfold extendInternal. eapply k_bind; [apply k_deref|]. cbn beta. intros n Hn.
  destruct (projected constraints (cfg n) target) as [q|] eqn:E; [|apply k_ret; exact I]. apply H1 in E.
  destruct (mats n); [|apply k_ub]. apply k_call. intros k. destruct (sm k rev n q) as [p|] eqn:Es; [|exact I]. exact (H2 _ _ _ _ _ Hn E Es).
Qed.
Lemma k_para from target rev : C from -> keeps (extendParabola P M smParabola constraints from target rev) goodpath.
Proof.
  destruct HK as (_ & _ & H3 & _). pose proof projected_C as H1. intros Hc. unfold extendParabola.
  destruct (projected constraints from target) as [q|] eqn:E; [|apply k_ret; exact I]. apply H1 in E.
  destruct rev; apply k_call; intros k;
    [destruct (smParabola k q from) as [p|] eqn:Es|destruct (smParabola k from q) as [p|] eqn:Es]; try exact I.
  - exact (H3 k q from p E Hc Es).
  - exact (H3 k from q p Hc E Es).
Qed.
Lemma k_validate p rev : G p -> keeps (call P M (fun k => validate k p rev)) (fun v => goodpath (snd (fst v))).
Proof.
  intros Hp. apply k_call. intros k. destruct (validate k p rev) as [[b o] r] eqn:E. destruct o as [v|]; [|exact I].
  destruct HK as (_ & _ & _ & H4 & _). exact (H4 _ _ _ _ _ _ E Hp).
Qed.
Lemma G_end p : G p -> C (pend p).
Proof. destruct HK as (_ & _ & _ & _ & _ & H6). intros H. exact (proj2 (H6 p H)). Qed.
Lemma G_init p : G p -> C (pinit p).
Proof. destruct HK as (_ & _ & _ & _ & _ & H6). intros H. exact (proj1 (H6 p H)). Qed.

Lemma k_start q start : keeps (extendStart P M pend prange nearest same sm validate giwc constraints q start) (fun _ => True).
Proof.
  unfold extendStart. eapply k_bind; [apply k_getNodes|]. intros ns _. apply (k_bind _ _ (fun _ => True)); [apply k_call; auto|]. intros near _.
  eapply k_bind; [apply k_extend|]. intros [p|]; cbn; [intros Hp|intros _; apply k_ret; exact I].
  eapply k_bind; [apply k_validate; exact Hp|]. intros [[ok [v|]] r]; cbn; [intros Hv|intros _; apply k_ret; exact I].
  destruct (negb _); [|apply k_ret; exact I].
  eapply k_bind; [apply k_fwd; [exact (G_end v Hv)|exact Hv]|]. intros x _. eapply k_bind; [apply k_giwc|]. intros _ _. apply k_ret. exact I.
Qed.
Lemma k_end q fromStart r c : keeps (extendEnd P M pinit pend prange nearest same sm validate giwc constraints q fromStart r c) (fun _ => True).
Proof.
  unfold extendEnd. eapply k_bind; [apply k_getNodes|]. intros ns _. apply (k_bind _ _ (fun _ => True)); [apply k_call; auto|]. intros near _.
  eapply k_bind; [apply k_extend|]. intros [p|]; cbn; [intros Hp|intros _; apply k_ret; exact I].
  eapply k_bind; [apply k_validate; exact Hp|]. intros [[ok part] rep]; cbn. intros Hv.
  match goal with |- keeps (match ?x with _ => _ end) _ => destruct x as [fe|]; [|apply k_ub] end.
  destruct (fromStart && fe).
  - destruct r as [[x qn]|]; [|apply k_ub]. destruct part as [v|]; [|apply k_ub].
    eapply k_bind; [apply k_addEdge; exact Hv|]. intros _ _. apply k_ret. exact I.
  - destruct part as [v|]; [|apply k_ret; exact I]. destruct (negb _); [|apply k_ret; exact I].
    eapply k_bind; [apply k_rev; [exact (G_init v Hv)|exact Hv]|]. intros x' _. eapply k_bind; [apply k_giwc|]. intros _ _.
    destruct r as [[x qn]|]; [|apply k_ret; exact I].
    eapply k_bind; [apply k_extend|]. intros [p'|]; cbn; [intros Hp'|intros _; apply k_ret; exact I].
    eapply k_bind; [apply k_validate; exact Hp'|]. intros [[[] [w|]] rw]; cbn; intros Hw; try (apply k_ret; exact I); [|apply k_ub].
    destruct (ceqb _ _); [|apply k_ret; exact I]. eapply k_bind; [apply k_addEdge; exact Hp'|]. intros _ _. apply k_ret. exact I.
Qed.
Lemma k_ends q fromStart r cs : keeps (extendEnds P M pinit pend prange nearest same sm validate giwc constraints q fromStart r cs) (fun _ => True).
Proof.
  induction cs as [|c cs IH]; cbn; [apply k_ret; exact I|]. eapply k_bind; [apply k_end|]. intros [] _; [apply k_ret; exact I|exact IH].
Qed.
Lemma k_step start ends : keeps (oneStep P M pinit pend prange shoot nearest same sm validate giwc constraints start ends) (fun _ => True).
Proof.
  unfold oneStep. apply (k_bind _ _ (fun _ => True)); [apply k_call; auto|]. intros q _.
  eapply k_bind; [apply k_start|]. intros r _. apply k_ends.
Qed.
Lemma k_jump init goal target path v rep : tryJump = true -> G v ->
  keeps (jump P M pinit pend prange plen pV0 pVimp same sm smParabola validate giwc constraints trunkValid indexECS init goal target path v rep) (fun _ => True).
Proof.
  intros Hj Hv. unfold jump. destruct rep as [t|]; [|apply k_ub]. apply (k_bind _ _ (fun _ => True)); [apply k_call; auto|]. intros [] _; [|apply k_ret; exact I].
  apply (k_bind _ _ (fun r => match r with Some (_, para) => G para | None => True end)).
  2:{ intros [[x para]|]; [|intros _; apply k_ret; exact I]. intros Hp. apply k_addEdge. exact Hp. }
  unfold tryParabolaPath. eapply k_bind; [apply k_para; exact (G_end v Hv)|]. intros [para|]; cbn; [intros Hp|intros _; apply k_ret; exact I].
  destruct (Rltb 0 (plen para)); [|apply k_ret; exact I].
  destruct (setVelocity indexECS (pend para) (pVimp para)) as [qnew|] eqn:E1; [|apply k_ub].
  destruct (setVelocity indexECS (pinit para) (pV0 para)) as [qjump|] eqn:E2; [|apply k_ub].
  apply setVelocity_spec in E1, E2.
  eapply k_bind; [apply k_extend|]. intros [kino|]; cbn; [intros Hk|intros _; apply k_ret; exact I].
  eapply k_bind; [apply k_validate; exact Hk|]. intros [[[] [w|]] rw]; cbn; intros Hw; try (apply k_ret; exact I); [|apply k_ub].
  destruct (_ && _); [|apply k_ret; exact I].
  eapply k_bind; [apply k_fwd; [exact (HV Hj _ _ (G_init _ Hp) E2)|exact Hk]|]. intros x _. eapply k_bind; [apply k_giwc|]. intros _ _.
  eapply k_bind; [apply k_fwd; [exact (HV Hj _ _ (G_end _ Hp) E1)|exact Hp]|]. intros y _. eapply k_bind; [apply k_giwc|]. intros _ _.
  apply k_ret. exact Hp.
Qed.
Lemma k_connect init goal : keeps (tryConnect P M pinit pend prange plen pV0 pVimp same sm smParabola validate giwc constraints projector trunkValid indexECS tryJump init goal) (fun _ => True).
Proof.
  pose proof k_jump as KJ.
  unfold tryConnect. eapply k_bind; [apply k_giwc|]. intros _ _. eapply k_bind; [apply k_deref|]. intros g _.
  eapply k_bind; [apply k_extend|]. intros [p|]; cbn; [intros Hp|intros _; apply k_ret; exact I].
  apply (k_bind _ _ goodpath).
  { destruct projector as [f|] eqn:Ef; [|apply k_ret; exact Hp]. apply k_call. intros k. destruct (f k p) as [p'|] eqn:E; [|exact I].
    destruct HK as (_ & _ & _ & _ & H5 & _). exact (H5 _ _ _ _ eq_refl E Hp). }
  intros [pr|]; cbn; [intros Hpr|intros _; apply k_ret; exact I].
  eapply k_bind; [apply k_validate; exact Hpr|]. intros [[[] [v|]] rep]; cbn; intros Hv; [|apply k_ub| |apply k_ret; exact I].
  - destruct (negb _); [apply k_addEdge; exact Hpr|]. destruct tryJump eqn:Ej; [|apply k_ret; exact I]. apply KJ; auto.
  - destruct tryJump eqn:Ej; [apply KJ; auto|]. destruct (negb _); [|apply k_ret; exact I].
    eapply k_bind; [apply k_fwd; [exact (G_end v Hv)|exact Hv]|]. intros x _. apply k_giwc.
Qed.
Lemma k_goals init goals : keeps (tryGoals P M pinit pend prange plen pV0 pVimp same sm smParabola validate giwc constraints projector trunkValid indexECS tryJump init goals) (fun _ => True).
Proof. induction goals as [|g gs IH]; cbn; [apply k_ret; exact I|]. eapply k_bind; [apply k_connect|]. intros _ _. exact IH. Qed.
Lemma k_steps start ends n : keeps (steps P M pinit pend prange shoot nearest same sm validate giwc constraints start ends n) (fun _ => True).
Proof. induction n as [|n IH]; cbn; [apply k_ret; exact I|]. eapply k_bind; [apply k_step|]. intros _ _. exact IH. Qed.

Lemma k_plan init start goals ends n : keeps (plan P M pinit pend prange plen pV0 pVimp shoot nearest same sm smParabola validate giwc constraints projector trunkValid indexECS tryJump init start goals ends n) (fun _ => True).
Proof.
  unfold plan, tryConnectInitAndGoals. apply (k_bind _ _ (fun _ => True)).
  - eapply k_bind; [apply k_giwc|]. intros _ _. apply k_goals.
  - intros _ _. apply k_steps.
Qed.
Lemma plan_constrained init start goals ends n (s s' : rm) : constrained C G s ->
  plan P M pinit pend prange plen pV0 pVimp shoot nearest same sm smParabola validate giwc constraints projector trunkValid indexECS tryJump init start goals ends n s = Ok (tt, s') ->
  constrained C G s'.
Proof. intros Hi E. exact (proj1 (k_plan init start goals ends n s tt s' Hi E)). Qed.
End Constrained.
