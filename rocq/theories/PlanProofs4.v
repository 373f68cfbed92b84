(** Proofs of C114-C118: the statements. *)
From Coq Require Import Reals ZArith Lra Lia.
From Verif Require Export PlanProofs3.
Local Open Scope R_scope.

Section Statements.
Context {P M : Type} {pinit pend : P -> list R} {prange : P -> R * R} {plen : P -> R} {pV0 pVimp : P -> R * R * R}
  {shoot : nat -> list R} {nearest : nat -> list (node M) -> list R -> nat -> bool -> nat}
  {same : nat -> list (node M) -> nat -> list R -> option nat} {sm : nat -> bool -> node M -> list R -> option P}
  {smParabola : nat -> list R -> list R -> option P} {validate : nat -> P -> bool -> bool * option P * option R}
  {giwc : nat -> list R -> M}
  {constraints : option (option (list R -> list R -> list R) * (list R -> option (list R)))}
  {projector : option (nat -> P -> option P)} {trunkValid : nat -> P -> R -> bool} {indexECS : nat} {tryJump : bool}
  {valid : P -> Prop}.
Notation oneStep := (oneStep P M pinit pend prange shoot nearest same sm validate giwc constraints).
Notation plan := (plan P M pinit pend prange plen pV0 pVimp shoot nearest same sm smParabola validate giwc constraints projector trunkValid indexECS tryJump).
Notation goal_configurations s goals qs := (forall g n, g ∈ goals -> nodes s !! g = Some n -> cfg n ∈ qs).

Definition EPj (p : P) (a b : list R) : Prop :=
  joined pinit pend valid p a b \/ tryJump = true /\ jumped pinit pend plen pV0 pVimp indexECS p a b.

Lemma wp_ok {A} (m : act P M A) (Q : A -> rm P M -> Prop) s a s' : wp True m Q s -> m s = Ok (a, s') -> Q a s'.
Proof. unfold wp. intros H E. rewrite E in H. exact H. Qed.

Lemma plan_evolve init start goals ends n qs s s' :
  nearest_ok nearest -> steering_ok pinit pend sm -> parabola_ok pinit pend smParabola ->
  validation_ok pinit pend prange valid validate -> projector_ok pinit prange projector ->
  reaches_goals pend sm projector constraints qs -> goal_configurations s goals qs ->
  fresh_roadmap init start goals ends s -> plan init start goals ends n s = Ok (tt, s') ->
  evolve giwc start ends EPj s s' /\ all_filled giwc s'.
Proof.
  intros Hne Hs Hp Hv Hpr Hr Hg Hf Hok.
  refine (wp_ok _ (fun _ s' => evolve giwc start ends EPj s s' /\ all_filled giwc s') _ _ _ _ Hok).
  apply (wp_plan pinit pend prange plen pV0 pVimp shoot nearest same sm smParabola validate giwc constraints projector trunkValid indexECS tryJump valid start ends Hs Hp Hv Hpr EPj) with (qs := qs); auto.
  - intros p a b H. left. exact H.
  - intros p a b H1 H2. right. auto.
Qed.
Lemma plan_edges init start goals ends n qs s s' :
  nearest_ok nearest -> steering_ok pinit pend sm -> parabola_ok pinit pend smParabola ->
  validation_ok pinit pend prange valid validate -> projector_ok pinit prange projector ->
  reaches_goals pend sm projector constraints qs -> goal_configurations s goals qs ->
  fresh_roadmap init start goals ends s -> plan init start goals ends n s = Ok (tt, s') ->
  every_edge EPj s'.
Proof.
  intros Hne Hs Hp Hv Hpr Hr Hg Hf Hok.
  destruct (plan_evolve init start goals ends n qs s s' Hne Hs Hp Hv Hpr Hr Hg Hf Hok) as [He _].
  apply (evolve_edges _ _ _ _ _ _ He). destruct Hf as [Hnil _]. intros i j p Hin. rewrite Hnil in Hin. apply elem_of_nil in Hin. contradiction.
Qed.
Lemma step_evolve start ends s s' :
  nearest_ok nearest -> steering_ok pinit pend sm -> validation_ok pinit pend prange valid validate ->
  inhabited start s -> (forall c, c ∈ ends -> inhabited c s) -> oneStep start ends s = Ok (tt, s') ->
  evolve giwc start ends (joined pinit pend valid) s s'.
Proof.
  intros Hne Hs Hv His Hie Hok.
  refine (wp_ok _ (fun _ s' => evolve giwc start ends (joined pinit pend valid) s s') _ _ _ _ Hok).
  apply (wp_oneStep pinit pend prange shoot nearest same sm validate giwc constraints valid start ends Hne Hs Hv (joined pinit pend valid)); auto.
Qed.
Lemma step_edges start ends s s' :
  nearest_ok nearest -> steering_ok pinit pend sm -> validation_ok pinit pend prange valid validate ->
  inhabited start s -> (forall c, c ∈ ends -> inhabited c s) -> every_edge (joined pinit pend valid) s ->
  oneStep start ends s = Ok (tt, s') -> every_edge (joined pinit pend valid) s'.
Proof. intros Hne Hs Hv His Hie He Hok. exact (evolve_edges _ _ _ _ _ _ (step_evolve start ends s s' Hne Hs Hv His Hie Hok) He). Qed.

Lemma fresh_trees init start goals ends (s : rm P M) : fresh_roadmap init start goals ends s -> trees init start goals s.
Proof.
  intros (Hnil & Hse & (ni & Hi & Hc) & Hgi & _ & Hall & Hu) i n Hn. split.
  - intros Hs. destruct (Hall i n Hn) as [->|Hin]; [apply reach_refl|]. exfalso.
    destruct (Hgi i Hin) as (n' & Hn' & Hc'). assert (n' = n) as -> by congruence. rewrite Hs in Hc'. contradiction.
  - intros g ng Hg Hng Hcg. destruct (Hall i n Hn) as [->|Hin].
    + exfalso. destruct (Hgi g Hg) as (n' & Hn' & Hc'). assert (n' = ng) as -> by congruence. assert (n = ni) as -> by congruence.
      rewrite <- Hcg, Hc in Hc'. contradiction.
    + assert (i = g) as -> by (apply (Hu i g n ng); assumption). apply reach_refl.
Qed.
Lemma plan_trees init start goals ends n qs s s' :
  nearest_ok nearest -> steering_ok pinit pend sm -> parabola_ok pinit pend smParabola ->
  validation_ok pinit pend prange valid validate -> projector_ok pinit prange projector ->
  reaches_goals pend sm projector constraints qs -> goal_configurations s goals qs ->
  fresh_roadmap init start goals ends s -> plan init start goals ends n s = Ok (tt, s') ->
  trees init start goals s'.
Proof.
  intros Hne Hs Hp Hv Hpr Hr Hg Hf Hok.
  destruct (plan_evolve init start goals ends n qs s s' Hne Hs Hp Hv Hpr Hr Hg Hf Hok) as [He _].
  apply (evolve_trees giwc start ends EPj init goals s s'); [apply Hf| |assumption|exact (fresh_trees _ _ _ _ _ Hf)].
  intros g Hin. destruct Hf as (_ & _ & _ & Hgi & _). exact (Hgi g Hin).
Qed.
Lemma trees_connect init start goals (s : rm P M) i j p ni nj g ng : trees init start goals s ->
  (i, j, p) ∈ edges s -> nodes s !! i = Some ni -> nodes s !! j = Some nj -> comp ni = start ->
  g ∈ goals -> nodes s !! g = Some ng -> comp nj = comp ng -> reach s init g.
Proof.
  intros Ht Hin Hi Hj Hc Hg Hng Hcg. apply (reach_trans s init i g); [exact (proj1 (Ht i ni Hi) Hc)|].
  apply (reach_step s i j g p Hin). exact (proj2 (Ht j nj Hj) g ng Hg Hng Hcg).
Qed.

Lemma plan_grows init start goals ends n qs s s' :
  nearest_ok nearest -> steering_ok pinit pend sm -> parabola_ok pinit pend smParabola ->
  validation_ok pinit pend prange valid validate -> projector_ok pinit prange projector ->
  reaches_goals pend sm projector constraints qs -> goal_configurations s goals qs ->
  fresh_roadmap init start goals ends s -> plan init start goals ends n s = Ok (tt, s') ->
  grows s s' /\ all_filled giwc s'.
Proof.
  intros Hne Hs Hp Hv Hpr Hr Hg Hf Hok.
  destruct (plan_evolve init start goals ends n qs s s' Hne Hs Hp Hv Hpr Hr Hg Hf Hok) as [He Ha].
  split; [exact (evolve_grows _ _ _ _ _ _ He)|exact Ha].
Qed.
Lemma step_grows start ends s s' :
  nearest_ok nearest -> steering_ok pinit pend sm -> validation_ok pinit pend prange valid validate ->
  inhabited start s -> (forall c, c ∈ ends -> inhabited c s) -> oneStep start ends s = Ok (tt, s') ->
  grows s s' /\ (all_filled giwc s -> all_filled giwc s').
Proof.
  intros Hne Hs Hv His Hie Hok. pose proof (step_evolve start ends s s' Hne Hs Hv His Hie Hok) as He.
  split; [exact (evolve_grows _ _ _ _ _ _ He)|exact (evolve_all_filled _ _ _ _ _ _ He)].
Qed.

Lemma plan_defined init start goals ends n qs s :
  nearest_ok nearest -> steering_ok pinit pend sm -> parabola_ok pinit pend smParabola ->
  validation_ok pinit pend prange valid validate -> projector_ok pinit prange projector ->
  reaches_goals pend sm projector constraints qs -> goal_configurations s goals qs ->
  fresh_roadmap init start goals ends s -> validation_reports validate ->
  (tryJump = true -> parabola_size pinit pend indexECS smParabola /\ lasting prange sm projector) ->
  exists s', plan init start goals ends n s = Ok (tt, s').
Proof.
  intros Hne Hs Hp Hv Hpr Hr Hg Hf Hrep Hj.
  assert (H : wp False (plan init start goals ends n) (fun _ _ => True) s).
  { eapply wp_conseq; [apply (wp_plan pinit pend prange plen pV0 pVimp shoot nearest same sm smParabola validate giwc constraints projector trunkValid indexECS tryJump valid start ends Hs Hp Hv Hpr (fun _ _ _ => True)) with (qs := qs)|]; auto.
    right. split; assumption. }
  unfold wp in H. destruct (plan init start goals ends n s) as [[[] s']| |]; [eauto|contradiction..].
Qed.
End Statements.

Section Successes.
Context {P M : Type} {pinit pend : P -> list R} {prange : P -> R * R} {plen : P -> R} {pV0 pVimp : P -> R * R * R}
  {shoot : nat -> list R} {nearest : nat -> list (node M) -> list R -> nat -> bool -> nat}
  {same : nat -> list (node M) -> nat -> list R -> option nat} {sm : nat -> bool -> node M -> list R -> option P}
  {smParabola : nat -> list R -> list R -> option P} {validate : nat -> P -> bool -> bool * option P * option R}
  {giwc : nat -> list R -> M} {trunkValid : nat -> P -> R -> bool} {indexECS : nat} {tryJump : bool}
  {valid : P -> Prop}.
Notation oneStep := (oneStep P M pinit pend prange shoot nearest same sm validate giwc None).
Notation tryConnectInitAndGoals := (tryConnectInitAndGoals P M pinit pend prange plen pV0 pVimp same sm smParabola validate giwc None None trunkValid indexECS tryJump).

Lemma step_connects init start goals ends c cs s g ng :
  nearest_ok nearest -> steering_ok pinit pend sm -> validation_ok pinit pend prange valid validate ->
  ends = c :: cs -> start ∉ ends -> inhabited start s -> (forall c, c ∈ ends -> inhabited c s) ->
  (forall g, g ∈ goals -> exists n, nodes s !! g = Some n /\ comp n ∈ ends) ->
  trees init start goals s -> all_filled giwc s ->
  always_joined pinit pend prange sm validate false start (shoot (clock s)) ->
  always_joined pinit pend prange sm validate true c (shoot (clock s)) ->
  g ∈ goals -> nodes s !! g = Some ng -> comp ng = c ->
  exists s', oneStep start ends s = Ok (tt, s') /\ reach s' init g.
Proof.
  intros Hne Hs Hv -> Hse His Hie Hgi Ht Ha Hj1 Hj2 Hg Hng Hc.
  assert (Hm : forall i n, nodes s !! i = Some n -> mats n <> None) by (intros i n Hn; destruct (Ha i n Hn) as [k Hk]; congruence).
  pose proof (step_success pinit pend prange shoot nearest same sm validate giwc Hne start c cs s Hm His (Hie c ltac:(left)) Hj1 Hj2) as Hw.
  unfold wp in Hw. destruct (oneStep start (c :: cs) s) as [[[] s']| |] eqn:Hok; [|contradiction..].
  exists s'. split; [reflexivity|]. destruct Hw as (i & j & p & ni & nj & Hin & Hi & Hj & Hci & Hcj).
  pose proof (step_evolve (constraints := None) (valid := valid) start (c :: cs) s s' Hne Hs Hv His Hie Hok) as He.
  destruct (proj1 (evolve_grows _ _ _ _ _ _ He) _ _ Hng) as (ng' & Hng' & _ & Hcg' & _).
  apply (trees_connect init start goals s' i j p ni nj g ng'); auto; [|congruence].
  apply (evolve_trees giwc start (c :: cs) (joined pinit pend valid) init goals s s'); auto.
Qed.

Lemma direct_connects init goals qs s ni goal g s' :
  steering_ok pinit pend sm -> parabola_ok pinit pend smParabola -> validation_ok pinit pend prange valid validate ->
  reaches_goals pend sm None None qs ->
  (forall g, g ∈ goals -> exists n, nodes s !! g = Some n /\ cfg n ∈ qs) ->
  nodes s !! init = Some ni -> goal ∈ goals -> nodes s !! goal = Some g ->
  always_joined pinit pend prange sm validate false (comp ni) (cfg g) ->
  tryConnectInitAndGoals init goals s = Ok (tt, s') -> reach s' init goal.
Proof.
  intros Hs Hp Hv Hr Hgo Hi Hin Hg Hj Hok.
  pose proof (wp_directly pinit pend prange plen pV0 pVimp same sm smParabola validate giwc trunkValid indexECS tryJump valid Hs Hp Hv qs Hr True init goals ni s (or_introl I) Hi Hgo goal g Hin Hg Hj) as Hw.
  unfold wp in Hw. rewrite Hok in Hw. destruct Hw as [p Hpe]. exact (reach_edge s' init goal p Hpe).
Qed.
End Successes.
