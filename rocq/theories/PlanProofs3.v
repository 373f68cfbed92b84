(** Proofs of C114-C118: the direct connections, whole plans, success. *)
From Coq Require Import Reals ZArith Lra Lia.
From Verif Require Import VecProofs.
From Verif Require Export PlanProofs2.
Local Open Scope R_scope.

(** the projection leaves alone a goal that satisfies the constraints *)
Lemma goal_unchanged (constraints : option (option (list R -> list R -> list R) * (list R -> option (list R)))) (q a b : list R) :
  (forall kernel apply_ b, constraints = Some (kernel, apply_) ->
     kernel = None /\ apply_ q = Some b \/ (exists f a, kernel = Some f /\ apply_ (f a q) = Some b) -> b = q) ->
  projected constraints a q = Some b -> b = q.
Proof.
  intros H. unfold projected. destruct constraints as [[kernel apply_]|]; [|congruence].
  intros E. apply (H kernel apply_ b eq_refl). destruct kernel as [f|]; [right; eauto|left; auto].
Qed.
Section Direct.
Context {P M : Type}.
Notation rm := (rm P M).
Notation node := (node M).
Context (pinit pend : P -> list R) (prange : P -> R * R) (plen : P -> R) (pV0 pVimp : P -> R * R * R).
Context (shoot : nat -> list R) (nearest : nat -> list node -> list R -> nat -> bool -> nat)
  (same : nat -> list node -> nat -> list R -> option nat) (sm : nat -> bool -> node -> list R -> option P)
  (smParabola : nat -> list R -> list R -> option P) (validate : nat -> P -> bool -> bool * option P * option R)
  (giwc : nat -> list R -> M)
  (constraints : option (option (list R -> list R -> list R) * (list R -> option (list R))))
  (projector : option (nat -> P -> option P)) (trunkValid : nat -> P -> R -> bool) (indexECS : nat) (tryJump : bool).
Context (valid : P -> Prop).
Context (start : nat) (ends : list nat).
Context (Hsm : steering_ok pinit pend sm) (Hpa : parabola_ok pinit pend smParabola)
  (Hval : validation_ok pinit pend prange valid validate) (Hproj : projector_ok pinit prange projector).
Context (EP : P -> list R -> list R -> Prop).
Context (HEP : forall p a b, joined pinit pend valid p a b -> EP p a b).
Context (HEPJ : forall p a b, tryJump = true -> jumped pinit pend plen pV0 pVimp indexECS p a b -> EP p a b).
Context (qs : list (list R)) (Hgoals : reaches_goals pend sm projector constraints qs).
Notation evolve := (evolve giwc start ends EP).
Notation change := (change giwc start ends EP).
Notation jump := (jump P M pinit pend prange plen pV0 pVimp same sm smParabola validate giwc constraints trunkValid indexECS).
Notation tryParabolaPath := (tryParabolaPath P M pinit pend prange plen pV0 pVimp same sm smParabola validate giwc constraints indexECS).
Notation tryConnect := (tryConnect P M pinit pend prange plen pV0 pVimp same sm smParabola validate giwc constraints projector trunkValid indexECS tryJump).
Notation tryGoals := (tryGoals P M pinit pend prange plen pV0 pVimp same sm smParabola validate giwc constraints projector trunkValid indexECS tryJump).
Notation tryConnectInitAndGoals := (tryConnectInitAndGoals P M pinit pend prange plen pV0 pVimp same sm smParabola validate giwc constraints projector trunkValid indexECS tryJump).
Implicit Types (s : rm) (E : Prop).

Definition fineT : Prop := validation_reports validate /\
  (tryJump = true -> parabola_size pinit pend indexECS smParabola /\ lasting prange sm projector).

Lemma setVelocity_spec q v q' : setVelocity indexECS q v = Some q' -> but_velocity indexECS q q'.
Proof.
  unfold setVelocity. destruct (length q <? indexECS + 3)%nat; [discriminate|]. intros [= <-].
  split; [rewrite !insert_length; reflexivity|]. intros i Hi. rewrite !list_lookup_insert_ne by lia. reflexivity.
Qed.
Lemma setVelocity_is q v q' : setVelocity indexECS q v = Some q' -> velocity_is indexECS q' v.
Proof.
  unfold setVelocity. destruct (Nat.ltb_spec (length q) (indexECS + 3)); [discriminate|]. intros [= <-].
  repeat split; rewrite ?list_lookup_insert_ne by lia; apply list_lookup_insert; rewrite ?insert_length; lia.
Qed.
Lemma setVelocity_some q v : (indexECS + 3 <= length q)%nat -> setVelocity indexECS q v <> None.
Proof. intros H. unfold setVelocity. destruct (Nat.ltb_spec (length q) (indexECS + 3)); [lia|discriminate]. Qed.
Lemma but_velocity_refl q : but_velocity indexECS q q.
Proof. split; auto. Qed.

Lemma wp_jump E init goal g ni q path v rep s : tryJump = true -> (E \/ fineT /\ rep <> None) ->
  nodes s !! init = Some ni -> comp ni = start -> (E \/ mats ni <> None) ->
  nodes s !! goal = Some g -> cfg g = q -> q ∈ qs ->
  wp E (jump init goal q path v rep) (fun _ s' => evolve s s') s.
Proof.
  intros Hj Hf Hi Hc Hm Hg Hq Hqs. unfold PlanModel.jump. destruct rep as [t|].
  2:{ apply wp_ub. destruct Hf as [|[_ Hf]]; [assumption|contradiction]. }
  apply wp_bind, wp_call. intros s1 Hn1 He1. assert (Hev1 : evolve s s1) by (apply ev_one, ch_none; assumption).
  destruct (trunkValid (clock s) path t); [|apply wp_ret; assumption].
  apply wp_bind. unfold PlanModel.tryParabolaPath, extendParabola.
  apply wp_bind. destruct (projected constraints (pend v) q) as [q'|] eqn:Hpq; [|apply wp_ret, wp_ret, wp_ret; assumption].
  assert (q' = q) as -> by exact (goal_unchanged _ _ _ _ (proj1 (Hgoals q Hqs)) Hpq).
  apply wp_call. intros s2 Hn2 He2. assert (Hev2 : evolve s s2) by (apply ev_one, ch_none; congruence).
  destruct (smParabola (clock s1) (pend v) q) as [para|] eqn:Hpara; [|apply wp_ret, wp_ret; assumption].
  destruct (Hpa _ _ _ _ Hpara) as [Hpi Hpe].
  destruct (Rltb 0 (plen para)) eqn:Hlen; [|apply wp_ret, wp_ret; assumption]. apply Rltb_true in Hlen.
  destruct (setVelocity indexECS (pend para) (pVimp para)) as [qnew|] eqn:Hqnew.
  2:{ apply wp_ub. destruct Hf as [|[[_ Hf] _]]; [assumption|]. exfalso. exact (setVelocity_some _ _ (proj2 (proj1 (Hf Hj) _ _ _ _ Hpara)) Hqnew). }
  destruct (setVelocity indexECS (pinit para) (pV0 para)) as [qjump|] eqn:Hqjump.
  2:{ apply wp_ub. destruct Hf as [|[[_ Hf] _]]; [assumption|]. exfalso. exact (setVelocity_some _ _ (proj1 (proj1 (Hf Hj) _ _ _ _ Hpara)) Hqjump). }
  pose proof (setVelocity_is _ _ _ Hqnew) as Hvnew. pose proof (setVelocity_is _ _ _ Hqjump) as Hvjump.
  apply setVelocity_spec in Hqnew, Hqjump.
  assert (Hi2 : nodes s2 !! init = Some ni) by congruence.
  apply wp_bind. apply (wp_extend sm constraints E init qjump false _ s2 ni Hi2 Hm).
  { intros s3 Hn3 He3. apply wp_ret, wp_ret. apply ev_one, ch_none; congruence. }
  intros k qp kino s3 Hn3 He3 Hp3 Hs3. apply wp_bind, wp_call. intros s4 Hn4 He4.
  assert (Hev4 : evolve s s4) by (apply ev_one, ch_none; congruence).
  destruct (validate (clock s3) kino false) as [[ok part] rep'] eqn:Hv.
  destruct ok; [|apply wp_ret, wp_ret; assumption].
  destruct part as [v'|].
  2:{ apply wp_ub. destruct Hf as [|[[Hf _] _]]; [assumption|]. exfalso. specialize (Hf (clock s3) kino false). rewrite Hv in Hf. contradiction. }
  destruct (Hval _ _ _ _ _ _ Hv) as (Hvt & _). destruct (Hvt eq_refl) as [-> Hvk].
  destruct (negb (Reqb (snd (prange kino)) (fst (prange kino))) && ceqb (pend kino) qjump) eqn:Hb; [|apply wp_ret, wp_ret; assumption].
  apply andb_true_iff in Hb as [_ Hkj]. apply ceqb_true in Hkj.
  apply (wp_fwd same giwc start ends EP E init ni); [congruence|assumption| |].
  { apply HEP. split; [exact (proj1 (Hsm k ni qp kino) Hs3)|]. auto. }
  intros x s5 k5 Hch5 Hx5. assert (Hev5 : evolve s s5) by (eapply ev_step; eauto).
  apply (wp_fwd same giwc start ends EP E x (mkNode qjump start (Some (giwc k5 qjump)))); [assumption|reflexivity| |].
  { apply HEPJ; [assumption|]. split; [exact Hqjump|]. split; [exact Hvjump|]. split; [exact Hlen|]. right. split; assumption. }
  intros y s6 k6 Hch6 Hy6. assert (Hev6 : evolve s s6) by (eapply ev_step; eauto).
  apply wp_ret. cbn beta iota. apply wp_addEdge. intros s7 Hn7 He7. eapply ev_step; [exact Hev6|].
  destruct (proj1 (change_grows _ _ _ _ _ _ Hch6) _ _ Hx5) as (nx & Hx6 & Hcx & _).
  destruct (proj1 (evolve_grows _ _ _ _ _ _ Hev6) _ _ Hg) as (g' & Hg' & Hcg & _).
  apply (ch_link giwc start ends EP s6 s7 x goal nx g' para Hx6 Hg' Hn7 He7).
  apply HEPJ; [assumption|]. rewrite Hcx, Hcg. cbn [cfg]. split; [exact Hqjump|]. split; [exact Hvjump|]. split; [exact Hlen|]. left. congruence.
Qed.

Lemma wp_tryConnect E init goal ni g s : (E \/ fineT) ->
  nodes s !! init = Some ni -> comp ni = start -> (E \/ mats ni <> None) ->
  nodes s !! goal = Some g -> cfg g ∈ qs ->
  wp E (tryConnect init goal) (fun _ s' => evolve s s' /\ filled_at giwc s' goal) s.
Proof.
  intros Hf Hi Hc Hm Hg Hqs. unfold PlanModel.tryConnect.
  apply wp_bind. apply (wp_computeGIWC giwc E goal _ s g Hg). intros s1 k1 Hn1 He1.
  assert (Hch1 : change s s1) by exact (ch_fill giwc start ends EP s s1 goal g k1 Hg Hn1 He1).
  assert (Hev1 : evolve s s1) by (apply ev_one; assumption).
  assert (Hg1 : nodes s1 !! goal = Some (mkNode (cfg g) (comp g) (Some (giwc k1 (cfg g))))).
  { rewrite Hn1. apply list_lookup_insert. eapply lookup_lt_Some; eauto. }
  assert (Hfill : filled_at giwc s1 goal) by (eexists; exists k1; split; [exact Hg1|reflexivity]).
  assert (Hend : forall s', evolve s1 s' -> evolve s s' /\ filled_at giwc s' goal).
  { intros s' Hev. split; [eapply ev_trans; eauto|]. exact (evolve_filled_at giwc start ends EP s1 s' goal Hev Hfill). }
  apply wp_bind, wp_deref; [|right; congruence]. intros g' Hg'. assert (Hcg' : cfg g' = cfg g) by (rewrite Hg1 in Hg'; injection Hg' as <-; reflexivity).
  destruct (proj1 (evolve_grows _ _ _ _ _ _ Hev1) _ _ Hi) as (ni1 & Hi1 & Hci1 & Hco1 & Hma1).
  assert (Hm1 : E \/ mats ni1 <> None) by (destruct Hm as [|Hm]; [auto|right; auto]).
  apply wp_bind. apply (wp_extend sm constraints E init (cfg g') false _ s1 ni1 Hi1 Hm1).
  { intros s2 Hn2 He2. apply wp_ret. apply Hend, ev_one, ch_none; assumption. }
  intros k qp path s2 Hn2 He2 Hp2 Hs2. rewrite Hcg' in *.
  assert (qp = cfg g) as -> by exact (goal_unchanged _ _ _ _ (proj1 (Hgoals _ Hqs)) Hp2).
  destruct (proj2 (Hgoals _ Hqs) _ _ _ Hs2) as [Hpe Hpp].
  apply wp_bind.
  assert (Hmain : forall proj s3, nodes s3 = nodes s1 -> edges s3 = edges s1 -> pinit proj = cfg ni -> pend proj = cfg g -> fst (prange proj) = fst (prange path) ->
    (E \/ (tryJump = true -> snd (prange proj) <> fst (prange path))) ->
    wp E (bind P M (call P M (fun k => validate k proj false)) (fun v =>
          let '(ok, part, report) := v in
          match ok, part with
          | true, None => ub P M
          | true, Some v =>
              if negb (Reqb (snd (prange v)) (fst (prange path))) then addEdge P M init goal proj
              else if tryJump then jump init goal (cfg g) proj v report else ret P M tt
          | false, None => ret P M tt
          | false, Some v =>
              if tryJump then jump init goal (cfg g) proj v report
              else if negb (Reqb (snd (prange v)) (fst (prange path))) then
                bind P M (addNodeAndEdge P M same init (pend v) v) (fun x => computeGIWC P M giwc x)
              else ret P M tt
          end)) (fun _ s' => evolve s s' /\ filled_at giwc s' goal) s3).
  { intros proj s3 Hn3 He3 Hpi3 Hpe3 Hft Hlast. apply wp_bind, wp_call. intros s4 Hn4 He4.
    assert (Hev4 : evolve s1 s4) by (apply ev_one, ch_none; congruence).
    assert (Hi4 : nodes s4 !! init = Some ni1) by congruence.
    assert (Hc4 : comp ni1 = start) by congruence.
    assert (Hg4 : nodes s4 !! goal = Some (mkNode (cfg g) (comp g) (Some (giwc k1 (cfg g))))) by congruence.
    destruct (validate (clock s3) proj false) as [[ok part] rep] eqn:Hv.
    assert (Hrep : E \/ ok = false -> E \/ fineT /\ rep <> None).
    { intros [|Hok]; [auto|]. destruct Hf as [|Hf]; [auto|]. right. split; [assumption|].
      pose proof (proj1 Hf (clock s3) proj false) as Hr. rewrite Hv, Hok in Hr. exact Hr. }
    assert (Hjump : forall v, tryJump = true -> (E \/ ok = false) -> wp E (jump init goal (cfg g) proj v rep) (fun _ s' => evolve s s' /\ filled_at giwc s' goal) s4).
    { intros v Hj Hok. eapply wp_conseq; [apply (wp_jump E init goal (mkNode (cfg g) (comp g) (Some (giwc k1 (cfg g)))) ni1 (cfg g) proj v rep s4 Hj (Hrep Hok) Hi4 Hc4 Hm1 Hg4 eq_refl Hqs)|].
      intros u s' Hev. apply Hend. eapply ev_trans; eauto. }
    destruct ok, part as [v|].
    - destruct (Hval _ _ _ _ _ _ Hv) as (Hvt & _). destruct (Hvt eq_refl) as [-> Hvp].
      destruct (negb (Reqb (snd (prange proj)) (fst (prange path)))) eqn:Hr.
      + apply wp_addEdge. intros s5 Hn5 He5. apply Hend. eapply ev_step; [exact Hev4|].
        apply (ch_link giwc start ends EP s4 s5 init goal ni1 _ proj Hi4 Hg4 Hn5 He5). apply HEP. cbn [cfg].
        split; [congruence|]. auto.
      + destruct tryJump; [|apply wp_ret, Hend; assumption]. apply Hjump; [reflexivity|]. left.
        destruct Hlast as [|Hlast]; [assumption|]. exfalso. apply negb_false_iff, Reqb_true in Hr. exact (Hlast eq_refl Hr).
    - apply wp_ub. destruct Hf as [|Hf]; [assumption|]. exfalso. pose proof (proj1 Hf (clock s3) proj false) as Hr. rewrite Hv in Hr. contradiction.
    - destruct tryJump; [apply Hjump; auto|].
      destruct (negb (Reqb (snd (prange v)) (fst (prange path)))) eqn:Hr; [|apply wp_ret, Hend; assumption].
      apply nReqb_true in Hr. destruct (Hval _ _ _ _ _ _ Hv) as (_ & Hvf & _). destruct (Hvf eq_refl) as [Hvi Hvv].
      assert (Hk : wp E (bind P M (addNodeAndEdge P M same init (pend v) v) (fun x => bind P M (computeGIWC P M giwc x) (fun _ => ret P M tt)))
        (fun _ s' => evolve s s' /\ filled_at giwc s' goal) s4).
      { apply (wp_fwd same giwc start ends EP E init ni1); [assumption|assumption| |].
        - apply HEP. split; [congruence|]. split; [reflexivity|]. left. apply Hvv. rewrite Hft. exact Hr.
        - intros j s5 k5 Hch5 Hj5. apply wp_ret. apply Hend. eapply ev_step; eauto. }
      revert Hk. unfold wp, bind. destruct (addNodeAndEdge P M same init (pend v) v s4) as [[x s5]| |]; auto.
      destruct (computeGIWC P M giwc x s5) as [[[] s6]| |]; auto.
    - apply wp_ret, Hend; assumption. }
  eapply wp_conseq with (Q := fun o s3 => nodes s3 = nodes s1 /\ edges s3 = edges s1 /\
    match projector with Some f => exists k', o = f k' path | None => o = Some path end).
  { destruct projector as [f|] eqn:Hpr.
    - apply wp_call. intros s3 Hn3 He3. split; [congruence|]. split; [congruence|]. exists (clock s2). reflexivity.
    - apply wp_ret. split; [congruence|]. split; [congruence|]. reflexivity. }
  intros o s3 (Hn3 & He3 & Ho). destruct o as [p'|]; [|apply wp_ret; apply Hend, ev_one, ch_none; assumption].
  apply Hmain; [assumption|assumption| | | |].
  - destruct projector as [f|] eqn:Hpr.
    + destruct Ho as [k' Ho]. rewrite (proj1 (Hproj f _ _ _ eq_refl (eq_sym Ho))). rewrite (proj1 (Hsm k ni1 (cfg g) path) Hs2). assumption.
    + injection Ho as ->. rewrite (proj1 (Hsm k ni1 (cfg g) path) Hs2). assumption.
  - destruct projector as [f|] eqn:Hpr; [destruct Ho as [k' Ho]; exact (Hpp f _ _ eq_refl (eq_sym Ho))|injection Ho as ->; assumption].
  - destruct projector as [f|] eqn:Hpr; [destruct Ho as [k' Ho]; exact (proj2 (Hproj f _ _ _ eq_refl (eq_sym Ho)))|injection Ho as ->; reflexivity].
  - destruct Hf as [|[_ Hf]]; [auto|]. right. intros Hj. pose proof (proj2 (Hf Hj) _ _ _ _ Hs2) as Hl.
    destruct projector as [f|] eqn:Hpr; [destruct Ho as [k' Ho]; exact (Hl _ _ (eq_sym Ho))|injection Ho as ->; exact Hl].
Qed.

Definition goal_ok s (g : nat) : Prop := exists n, nodes s !! g = Some n /\ cfg n ∈ qs.
Lemma evolve_goal_ok s s' g : evolve s s' -> goal_ok s g -> goal_ok s' g.
Proof.
  intros He (n & Hn & Hq). destruct (proj1 (evolve_grows _ _ _ _ _ _ He) _ _ Hn) as (n' & Hn' & Hc & _). exists n'. rewrite Hc. auto.
Qed.
Lemma wp_tryGoals E init goals ni s : (E \/ fineT) -> nodes s !! init = Some ni -> comp ni = start -> (E \/ mats ni <> None) ->
  (forall g, g ∈ goals -> goal_ok s g) ->
  wp E (tryGoals init goals) (fun _ s' => evolve s s' /\ forall g, g ∈ goals -> filled_at giwc s' g) s.
Proof.
  intros Hf. revert ni s. induction goals as [|g goals IH]; intros ni s Hi Hc Hm Hg; cbn [PlanModel.tryGoals].
  - apply wp_ret. split; [apply ev_refl|]. intros g Hin. apply elem_of_nil in Hin. contradiction.
  - destruct (Hg g ltac:(left)) as (ng & Hng & Hq). apply wp_bind.
    eapply wp_conseq; [exact (wp_tryConnect E init g ni ng s Hf Hi Hc Hm Hng Hq)|]. intros u s' [Hev Hfi]. cbn beta.
    destruct (proj1 (evolve_grows _ _ _ _ _ _ Hev) _ _ Hi) as (ni' & Hi' & _ & Hc' & Hm').
    eapply wp_conseq; [apply (IH ni' s' Hi')|].
    + congruence.
    + destruct Hm as [|Hm]; [auto|right; auto].
    + intros g' Hin. apply (evolve_goal_ok s s'); [assumption|]. apply Hg. right. assumption.
    + intros u' s'' [Hev' Hfi']. split; [exact (ev_trans _ _ _ _ s s' s'' Hev Hev')|].
      intros g' Hin. apply elem_of_cons in Hin as [->|Hin]; [|auto]. exact (evolve_filled_at giwc start ends EP s' s'' g Hev' Hfi).
Qed.
Lemma wp_init E init goals ni s : (E \/ fineT) -> nodes s !! init = Some ni -> comp ni = start ->
  (forall g, g ∈ goals -> goal_ok s g) ->
  wp E (tryConnectInitAndGoals init goals)
    (fun _ s' => evolve s s' /\ filled_at giwc s' init /\ forall g, g ∈ goals -> filled_at giwc s' g) s.
Proof.
  intros Hf Hi Hc Hg. unfold PlanModel.tryConnectInitAndGoals.
  apply wp_bind. apply (wp_computeGIWC giwc E init _ s ni Hi). intros s1 k1 Hn1 He1.
  assert (Hev1 : evolve s s1) by exact (ev_one _ _ _ _ _ _ (ch_fill giwc start ends EP s s1 init ni k1 Hi Hn1 He1)).
  assert (Hi1 : nodes s1 !! init = Some (mkNode (cfg ni) (comp ni) (Some (giwc k1 (cfg ni))))).
  { rewrite Hn1. apply list_lookup_insert. eapply lookup_lt_Some; eauto. }
  eapply wp_conseq; [apply (wp_tryGoals E init goals _ s1 Hf Hi1 Hc)|].
  - right. discriminate.
  - intros g Hin. exact (evolve_goal_ok s s1 g Hev1 (Hg g Hin)).
  - intros u s' [Hev Hfi]. split; [exact (ev_trans _ _ _ _ s s1 s' Hev1 Hev)|]. split; [|assumption].
    apply (evolve_filled_at giwc start ends EP s1 s' init Hev). eexists. exists k1. split; [exact Hi1|reflexivity].
Qed.

Context (Hnear : nearest_ok nearest).
Notation plan := (plan P M pinit pend prange plen pV0 pVimp shoot nearest same sm smParabola validate giwc constraints projector trunkValid indexECS tryJump).
Lemma wp_plan E init goals n s : (E \/ fineT) -> fresh_roadmap init start goals ends s ->
  (forall g ng, g ∈ goals -> nodes s !! g = Some ng -> cfg ng ∈ qs) ->
  wp E (plan init start goals ends n) (fun _ s' => evolve s s' /\ all_filled giwc s') s.
Proof.
  intros Hf (_ & Hse & (ni & Hi & Hc) & Hgi & Hei & Hall & _) Hqs. unfold PlanModel.plan. apply wp_bind.
  eapply wp_conseq; [apply (wp_init E init goals ni s Hf Hi Hc)|].
  { intros g Hin. destruct (Hgi g Hin) as (ng & Hng & _). exists ng. split; [assumption|]. exact (Hqs g ng Hin Hng). }
  intros u s1 (Hev & Hfi & Hfg). cbn beta.
  assert (Haf : all_filled giwc s1).
  { intros i n' Hn'. destruct (evolve_filled giwc start ends EP s s1 i n' Hev Hn') as [H|H]; [exact H|].
    assert (Hfa : filled_at giwc s1 i) by (destruct (Hall i n' H) as [->|Hin]; [exact Hfi|exact (Hfg i Hin)]).
    destruct Hfa as (n2 & k & Hn2 & Hk). assert (n2 = n') as -> by congruence. exists k. exact Hk. }
  eapply wp_conseq; [apply (wp_steps pinit pend prange shoot nearest same sm validate giwc constraints valid start ends Hnear Hsm Hval EP HEP E n s1)|].
  - destruct Hf as [|[Hv _]]; [auto|right; split; assumption].
  - apply (evolve_inhabited giwc start ends EP start s s1 Hev). exists init, ni. auto.
  - intros c Hce. apply (evolve_inhabited giwc start ends EP c s s1 Hev). destruct (Hei c Hce) as (g & ng & _ & Hng & Hcg). exists g, ng. auto.
  - intros u' s2 Hev2. split; [exact (ev_trans _ _ _ _ s s1 s2 Hev Hev2)|]. exact (evolve_all_filled giwc start ends EP s1 s2 Hev2 Haf).
Qed.
End Direct.

Section Success.
Context {P M : Type}.
Notation rm := (rm P M).
Notation node := (node M).
Context (pinit pend : P -> list R) (prange : P -> R * R) (plen : P -> R) (pV0 pVimp : P -> R * R * R).
Context (shoot : nat -> list R) (nearest : nat -> list node -> list R -> nat -> bool -> nat)
  (same : nat -> list node -> nat -> list R -> option nat) (sm : nat -> bool -> node -> list R -> option P)
  (smParabola : nat -> list R -> list R -> option P) (validate : nat -> P -> bool -> bool * option P * option R)
  (giwc : nat -> list R -> M).
Context (Hnear : nearest_ok nearest).
Implicit Types (s : rm).
Notation extendStart := (extendStart P M pend prange nearest same sm validate giwc None).
Notation extendEnds := (extendEnds P M pinit pend prange nearest same sm validate giwc None).
Notation oneStep := (oneStep P M pinit pend prange shoot nearest same sm validate giwc None).

Lemma ceqb_same a : ceqb a a = true.
Proof. apply ceqb_true. reflexivity. Qed.

Lemma wp_extend_ok E near target (rev : bool) (Q : option P -> rm -> Prop) s n p : nodes s !! near = Some n -> mats n <> None ->
  sm (clock s) rev n target = Some p ->
  (forall s', nodes s' = nodes s -> edges s' = edges s -> Q (Some p) s') ->
  wp E (extendInternal P M sm None near target rev) Q s.
Proof.
  intros Hi Hm Hs H. unfold extendInternal. apply wp_bind, wp_deref; [|right; congruence].
  intros n' Hn'. assert (n' = n) as -> by congruence. cbn [projected].
  destruct (mats n) as [m|]; [|contradiction]. apply wp_call. intros s' H1 H2. rewrite Hs. auto.
Qed.

Lemma step_success start c cs s : (forall i n, nodes s !! i = Some n -> mats n <> None) ->
  inhabited start s -> inhabited c s ->
  always_joined pinit pend prange sm validate false start (shoot (clock s)) ->
  always_joined pinit pend prange sm validate true c (shoot (clock s)) ->
  wp False (oneStep start (c :: cs)) (fun _ s' =>
    exists i j p ni nj, (i, j, p) ∈ edges s' /\ nodes s' !! i = Some ni /\ nodes s' !! j = Some nj /\ comp ni = start /\ comp nj = c) s.
Proof.
  intros Hm Hs Hc Hjs Hjc. unfold PlanModel.oneStep. apply wp_bind, wp_call. intros s1 Hn1 He1.
  set (q := shoot (clock s)) in *. clearbody q.
  apply wp_bind. unfold PlanModel.extendStart. apply wp_bind, wp_getNodes, wp_bind, wp_call. intros s2 Hn2 He2.
  assert (Hin : exists i n, nodes s1 !! i = Some n /\ comp n = start) by (rewrite Hn1; exact Hs).
  destruct (Hnear (clock s1) (nodes s1) q start false Hin) as (n & Hi & Hcn).
  set (near := nearest (clock s1) (nodes s1) q start false) in *. clearbody near.
  assert (Hi2 : nodes s2 !! near = Some n) by congruence.
  assert (Hmn : mats n <> None) by (apply (Hm near); congruence).
  destruct (Hjs (clock s2) n Hcn) as (p & Hp & Hpe & Hpr & Hpv).
  apply wp_bind. apply (wp_extend_ok False near q false _ s2 n p Hi2 Hmn Hp). intros s3 Hn3 He3.
  apply wp_bind, wp_call. intros s4 Hn4 He4. destruct (Hpv (clock s3)) as [r Hr]. rewrite Hr.
  rewrite (proj2 (nReqb_true _ _) Hpr). rewrite Hpe, ceqb_same. cbn [andb].
  apply (wp_fwd same giwc start [c] (fun _ _ _ => True) False near n); [congruence|assumption|exact I|].
  intros x s5 k5 Hch Hx. apply wp_ret. cbn [fst snd PlanModel.extendEnds].
  pose proof (change_grows _ _ _ _ _ _ Hch) as Hg.
  assert (Hm5 : forall i n, nodes s5 !! i = Some n -> mats n <> None).
  { intros i n5 Hn5. destruct (change_filled _ _ _ _ _ _ i n5 Hch Hn5) as [[k Hk]|Hold]; [congruence|]. apply (Hm i). congruence. }
  apply wp_bind. unfold extendEnd. apply wp_bind, wp_getNodes, wp_bind, wp_call. intros s6 Hn6 He6.
  assert (Hin5 : exists i n, nodes s5 !! i = Some n /\ comp n = c).
  { destruct Hc as (i & nc & Hic & Hcc). rewrite <- Hn1, <- Hn2, <- Hn3, <- Hn4 in Hic. destruct (proj1 Hg _ _ Hic) as (n' & Hn' & _ & Hc' & _). exists i, n'. split; [assumption|congruence]. }
  destruct (Hnear (clock s5) (nodes s5) q c true Hin5) as (n' & Hi' & Hcn').
  set (near' := nearest (clock s5) (nodes s5) q c true) in *. clearbody near'.
  assert (Hi6 : nodes s6 !! near' = Some n') by congruence.
  destruct (Hjc (clock s6) n' Hcn') as (p' & Hp' & Hpi' & Hpr' & Hpv').
  apply wp_bind. apply (wp_extend_ok False near' q true _ s6 n' p' Hi6 (Hm5 _ _ Hi') Hp'). intros s7 Hn7 He7.
  apply wp_bind, wp_call. intros s8 Hn8 He8. destruct (Hpv' (clock s7)) as [r' Hr']. rewrite Hr'.
  rewrite Hpi', ceqb_same. cbn [andb]. apply wp_bind, wp_addEdge. intros s9 Hn9 He9. apply wp_ret. cbn beta iota. apply wp_ret.
  exists x, near', p', (mkNode q start (Some (giwc k5 q))), n'. split; [rewrite He9; apply elem_of_app; right; apply elem_of_list_singleton; reflexivity|].
  split; [congruence|]. split; [congruence|]. cbn. auto.
Qed.
End Success.

(** a goal that is directly joined *)
Section DirectSuccess.
Context {P M : Type}.
Notation rm := (rm P M).
Notation node := (node M).
Context (pinit pend : P -> list R) (prange : P -> R * R) (plen : P -> R) (pV0 pVimp : P -> R * R * R).
Context (same : nat -> list node -> nat -> list R -> option nat) (sm : nat -> bool -> node -> list R -> option P)
  (smParabola : nat -> list R -> list R -> option P) (validate : nat -> P -> bool -> bool * option P * option R)
  (giwc : nat -> list R -> M) (trunkValid : nat -> P -> R -> bool) (indexECS : nat) (tryJump : bool).
Context (valid : P -> Prop).
Context (Hsm : steering_ok pinit pend sm) (Hpa : parabola_ok pinit pend smParabola)
  (Hval : validation_ok pinit pend prange valid validate).
Context (qs : list (list R)) (Hgoals : reaches_goals pend sm None None qs).
Implicit Types (s : rm) (E : Prop).
Notation tryConnect := (tryConnect P M pinit pend prange plen pV0 pVimp same sm smParabola validate giwc None None trunkValid indexECS tryJump).
Notation tryGoals := (tryGoals P M pinit pend prange plen pV0 pVimp same sm smParabola validate giwc None None trunkValid indexECS tryJump).
Notation tryConnectInitAndGoals := (tryConnectInitAndGoals P M pinit pend prange plen pV0 pVimp same sm smParabola validate giwc None None trunkValid indexECS tryJump).
Notation evolve := (evolve giwc 0 [] (fun _ _ _ => True)).

Lemma wp_conj {A} E (m : act P M A) (Q Q' : A -> rm -> Prop) s : wp E m Q s -> wp E m Q' s -> wp E m (fun a s' => Q a s' /\ Q' a s') s.
Proof. unfold wp. destruct (m s) as [[a s']| |]; auto. Qed.
Lemma wp_direct E init goal ni g s : 
  nodes s !! init = Some ni -> mats ni <> None -> nodes s !! goal = Some g ->
  always_joined pinit pend prange sm validate false (comp ni) (cfg g) ->
  wp E (tryConnect init goal) (fun _ s' => exists p, (init, goal, p) ∈ edges s') s.
Proof.
  intros Hi Hm Hg Hj. unfold PlanModel.tryConnect.
  apply wp_bind. apply (wp_computeGIWC giwc E goal _ s g Hg). intros s1 k1 Hn1 He1.
  assert (Hch1 : change giwc 0 [] (fun _ _ _ => True) s s1) by exact (ch_fill giwc 0 [] _ s s1 goal g k1 Hg Hn1 He1).
  destruct (proj1 (change_grows _ _ _ _ _ _ Hch1) _ _ Hi) as (ni1 & Hi1 & Hci1 & Hco1 & Hma1).
  assert (Hg1 : nodes s1 !! goal = Some (mkNode (cfg g) (comp g) (Some (giwc k1 (cfg g))))).
  { rewrite Hn1. apply list_lookup_insert. eapply lookup_lt_Some; eauto. }
  apply wp_bind, wp_deref; [|right; congruence]. intros g' Hg'. assert (Hcg' : cfg g' = cfg g) by (rewrite Hg1 in Hg'; injection Hg' as <-; reflexivity).
  rewrite Hcg'. destruct (Hj (clock s1) ni1 Hco1) as (p & Hp & Hpe & Hpr & Hpv).
  apply wp_bind. apply (wp_extend_ok sm E init (cfg g) false _ s1 ni1 p Hi1 (Hma1 Hm) Hp). intros s2 Hn2 He2.
  apply wp_bind, wp_ret, wp_bind, wp_call. intros s3 Hn3 He3. destruct (Hpv (clock s2)) as [r Hr]. rewrite Hr.
  rewrite (proj2 (nReqb_true _ _) Hpr). apply wp_addEdge. intros s4 Hn4 He4. exists p. rewrite He4. apply elem_of_app. right. apply elem_of_list_singleton. reflexivity.
Qed.

Lemma wp_directs E init goals ni s : (E \/ fineT pinit pend prange sm smParabola validate None indexECS tryJump) ->
  nodes s !! init = Some ni -> mats ni <> None -> (forall g, g ∈ goals -> goal_ok qs s g) ->
  forall goal g, goal ∈ goals -> nodes s !! goal = Some g ->
  always_joined pinit pend prange sm validate false (comp ni) (cfg g) ->
  wp E (tryGoals init goals) (fun _ s' => exists p, (init, goal, p) ∈ edges s') s.
Proof.
  intros Hf Hi0 Hm0 Hg0 goal g Hin0 Hgn0 Hj. revert ni s g Hi0 Hm0 Hg0 Hin0 Hgn0 Hj.
  induction goals as [|g0 goals IH]; intros ni s g Hi Hm Hg Hin Hgn Hj; [apply elem_of_nil in Hin; contradiction|].
  cbn [PlanModel.tryGoals]. destruct (Hg g0 ltac:(left)) as (n0 & Hn0 & Hq0). apply wp_bind.
  assert (Hev : wp E (tryConnect init g0) (fun _ s' => PlanProofs.evolve giwc (comp ni) [] (fun _ _ _ => True) s s' /\ filled_at giwc s' g0) s).
  { apply (wp_tryConnect pinit pend prange plen pV0 pVimp same sm smParabola validate giwc None None trunkValid indexECS tryJump valid (comp ni) [] Hsm Hpa Hval) with (qs := qs) (ni := ni) (g := n0); auto.
    intros f k p p' Hff. discriminate Hff. }
  assert (Htail : forall s', PlanProofs.evolve giwc (comp ni) [] (fun _ _ _ => True) s s' ->
    wp E (tryGoals init goals) (fun _ s'' => PlanProofs.evolve giwc (comp ni) [] (fun _ _ _ => True) s' s'' /\ forall g, g ∈ goals -> filled_at giwc s'' g) s').
  { intros s' He. destruct (proj1 (evolve_grows _ _ _ _ _ _ He) _ _ Hi) as (ni' & Hi' & _ & Hc' & Hm').
    apply (wp_tryGoals pinit pend prange plen pV0 pVimp same sm smParabola validate giwc None None trunkValid indexECS tryJump valid (comp ni) [] Hsm Hpa Hval) with (qs := qs) (ni := ni'); auto.
    - intros f k p p' Hff. discriminate Hff.
    - intros g' Hg'. apply (evolve_goal_ok giwc (comp ni) [] (fun _ _ _ => True) qs s s' g' He). apply Hg. right. assumption. }
  destruct (Nat.eq_dec goal g0) as [->|Hne].
  - assert (n0 = g) as -> by congruence.
    eapply wp_conseq; [apply wp_conj; [exact Hev|exact (wp_direct E init g0 ni g s Hi Hm Hgn Hj)]|].
    intros u s' [[He _] [p Hp]]. eapply wp_conseq; [exact (Htail s' He)|]. intros u' s'' [He' _].
    exists p. destruct (proj2 (evolve_grows _ _ _ _ _ _ He')) as [es Hes]. rewrite Hes. apply elem_of_app. left. exact Hp.
  - eapply wp_conseq; [exact Hev|]. intros u s' [He _]. cbn beta.
    destruct (proj1 (evolve_grows _ _ _ _ _ _ He) _ _ Hi) as (ni' & Hi' & _ & Hc' & Hm').
    destruct (proj1 (evolve_grows _ _ _ _ _ _ He) _ _ Hgn) as (gn' & Hgn' & Hcg' & _).
    assert (Hin' : goal ∈ goals) by (apply elem_of_cons in Hin as [|]; [contradiction|assumption]).
    apply (IH ni' s' gn' Hi' (Hm' Hm)); [|assumption|assumption|rewrite Hc', Hcg'; assumption].
    intros g' Hg'. apply (evolve_goal_ok giwc (comp ni) [] (fun _ _ _ => True) qs s s' g' He). apply Hg. right. assumption.
Qed.
Lemma wp_directly E init goals ni s : (E \/ fineT pinit pend prange sm smParabola validate None indexECS tryJump) ->
  nodes s !! init = Some ni -> (forall g, g ∈ goals -> goal_ok qs s g) ->
  forall goal g, goal ∈ goals -> nodes s !! goal = Some g ->
  always_joined pinit pend prange sm validate false (comp ni) (cfg g) ->
  wp E (tryConnectInitAndGoals init goals) (fun _ s' => exists p, (init, goal, p) ∈ edges s') s.
Proof.
  intros Hf Hi Hg goal g Hin Hgn Hj. unfold PlanModel.tryConnectInitAndGoals.
  apply wp_bind. apply (wp_computeGIWC giwc E init _ s ni Hi). intros s1 k1 Hn1 He1.
  assert (Hev1 : evolve s s1) by exact (ev_one _ _ _ _ _ _ (ch_fill giwc 0 [] _ s s1 init ni k1 Hi Hn1 He1)).
  assert (Hi1 : nodes s1 !! init = Some (mkNode (cfg ni) (comp ni) (Some (giwc k1 (cfg ni))))).
  { rewrite Hn1. apply list_lookup_insert. eapply lookup_lt_Some; eauto. }
  destruct (proj1 (evolve_grows _ _ _ _ _ _ Hev1) _ _ Hgn) as (gn' & Hgn' & Hcg' & _).
  apply (wp_directs E init goals _ s1 Hf Hi1) with (g := gn'); [discriminate| |assumption|assumption|rewrite Hcg'; assumption].
  intros g' Hg'. exact (evolve_goal_ok giwc 0 [] (fun _ _ _ => True) qs s s1 g' Hev1 (Hg g' Hg')).
Qed.
End DirectSuccess.
