(** Proofs of C114-C118: the functions of the planner. *)
From Coq Require Import Reals ZArith Lra Lia.
From Verif Require Import VecProofs.
From Verif Require Export PlanProofs.
Local Open Scope R_scope.

Section WP.
Context {P M : Type}.
Notation rm := (rm P M).
Notation act := (PlanModel.act P M).
Notation bind := (PlanModel.bind P M).

(** when [m] returns, [Q] holds; it only fails if [E] *)
Definition wp {A} (E : Prop) (m : act A) (Q : A -> rm -> Prop) (s : rm) : Prop :=
  match m s with Ok (a, s') => Q a s' | _ => E end.
Lemma wp_ret {A} (E : Prop) (a : A) (Q : A -> rm -> Prop) (s : rm) : Q a s -> wp E (ret P M a) Q s.
Proof. intros H. exact H. Qed.
Lemma wp_bind {A B} (E : Prop) (m : act A) (f : A -> act B) (Q : B -> rm -> Prop) (s : rm) : wp E m (fun a s' => wp E (f a) Q s') s -> wp E (bind m f) Q s.
Proof. unfold wp, PlanModel.bind. destruct (m s) as [[a s']| |]; auto. Qed.
Lemma wp_call {A} (E : Prop) (f : nat -> A) (Q : A -> rm -> Prop) (s : rm) :
  (forall s', nodes s' = nodes s -> edges s' = edges s -> Q (f (clock s)) s') -> wp E (call P M f) Q s.
Proof. intros H. apply H; reflexivity. Qed.
Lemma wp_deref (E : Prop) i (Q : node M -> rm -> Prop) (s : rm) : (forall n, nodes s !! i = Some n -> Q n s) -> (E \/ nodes s !! i <> None) -> wp E (deref P M i) Q s.
Proof. intros H He. unfold wp, deref. destruct (nodes s !! i) as [n|]; [auto|]. destruct He as [He|He]; [exact He|contradiction]. Qed.
Lemma wp_getNodes (E : Prop) (Q : list (node M) -> rm -> Prop) (s : rm) : Q (nodes s) s -> wp E (getNodes P M) Q s.
Proof. intros H. exact H. Qed.
Lemma wp_ub {A} (E : Prop) (Q : A -> rm -> Prop) s : E -> wp E (ub P M) Q s.
Proof. intros H. exact H. Qed.
Lemma wp_conseq {A} E (m : act A) (Q Q' : A -> rm -> Prop) s : wp E m Q s -> (forall a s', Q a s' -> Q' a s') -> wp E m Q' s.
Proof. unfold wp. destruct (m s) as [[a s']| |]; auto. Qed.
Lemma wp_addEdge (E : Prop) i j p (Q : unit -> rm -> Prop) (s : rm) : (forall s', nodes s' = nodes s -> edges s' = edges s ++ [(i, j, p)] -> Q tt s') -> wp E (addEdge P M i j p) Q s.
Proof. intros H. apply H; reflexivity. Qed.
Lemma wp_addNode same (E : Prop) c q (Q : nat -> rm -> Prop) (s : rm) :
  (forall j s', (nodes s' = nodes s /\ (exists n', nodes s !! j = Some n' /\ comp n' = c /\ cfg n' = q) \/
                 nodes s' = nodes s ++ [mkNode q c None] /\ j = length (nodes s)) -> edges s' = edges s -> Q j s') ->
  wp E (addNode P M same c q) Q s.
Proof.
  intros H. unfold addNode. apply wp_bind, wp_getNodes, wp_bind, wp_call. intros s1 Hn He.
  assert (Hnew : wp E (fun s0 : rm => Ok (length (nodes s0), mkRm (nodes s0 ++ [mkNode q c None]) (edges s0) (clock s0))) Q s1).
  { unfold wp. apply H; [|exact He]. right. cbn. rewrite Hn. auto. }
  destruct (same (clock s) (nodes s) c q) as [i|]; [|exact Hnew].
  destruct (nodes s !! i) as [n|] eqn:Hi; [|exact Hnew].
  destruct ((comp n =? c)%nat && ceqb (cfg n) q) eqn:Hb; [|exact Hnew].
  apply andb_true_iff in Hb as [Hc Hq]. apply Nat.eqb_eq in Hc. apply ceqb_true in Hq.
  apply wp_ret. apply H; [|assumption]. left. split; [assumption|]. exists n. auto.
Qed.
Lemma wp_computeGIWC giwc (E : Prop) i (Q : unit -> rm -> Prop) (s : rm) n : nodes s !! i = Some n ->
  (forall s' k, nodes s' = <[i := mkNode (cfg n) (comp n) (Some (giwc k (cfg n)))]> (nodes s) -> edges s' = edges s -> Q tt s') ->
  wp E (computeGIWC P M giwc i) Q s.
Proof.
  intros Hi H. unfold computeGIWC. apply wp_bind. unfold wp at 1, deref. rewrite Hi. apply wp_bind, wp_call.
  intros s1 Hn He. unfold wp. apply (H _ (clock s)); [|exact He]. cbn. rewrite Hn.
  rewrite <- Hn in Hi |- *. clear -Hi. unfold alter. revert i Hi. induction (nodes s1) as [|x l IH]; intros [|i] Hi; [discriminate..| |]; cbn in *.
  - injection Hi as ->. reflexivity.
  - f_equal. exact (IH i Hi).
Qed.
End WP.

Section Functions.
Context {P M : Type}.
Notation rm := (rm P M).
Notation node := (node M).
Context (pinit pend : P -> list R) (prange : P -> R * R) (plen : P -> R) (pV0 pVimp : P -> R * R * R).
Context (shoot : nat -> list R) (nearest : nat -> list node -> list R -> nat -> bool -> nat)
  (same : nat -> list node -> nat -> list R -> option nat) (sm : nat -> bool -> node -> list R -> option P)
  (smParabola : nat -> list R -> list R -> option P) (validate : nat -> P -> bool -> bool * option P * option R)
  (giwc : nat -> list R -> M)
  (constraints : option (option (list R -> list R -> list R) * (list R -> option (list R))))
  (projector : option (nat -> P -> option P)) (trunkValid : nat -> P -> R -> bool) (indexECS : nat) (tryJump : bool).
Context (valid : P -> Prop).
Context (start : nat) (ends : list nat).
Context (Hnear : nearest_ok nearest) (Hsm : steering_ok pinit pend sm) (Hpa : parabola_ok pinit pend smParabola)
  (Hval : validation_ok pinit pend prange valid validate) (Hproj : projector_ok pinit prange projector).
Context (EP : P -> list R -> list R -> Prop).
Context (HEP : forall p a b, joined pinit pend valid p a b -> EP p a b).
Notation evolve := (evolve giwc start ends EP).
Notation change := (change giwc start ends EP).
Notation extendInternal := (extendInternal P M sm constraints).
Notation addNodeAndEdge := (addNodeAndEdge P M same).
Notation addNodeAndEdgeRev := (addNodeAndEdgeRev P M same).
Notation computeGIWC := (computeGIWC P M giwc).
Notation bind := (PlanModel.bind P M).
Notation extendStart := (extendStart P M pend prange nearest same sm validate giwc constraints).
Notation extendEnd := (extendEnd P M pinit pend prange nearest same sm validate giwc constraints).
Notation extendEnds := (extendEnds P M pinit pend prange nearest same sm validate giwc constraints).
Notation oneStep := (oneStep P M pinit pend prange shoot nearest same sm validate giwc constraints).
Notation projected := (projected constraints).

Implicit Types (s : rm) (E : Prop).

Lemma same_nodes_evolve s s' : nodes s' = nodes s -> edges s' = edges s -> evolve s s'.
Proof. intros H1 H2. apply ev_one, ch_none; assumption. Qed.

(** adding a node and its edge, then its matrices *)
Lemma wp_fwd {B} E i n q p (K : nat -> act P M B) (Q : B -> rm -> Prop) s : nodes s !! i = Some n -> comp n = start -> EP p (cfg n) q ->
  (forall j s' k, change s s' -> nodes s' !! j = Some (mkNode q start (Some (giwc k q))) -> wp E (K j) Q s') ->
  wp E (bind (addNodeAndEdge i q p) (fun x => bind (computeGIWC x) (fun _ => K x))) Q s.
Proof.
  intros Hi Hc Hp H. unfold PlanModel.addNodeAndEdge. apply wp_bind, wp_bind, wp_deref; [|right; congruence].
  intros n' Hn'. assert (n' = n) as -> by congruence. apply wp_bind, wp_addNode. intros j s1 Hb He1.
  apply wp_bind, wp_addEdge. intros s2 Hn2 He2. apply wp_ret.
  assert (Hj : exists nj, nodes s2 !! j = Some nj /\ cfg nj = q /\ comp nj = comp n).
  { rewrite Hn2. destruct Hb as [[-> (nj & Hj & H1 & H2)]|[-> ->]]; [exists nj; auto|].
    exists (mkNode q (comp n) None). split; [|auto]. rewrite lookup_app_r by lia. rewrite Nat.sub_diag. reflexivity. }
  destruct Hj as (nj & Hj & Hcq & Hcc). apply wp_bind.
  apply (wp_computeGIWC giwc E j _ s2 nj Hj). intros s3 k Hn3 He3. rewrite Hcq, Hcc, Hn2 in Hn3.
  apply (H j s3 k).
  - apply (ch_add giwc start ends EP s s3 false i j n q p k (nodes s1)); [assumption| |assumption|exact Hn3|rewrite He3, He2, He1; reflexivity|assumption].
    destruct Hb as [[Hn1 Hex]|[Hn1 Hj']]; rewrite Hn1; [left; auto|right; auto].
  - rewrite Hn3. rewrite Hc. apply list_lookup_insert. rewrite <- Hn2. eapply lookup_lt_Some; eauto.
Qed.
Lemma wp_rev {B} E i n q p (K : nat -> act P M B) (Q : B -> rm -> Prop) s : nodes s !! i = Some n -> comp n ∈ ends -> EP p q (cfg n) ->
  (forall j s' k, change s s' -> nodes s' !! j = Some (mkNode q (comp n) (Some (giwc k q))) -> wp E (K j) Q s') ->
  wp E (bind (addNodeAndEdgeRev q i p) (fun x => bind (computeGIWC x) (fun _ => K x))) Q s.
Proof.
  intros Hi Hc Hp H. unfold PlanModel.addNodeAndEdgeRev. apply wp_bind, wp_bind, wp_deref; [|right; congruence].
  intros n' Hn'. assert (n' = n) as -> by congruence. apply wp_bind, wp_addNode. intros j s1 Hb He1.
  apply wp_bind, wp_addEdge. intros s2 Hn2 He2. apply wp_ret.
  assert (Hj : exists nj, nodes s2 !! j = Some nj /\ cfg nj = q /\ comp nj = comp n).
  { rewrite Hn2. destruct Hb as [[-> (nj & Hj & H1 & H2)]|[-> ->]]; [exists nj; auto|].
    exists (mkNode q (comp n) None). split; [|auto]. rewrite lookup_app_r by lia. rewrite Nat.sub_diag. reflexivity. }
  destruct Hj as (nj & Hj & Hcq & Hcc). apply wp_bind.
  apply (wp_computeGIWC giwc E j _ s2 nj Hj). intros s3 k Hn3 He3. rewrite Hcq, Hcc, Hn2 in Hn3.
  apply (H j s3 k).
  - apply (ch_add giwc start ends EP s s3 true i j n q p k (nodes s1)); [assumption| |assumption|exact Hn3|rewrite He3, He2, He1; reflexivity|assumption].
    destruct Hb as [[Hn1 Hex]|[Hn1 Hj']]; rewrite Hn1; [left; auto|right; auto].
  - rewrite Hn3. apply list_lookup_insert. rewrite <- Hn2. eapply lookup_lt_Some; eauto.
Qed.

Lemma wp_extend E near target (rev : bool) (Q : option P -> rm -> Prop) s n : nodes s !! near = Some n -> (E \/ mats n <> None) ->
  (forall s', nodes s' = nodes s -> edges s' = edges s -> Q None s') ->
  (forall k q p s', nodes s' = nodes s -> edges s' = edges s -> projected (cfg n) target = Some q -> sm k rev n q = Some p -> Q (Some p) s') ->
  wp E (extendInternal near target rev) Q s.
Proof.
  intros Hi Hm Hnone Hsome. unfold PlanModel.extendInternal. apply wp_bind, wp_deref; [|right; congruence].
  intros n' Hn'. assert (n' = n) as -> by congruence.
  destruct (projected (cfg n) target) as [q|] eqn:Hp; [|apply wp_ret, Hnone; reflexivity].
  destruct (mats n) as [m|]; [|apply wp_ub; destruct Hm as [|Hm]; [assumption|contradiction]].
  apply wp_call. intros s' Hn He. destruct (sm (clock s) rev n q) as [p|] eqn:Hs; [exact (Hsome _ q p s' Hn He eq_refl Hs)|exact (Hnone s' Hn He)].
Qed.

(** conditions under which nothing undefined happens *)
Definition fine s : Prop := validation_reports validate /\ all_filled giwc s.
Lemma evolve_fine E s s' : evolve s s' -> (E \/ fine s) -> E \/ fine s'.
Proof. intros He [|[H1 H2]]; [auto|]. right. split; [assumption|]. eapply evolve_all_filled; eauto. Qed.
Lemma fine_mats E s i n : (E \/ fine s) -> nodes s !! i = Some n -> E \/ mats n <> None.
Proof. intros [|[_ H]] Hi; [auto|]. right. destruct (H i n Hi) as [k Hk]. congruence. Qed.

Definition inhabited (c : nat) s : Prop := exists i n, nodes s !! i = Some n /\ comp n = c.
Lemma evolve_inhabited c s s' : evolve s s' -> inhabited c s -> inhabited c s'.
Proof. intros He (i & n & Hi & Hc). destruct (proj1 (evolve_grows _ _ _ _ _ _ He) _ _ Hi) as (n' & Hi' & _ & Hc' & _). exists i, n'. rewrite Hc'. auto. Qed.

(** the node reached from the start component *)
Definition reached_ok (r : option (nat * list R)) s : Prop :=
  match r with Some (x, q) => exists n, nodes s !! x = Some n /\ cfg n = q /\ comp n = start | None => True end.
Lemma evolve_reached r s s' : evolve s s' -> reached_ok r s -> reached_ok r s'.
Proof.
  intros He. destruct r as [[x q]|]; [|auto]. intros (n & Hn & Hq & Hc).
  destruct (proj1 (evolve_grows _ _ _ _ _ _ He) _ _ Hn) as (n' & Hn' & Hc1 & Hc2 & _). exists n'. split; [assumption|]. split; congruence.
Qed.

Lemma wp_extendStart E q s : (E \/ fine s) -> inhabited start s ->
  wp E (extendStart q start) (fun r s' => evolve s s' /\ reached_ok (snd r) s' /\ (E \/ (fst r = true -> snd r <> None))) s.
Proof.
  intros Hf Hin. unfold PlanModel.extendStart. apply wp_bind, wp_getNodes, wp_bind, wp_call. intros s1 Hn1 He1.
  destruct (Hnear (clock s) (nodes s) q start false Hin) as (n & Hi & Hc).
  set (near := nearest (clock s) (nodes s) q start false) in *. clearbody near. rewrite <- Hn1 in Hi.
  assert (Hev : evolve s s1) by (apply same_nodes_evolve; assumption).
  apply wp_bind. apply (wp_extend E near q false _ s1 n Hi).
  { eapply fine_mats; [exact (evolve_fine E s s1 Hev Hf)|exact Hi]. }
  { intros s2 Hn2 He2. apply wp_ret. split; [|split; [exact I|right; discriminate]]. apply same_nodes_evolve; congruence. }
  intros k qp p s2 Hn2 He2 Hp Hs. apply wp_bind, wp_call. intros s3 Hn3 He3.
  assert (Hev3 : evolve s s3) by (apply same_nodes_evolve; congruence).
  destruct (validate (clock s2) p false) as [[ok part] rep] eqn:Hv. destruct part as [v|].
  - destruct (negb (Reqb (snd (prange v)) (fst (prange p)))) eqn:Hr.
    + apply nReqb_true in Hr. destruct (Hval _ _ _ _ _ _ Hv) as (_ & Hvf & _). destruct (Hvf eq_refl) as [Hvi Hvv].
      apply (wp_fwd E near n); [congruence|assumption| |].
      { apply HEP. split; [|split; [reflexivity|left; auto]]. rewrite Hvi. exact (proj1 (Hsm k n qp p) Hs). }
      intros j s4 k' Hch Hj. apply wp_ret. split; [|split].
      * eapply ev_step; eauto.
      * exists (mkNode (pend v) start (Some (giwc k' (pend v)))). auto.
      * right. intros _. discriminate.
    + apply wp_ret. split; [assumption|]. split; [exact I|right; discriminate].
  - apply wp_ret. split; [assumption|]. split; [exact I|]. destruct Hf as [|[Hr _]]; [auto|]. right. cbn.
    specialize (Hr (clock s2) p false). rewrite Hv in Hr. intros ->. contradiction.
Qed.

Lemma wp_extendEnd E q fromStart r c s : c ∈ ends -> (E \/ fine s) -> inhabited c s -> reached_ok r s ->
  (E \/ (fromStart = true -> r <> None)) ->
  wp E (extendEnd q fromStart r c) (fun _ s' => evolve s s') s.
Proof.
  intros Hce Hf Hin Hr Hrn. unfold PlanModel.extendEnd. apply wp_bind, wp_getNodes, wp_bind, wp_call. intros s1 Hn1 He1.
  destruct (Hnear (clock s) (nodes s) q c true Hin) as (n & Hi & Hc).
  set (near := nearest (clock s) (nodes s) q c true) in *. clearbody near. rewrite <- Hn1 in Hi.
  assert (Hev : evolve s s1) by (apply same_nodes_evolve; assumption).
  apply wp_bind. apply (wp_extend E near q true _ s1 n Hi).
  { eapply fine_mats; [exact (evolve_fine E s s1 Hev Hf)|exact Hi]. }
  { intros s2 Hn2 He2. apply wp_ret. apply same_nodes_evolve; congruence. }
  intros k qp p s2 Hn2 He2 Hp Hs. apply wp_bind, wp_call. intros s3 Hn3 He3.
  assert (Hev3 : evolve s s3) by (apply same_nodes_evolve; congruence).
  assert (Hi3 : nodes s3 !! near = Some n) by congruence.
  destruct (validate (clock s2) p true) as [[ok part] rep] eqn:Hv.
  assert (Hvr : E \/ (ok = true -> part <> None)).
  { destruct Hf as [|[Hr' _]]; [auto|]. right. specialize (Hr' (clock s2) p true). rewrite Hv in Hr'. intros ->. exact Hr'. }
  assert (Hpe : pend p = cfg n) by exact (proj2 (Hsm k n qp p) Hs).
  destruct fromStart; cbn [andb].
  - destruct part as [v|].
    + destruct (Hval _ _ _ _ _ _ Hv) as (Hvt & _ & Hvr'). destruct (Hvr' eq_refl) as [Hve Hvv].
      destruct r as [[x qnew]|]; [|apply wp_ub; destruct Hrn as [|Hrn]; [assumption|exfalso; apply Hrn; reflexivity]].
      destruct (evolve_reached _ _ _ Hev3 Hr) as (nx & Hx & Hxq & Hxc).
      destruct (ok && ceqb (pinit v) qnew) eqn:Hok.
      * apply andb_true_iff in Hok as [-> Hqn]. apply ceqb_true in Hqn. destruct (Hvt eq_refl) as [-> Hvp].
        apply wp_bind, wp_addEdge. intros s4 Hn4 He4. apply wp_ret. eapply ev_step; [exact Hev3|].
        apply (ch_link giwc start ends EP s3 s4 x near nx n p Hx Hi3 Hn4 He4). apply HEP. split; [congruence|]. split; [congruence|auto].
      * destruct (negb (Reqb (snd (prange v)) (fst (prange p)))) eqn:Hrg; [|apply wp_ret; assumption].
        apply (wp_rev E near n); [assumption|congruence| |].
        { apply HEP. split; [reflexivity|]. split; [congruence|]. destruct Hvv as [|Hvv]; [auto|right; congruence]. }
        intros j s4 k' Hch Hj. assert (Hev4 : evolve s s4) by (eapply ev_step; eauto).
        destruct (evolve_reached _ _ _ Hev4 Hr) as (nx' & Hx' & Hxq' & Hxc').
        apply wp_bind. apply (wp_extend E x (pinit v) false _ s4 nx' Hx').
        { eapply fine_mats; [exact (evolve_fine E s s4 Hev4 Hf)|exact Hx']. }
        { intros s5 Hn5 He5. apply wp_ret. eapply ev_step; [exact Hev4|]. apply ch_none; assumption. }
        intros k2 qp2 p2 s5 Hn5 He5 Hp2 Hs2. apply wp_bind, wp_call. intros s6 Hn6 He6.
        assert (Hev6 : evolve s s6) by (eapply ev_step; [exact Hev4|]; apply ch_none; congruence).
        destruct (validate (clock s5) p2 false) as [[ok2 part2] rep2] eqn:Hv2.
        destruct ok2; [|apply wp_ret; assumption].
        destruct part2 as [w|].
        2:{ apply wp_ub. destruct Hf as [|[Hr' _]]; [assumption|]. exfalso. specialize (Hr' (clock s5) p2 false). rewrite Hv2 in Hr'. contradiction. }
        destruct (Hval _ _ _ _ _ _ Hv2) as (Hvt2 & _). destruct (Hvt2 eq_refl) as [-> Hvp2].
        destruct (ceqb (pend p2) (pinit v)) eqn:Hce2; [|apply wp_ret; assumption]. apply ceqb_true in Hce2.
        apply wp_bind, wp_addEdge. intros s7 Hn7 He7. apply wp_ret. eapply ev_step; [exact Hev6|].
        apply (ch_link giwc start ends EP s6 s7 x j nx' (mkNode (pinit v) (comp n) (Some (giwc k' (pinit v)))) p2); [congruence|congruence|assumption|assumption|].
        apply HEP. cbn [cfg]. split; [exact (proj1 (Hsm k2 nx' qp2 p2) Hs2)|]. auto.
    + destruct ok.
      * assert E by (destruct Hvr as [|Hvr]; [assumption|]; exfalso; apply Hvr; reflexivity).
        destruct r as [[? ?]|]; apply wp_ub; assumption.
      * apply wp_ret. assumption.
  - destruct part as [v|]; [|apply wp_ret; assumption].
    destruct (Hval _ _ _ _ _ _ Hv) as (Hvt & _ & Hvr'). destruct (Hvr' eq_refl) as [Hve Hvv].
    destruct (negb (Reqb (snd (prange v)) (fst (prange p)))) eqn:Hrg; [|apply wp_ret; assumption].
    apply (wp_rev E near n); [assumption|congruence| |].
    { apply HEP. split; [reflexivity|]. split; [congruence|]. destruct Hvv as [|Hvv]; [auto|right; congruence]. }
    intros j s4 k' Hch Hj. assert (Hev4 : evolve s s4) by (eapply ev_step; eauto).
    destruct r as [[x qnew]|]; [|apply wp_ret; assumption].
    destruct (evolve_reached _ _ _ Hev4 Hr) as (nx' & Hx' & Hxq' & Hxc').
    apply wp_bind. apply (wp_extend E x (pinit v) false _ s4 nx' Hx').
    { eapply fine_mats; [exact (evolve_fine E s s4 Hev4 Hf)|exact Hx']. }
    { intros s5 Hn5 He5. apply wp_ret. eapply ev_step; [exact Hev4|]. apply ch_none; assumption. }
    intros k2 qp2 p2 s5 Hn5 He5 Hp2 Hs2. apply wp_bind, wp_call. intros s6 Hn6 He6.
    assert (Hev6 : evolve s s6) by (eapply ev_step; [exact Hev4|]; apply ch_none; congruence).
    destruct (validate (clock s5) p2 false) as [[ok2 part2] rep2] eqn:Hv2.
    destruct ok2; [|apply wp_ret; assumption].
    destruct part2 as [w|].
    2:{ apply wp_ub. destruct Hf as [|[Hr' _]]; [assumption|]. exfalso. specialize (Hr' (clock s5) p2 false). rewrite Hv2 in Hr'. contradiction. }
    destruct (Hval _ _ _ _ _ _ Hv2) as (Hvt2 & _). destruct (Hvt2 eq_refl) as [-> Hvp2].
    destruct (ceqb (pend p2) (pinit v)) eqn:Hce2; [|apply wp_ret; assumption]. apply ceqb_true in Hce2.
    apply wp_bind, wp_addEdge. intros s7 Hn7 He7. apply wp_ret. eapply ev_step; [exact Hev6|].
    apply (ch_link giwc start ends EP s6 s7 x j nx' (mkNode (pinit v) (comp n) (Some (giwc k' (pinit v)))) p2); [congruence|congruence|assumption|assumption|].
    apply HEP. cbn [cfg]. split; [exact (proj1 (Hsm k2 nx' qp2 p2) Hs2)|]. auto.
Qed.

Lemma wp_extendEnds E q fromStart r cs s : (forall c, c ∈ cs -> c ∈ ends /\ inhabited c s) -> (E \/ fine s) -> reached_ok r s ->
  (E \/ (fromStart = true -> r <> None)) ->
  wp E (extendEnds q fromStart r cs) (fun _ s' => evolve s s') s.
Proof.
  revert s. induction cs as [|c cs IH]; intros s Hcs Hf Hr Hrn; cbn [PlanModel.extendEnds]; [apply wp_ret, ev_refl|].
  destruct (Hcs c ltac:(left)) as [Hce Hin]. apply wp_bind.
  eapply wp_conseq; [exact (wp_extendEnd E q fromStart r c s Hce Hf Hin Hr Hrn)|]. intros stop s' Hev. cbn beta.
  destruct stop; [apply wp_ret; assumption|].
  eapply wp_conseq; [apply IH|].
  - intros c' Hc'. destruct (Hcs c' ltac:(right; assumption)) as [H1 H2]. split; [assumption|]. eapply evolve_inhabited; eauto.
  - eapply evolve_fine; eauto.
  - eapply evolve_reached; eauto.
  - assumption.
  - intros u s'' Hev'. eapply ev_trans; eauto.
Qed.

Lemma wp_oneStep E s : (E \/ fine s) -> inhabited start s -> (forall c, c ∈ ends -> inhabited c s) ->
  wp E (oneStep start ends) (fun _ s' => evolve s s') s.
Proof.
  intros Hf Hs Hes. unfold PlanModel.oneStep. apply wp_bind, wp_call. intros s1 Hn1 He1.
  assert (Hev : evolve s s1) by (apply same_nodes_evolve; assumption).
  apply wp_bind. eapply wp_conseq; [apply (wp_extendStart E); [exact (evolve_fine E s s1 Hev Hf)|exact (evolve_inhabited _ s s1 Hev Hs)]|].
  intros r s2 (Hev2 & Hr & Hn). assert (Hev' : evolve s s2) by (eapply ev_trans; eauto).
  eapply wp_conseq; [apply (wp_extendEnds E)|].
  - intros c Hc. split; [assumption|]. exact (evolve_inhabited c s s2 Hev' (Hes c Hc)).
  - exact (evolve_fine E s s2 Hev' Hf).
  - assumption.
  - assumption.
  - intros u s3 Hev3. eapply ev_trans; eauto.
Qed.
Lemma wp_steps E n s : (E \/ fine s) -> inhabited start s -> (forall c, c ∈ ends -> inhabited c s) ->
  wp E (steps P M pinit pend prange shoot nearest same sm validate giwc constraints start ends n) (fun _ s' => evolve s s') s.
Proof.
  revert s. induction n as [|n IH]; intros s Hf Hs Hes; cbn [steps]; [apply wp_ret, ev_refl|].
  apply wp_bind. eapply wp_conseq; [exact (wp_oneStep E s Hf Hs Hes)|]. intros u s' Hev. cbn beta.
  eapply wp_conseq; [apply IH|].
  - exact (evolve_fine E s s' Hev Hf).
  - exact (evolve_inhabited _ s s' Hev Hs).
  - intros c Hc. exact (evolve_inhabited c s s' Hev (Hes c Hc)).
  - intros u' s'' Hev'. exact (ev_trans _ _ _ _ s s' s'' Hev Hev').
Qed.
End Functions.
