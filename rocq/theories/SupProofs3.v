(** The gift wrapping closes; its edges support the points. *)
From Coq Require Import ZArith Classical.
From Verif Require Import Maps Vec VecProofs GeomModel GeomSpec GeomInt GeomProofs GeomProofs2 GeomProofs3 SupModel SupSpec SupProofs SupProofs2.
Local Open Scope R_scope.

Section wrap.
Variables (p0 p1 p2 : vec3) (l : list vec3).
Notation P := (p0 :: p1 :: p2 :: l).
Notation tl := (p1 :: p2 :: l).
Hypothesis Hflat : flat P.
Hypothesis HD : 0 < isLeft p0 p1 p2.
Definition next := giftNext p0 tl.
Definition v0 := leftMostFrom p0 tl.
Definition vs (k : nat) : vec3 := Nat.iter k next v0.

Lemma next_ok pi dx dy : 0 < dx * dx + dy * dy -> pi ∈ P ->
  (forall q, q ∈ P -> dx * (vy q - vy pi) - dy * (vx q - vx pi) <= 0) -> supports P pi (next pi).
Proof.
  intros Hd Hpi Hoff. destruct (scan_start pi dx dy Hd p0 p1 p2 l Hpi Hflat HD Hoff) as (A & B & C).
  unfold supports, next, giftNext. split_and!; [done|exact B| |].
  - intros [Hx Hy]. by apply (good_ne pi dx dy _ A).
  - intros q Hq. by apply C.
Qed.
Lemma vs_ok k : vs k ∈ P /\ supports P (vs k) (vs (S k)).
Proof.
  induction k as [|k [IH1 IH2]].
  - assert (H : vs 0 ∈ P) by apply leftMost_in. split; [done|]. apply (next_ok _ 0 1); [lra|done|].
    intros q Hq. pose proof (leftMost_least p0 tl q Hq). change (vs 0) with (leftMostFrom p0 tl). lra.
  - destruct IH2 as (H1 & H2 & H3 & H4). split; [done|].
    apply (next_ok _ (vx (vs (S k)) - vx (vs k)) (vy (vs (S k)) - vy (vs k))).
    + unfold same_xy in H3. destruct (Req_EM_T (vx (vs k)) (vx (vs (S k)))) as [E1|E1].
      * assert (vy (vs (S k)) - vy (vs k) <> 0) as Hne by (assert (vy (vs k) <> vy (vs (S k))) by tauto; lra).
        pose proof (Rsqr_pos_lt _ Hne). pose proof (Rle_0_sqr (vx (vs (S k)) - vx (vs k))). unfold Rsqr in *. lra.
      * assert (vx (vs (S k)) - vx (vs k) <> 0) as Hne by lra.
        pose proof (Rsqr_pos_lt _ Hne). pose proof (Rle_0_sqr (vy (vs (S k)) - vy (vs k))). unfold Rsqr in *. lra.
    + done.
    + intros q Hq. pose proof (H4 q Hq) as Hr. unfold isLeft in Hr. lra.
Qed.
Lemma not_aligned : exists a b c, a ∈ P /\ b ∈ P /\ c ∈ P /\ isLeft a b c <> 0.
Proof. exists p0, p1, p2. rewrite !elem_of_cons. split_and!; try tauto. lra. Qed.
Lemma vs_repeat : exists i j, (i < j <= length P)%nat /\ vs i = vs j.
Proof.
  destruct (classic (exists i j, (i < j <= length P)%nat /\ vs i = vs j)) as [H|H]; [done|]. exfalso.
  assert (Hnd : NoDup (vs <$> seq 0 (S (length P)))).
  { apply NoDup_fmap_2_strong; [|apply NoDup_seq]. intros x y Hx Hy Hxy. apply elem_of_seq in Hx, Hy.
    destruct (Nat.lt_trichotomy x y) as [E|[E|E]]; [|done|]; exfalso; apply H; [exists x, y|exists y, x]; split; try lia; done. }
  assert (Hsub : vs <$> seq 0 (S (length P)) ⊆+ P).
  { apply NoDup_submseteq; [done|]. intros q Hq. apply elem_of_list_fmap in Hq as (k & -> & _). apply vs_ok. }
  apply submseteq_length in Hsub. rewrite fmap_length, seq_length in Hsub. lia.
Qed.

(** the first of the leftmost points, and what is before it *)
Lemma leftMostFrom_split m : forall r, exists before after, r :: m = before ++ leftMostFrom r m :: after /\
  forall q, q ∈ before -> vx (leftMostFrom r m) < vx q.
Proof.
  induction m as [|c m IH]; intros r; cbn [leftMostFrom].
  - exists [], []. split; [done|]. intros q Hq. by apply elem_of_nil in Hq.
  - destruct (Rltb (vx c) (vx r)) eqn:E.
    + apply Rltb_true in E. destruct (IH c) as (bf & af & H1 & H2). exists (r :: bf), af. split; [by rewrite H1|].
      intros q Hq. apply elem_of_cons in Hq as [->|Hq]; [|by apply H2].
      pose proof (leftMost_least c m c). rewrite elem_of_cons in H. assert (vx (leftMostFrom c m) <= vx c) by (apply H; by left). lra.
    + apply Rltb_false in E. destruct (IH r) as (bf & af & H1 & H2).
      destruct bf as [|b bf].
      * simpl in H1. injection H1 as H1 H3. exists [], (c :: m). rewrite <- H1. split; [done|]. intros q Hq. by apply elem_of_nil in Hq.
      * injection H1 as -> H3. exists (b :: c :: bf), af. split; [simpl; by rewrite <- H3|].
        assert (Hb := H2 b). rewrite elem_of_cons in Hb. assert (vx (leftMostFrom b m) < vx b) by (apply Hb; by left).
        intros q Hq. rewrite !elem_of_cons in Hq. destruct Hq as [->|[->|Hq]]; [done|lra|]. apply H2, elem_of_cons. by right.
Qed.
Lemma pickNext_stays pi e (m : list vec3) : e <> pi -> (forall q, q ∈ m -> isLeft pi e q <= 0) -> fold_left (pickNext pi) m e = e.
Proof.
  induction m as [|c m IH]; intros He H; [done|]. cbn [fold_left]. assert (pickNext pi e c = e) as ->.
  { unfold pickNext. assert (veqb e pi = false) as -> by by apply veqb_false.
    assert (Rltb 0 (isLeft pi e c) = false) as ->; [|done]. apply Rltb_false, H, elem_of_cons. by left. }
  apply IH; [done|]. intros q Hq. apply H, elem_of_cons. by right.
Qed.
Lemma pickNext_in pi (m : list vec3) : forall e, fold_left (pickNext pi) m e ∈ e :: m.
Proof.
  induction m as [|c m IH]; intros e; cbn [fold_left]; [apply elem_of_cons; by left|].
  specialize (IH (pickNext pi e c)). apply elem_of_cons in IH as [H|H].
  - rewrite H. unfold pickNext. rewrite !elem_of_cons. destruct (_ || _); tauto.
  - rewrite !elem_of_cons. tauto.
Qed.
(** from a leftmost point below the first one, the wrapping comes back to the first one *)
Lemma next_home c : c ∈ P -> vx c = vx v0 -> vy c < vy v0 -> next c = v0.
Proof.
  intros Hc Hx Hy. assert (Hne : v0 <> c) by (intros E; rewrite E in Hy; lra).
  destruct (leftMostFrom_split tl p0) as (bf & af & H1 & H2). fold v0 in H1, H2.
  assert (Hright : forall q, q ∈ P -> isLeft c v0 q <= 0).
  { intros q Hq. pose proof (leftMost_least p0 tl q Hq) as Hl. fold v0 in Hl. unfold isLeft. rewrite Hx.
    assert (0 <= (vx q - vx v0) * (vy v0 - vy c)) by (apply Rmult_le_pos; lra). lra. }
  assert (Hrest : forall q, q ∈ af -> isLeft c v0 q <= 0).
  { intros q Hq. apply Hright. rewrite H1, elem_of_app, elem_of_cons. tauto. }
  unfold next, giftNext. change (fold_left (pickNext c) tl p0 = v0). destruct bf as [|b bf].
  - simpl in H1. injection H1 as H3 H4. rewrite H3, H4. by apply pickNext_stays.
  - simpl in H1. injection H1 as H3 H4. rewrite H4, fold_left_app. cbn [fold_left].
    pose proof (pickNext_in c bf p0) as He. rewrite H3 in He at 2. set (e := fold_left (pickNext c) bf p0) in *.
    assert (pickNext c e v0 = v0) as ->; [|by apply pickNext_stays].
    unfold pickNext. assert (Rltb 0 (isLeft c e v0) = true) as ->; [|by rewrite orb_true_r].
    apply Rltb_true. pose proof (H2 e He) as Hex. unfold isLeft. rewrite Hx.
    assert (0 < (vx e - vx v0) * (vy v0 - vy c)) by (apply Rmult_lt_0_compat; lra). lra.
Qed.

Lemma vs_home : exists k, (1 <= k <= S (length P))%nat /\ vs k = v0.
Proof.
  destruct vs_repeat as (i & j & Hij & Heq).
  assert (Hedge : forall k, (i <= k < j)%nat -> supports P (vs k) (vs (S k))) by (intros k _; apply vs_ok).
  destruct (chain_reaches P not_aligned vs i j ltac:(lia) Heq Hedge (-1) 0 v0) as (m & Hm & Hmx); [apply leftMost_in|].
  assert (Hfar : exists t, t ∈ P /\ vx v0 < vx t).
  { destruct (classic (exists t, t ∈ P /\ vx v0 < vx t)) as [H|H]; [done|]. exfalso.
    assert (Hall : forall t, t ∈ P -> vx t = vx v0).
    { intros t Ht. pose proof (leftMost_least p0 tl t Ht). fold v0 in *.
      destruct (Rle_lt_dec (vx t) (vx v0)); [lra|]. exfalso. apply H. by exists t. }
    unfold isLeft in HD. rewrite (Hall p0), (Hall p1), (Hall p2) in HD; [lra|rewrite !elem_of_cons; tauto..]. }
  destruct Hfar as (t & Ht & Htx).
  destruct (chain_reaches P not_aligned vs i j ltac:(lia) Heq Hedge 1 0 t Ht) as (n & Hn & Hnx).
  (* an edge of the chain that arrives on the left side *)
  assert (Hleast : forall k, vx v0 <= vx (vs k)) by (intros k; apply leftMost_least; apply vs_ok).
  assert (Harr : exists k, (i <= k < j)%nat /\ vx v0 < vx (vs k) /\ vx (vs (S k)) = vx v0).
  { assert (Hgo : forall d s, (i <= s)%nat -> (s + d <= j)%nat -> vx v0 < vx (vs s) -> vx (vs (s + d)) = vx v0 ->
       exists k, (i <= k < j)%nat /\ vx v0 < vx (vs k) /\ vx (vs (S k)) = vx v0).
    { induction d as [|d IHd]; intros s Hs1 Hs2 Hs3 Hs4; [rewrite Nat.add_0_r in Hs4; lra|].
      destruct (Rle_lt_or_eq_dec _ _ (Hleast (S s))) as [E|E].
      - apply (IHd (S s)); try lia; [done|]. by replace (S s + d)%nat with (s + S d)%nat by lia.
      - exists s. split_and!; [lia|lia|done|done]. }
    assert (Hm0 : vx (vs m) = vx v0) by (pose proof (Hleast m); lra).
    assert (Hn0 : vx v0 < vx (vs n)) by lra.
    destruct (Nat.lt_trichotomy n m) as [E|[E|E]].
    - apply (Hgo (m - n)%nat n); try lia; [done|]. by replace (n + (m - n))%nat with m by lia.
    - subst n. lra.
    - (* go round *)
      destruct (Rle_lt_or_eq_dec _ _ (Hleast j)) as [Ej|Ej].
      + apply (Hgo (m - i)%nat i); try lia; [by rewrite Heq|]. by replace (i + (m - i))%nat with m by lia.
      + apply (Hgo (j - n)%nat n); try lia; [done|]. replace (n + (j - n))%nat with j by lia. done. }
  destruct Harr as (k & Hk & Hk1 & Hk2). destruct (vs_ok k) as [_ (E1 & E2 & E3 & E4)].
  assert (Hv0 : v0 ∈ P) by apply leftMost_in.
  assert (Hlow : vy (vs (S k)) <= vy v0).
  { pose proof (E4 v0 Hv0) as Hr. unfold isLeft in Hr. rewrite Hk2 in Hr.
    assert ((vx v0 - vx (vs k)) * (vy v0 - vy (vs (S k))) <= 0) by lra. nra. }
  destruct (Rle_lt_or_eq_dec _ _ Hlow) as [Hl|Hl].
  - exists (S (S k)). split; [simpl in *; lia|]. change (next (vs (S k)) = v0). by apply next_home.
  - exists (S k). split; [simpl in *; lia|]. apply Hflat; [done|done|]. by split.
Qed.

(** the first return *)
Lemma vs_first : exists k, (2 <= k <= S (length P))%nat /\ vs k = v0 /\ forall m, (1 <= m < k)%nat -> vs m <> v0.
Proof.
  destruct vs_home as (k & Hk & Hv).
  assert (Hmin : forall n, (1 <= n)%nat -> vs n = v0 -> exists k, (1 <= k <= n)%nat /\ vs k = v0 /\ forall m, (1 <= m < k)%nat -> vs m <> v0).
  { intros n. induction n as [n IH] using lt_wf_ind. intros Hn1 Hnv.
    destruct (classic (exists m, (1 <= m < n)%nat /\ vs m = v0)) as [(m & Hm1 & Hm2)|H].
    - destruct (IH m ltac:(lia) ltac:(lia) Hm2) as (k' & A & B & C). exists k'. split_and!; [lia|lia|done|done].
    - exists n. split_and!; [lia|lia|done|]. intros m Hm Hmv. apply H. by exists m. }
  destruct (Hmin k ltac:(lia) Hv) as (k' & A & B & C). exists k'. split_and!; [|lia|done|done].
  destruct (decide (k' = 1%nat)) as [->|]; [|lia]. exfalso. destruct (vs_ok 0) as (_ & _ & _ & H & _). apply H. rewrite B. done.
Qed.
Definition rounds (k : nat) : list vec3 := (vs <$> seq 0 k) ++ [v0].
Lemma giftLoop_round k d : forall m fuel, vs k = v0 -> (forall m, (1 <= m < k)%nat -> vs m <> v0) -> (m + d = k)%nat -> (1 <= d)%nat -> (d <= fuel)%nat ->
  giftLoop fuel p0 tl (vs <$> seq 0 m) (vs m) = Some (rounds k).
Proof.
  induction d as [|d IH]; intros m fuel Hk Hfirst Hm Hd Hf; [lia|]. destruct fuel as [|fuel]; [lia|]. cbn [giftLoop].
  assert (Happ : (vs <$> seq 0 m) ++ [vs m] = vs <$> seq 0 (S m)) by (rewrite seq_S, fmap_app; done).
  rewrite Happ. change (giftNext p0 tl (vs m)) with (vs (S m)). assert (front (vs <$> seq 0 (S m)) = v0) as -> by done.
  destruct (decide (d = O)) as [->|Hd0].
  - assert (S m = k) as E by lia. rewrite E, Hk. assert (veqb v0 v0 = true) as -> by by apply veqb_true. done.
  - assert (veqb (vs (S m)) v0 = false) as -> by (apply veqb_false, Hfirst; lia). apply IH; try done; lia.
Qed.
Lemma edges_seq (v : nat -> vec3) n : forall s a b, (a, b) ∈ edges (v <$> seq s n) ->
  exists k, (s <= k)%nat /\ (S k < s + n)%nat /\ a = v k /\ b = v (S k).
Proof.
  induction n as [|n IH]; intros s a b H; [by apply elem_of_nil in H|]. destruct n as [|n]; [by apply elem_of_nil in H|].
  change (v <$> seq s (S (S n))) with (v s :: v (S s) :: (v <$> seq (S (S s)) n)) in H. cbn [edges] in H.
  apply elem_of_cons in H as [H|H].
  - injection H as -> ->. exists s. split_and!; [lia|lia|done|done].
  - destruct (IH (S s) a b H) as (k & A & B & C & D). exists k. split_and!; [lia|lia|done|done].
Qed.

(** what the gift wrapping returns *)
Theorem giftWrap_ok : exists hull, (forall fuel, (S (length P) <= fuel)%nat -> giftWrap fuel p0 tl = Some hull) /\
  (exists m, hull = v0 :: m ++ [v0] /\ m <> []) /\
  (forall a b, (a, b) ∈ edges hull -> supports P a b) /\
  (forall al be t, t ∈ P -> exists q, q ∈ hull /\ al * vx t + be * vy t <= al * vx q + be * vy q).
Proof.
  destruct vs_first as (k & Hk & Hv & Hfirst). exists (rounds k).
  assert (Hr : rounds k = vs <$> seq 0 (S k)) by (unfold rounds; rewrite seq_S, fmap_app; simpl; by rewrite Hv).
  split_and!.
  - intros fuel Hf. unfold giftWrap. apply (giftLoop_round k k 0 fuel); try done; simpl in *; lia.
  - unfold rounds. destruct k as [|[|k]]; [lia|lia|]. exists (vs <$> seq 1 (S k)). split; done.
  - intros a b Hab. rewrite Hr in Hab. apply edges_seq in Hab as (n & _ & _ & -> & ->). apply vs_ok.
  - intros al be t Ht.
    destruct (chain_reaches P not_aligned vs 0 k ltac:(lia) ltac:(by rewrite Hv) ltac:(intros; apply vs_ok) al be t Ht) as (n & Hn & H).
    exists (vs n). split; [|done]. rewrite Hr. apply elem_of_list_fmap. exists n. split; [done|]. apply elem_of_seq. lia.
Qed.
End wrap.
