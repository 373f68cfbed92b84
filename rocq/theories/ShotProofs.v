From Verif Require Import Maps MapsProofs Vec VecProofs GeomModel GeomSpec ShootModel ShootSpec ShootProofs ValidModel ValidSpec ValidProofs ValidProofs2 ValidProofs3 ShotModel ShotSpec.
From Coq Require Import FunctionalExtensionality.
Local Open Scope R_scope.

(** ** found means accepted *)
Section found.
Context {W C : Type} (unit01 : W -> R * W) (randMod : nat -> W -> nat * W) (uniform : W -> conf C * W).
Context (validate : conf C -> vreport) (bnds : bounds) (euler : list R).
Lemma rotateLoop_found dis : forall p dir q w n q' w' n',
  rotateLoop unit01 uniform validate bnds euler dis p dir q w n = Ok (true, q', w', n') -> accepted (validate q') = true.
Proof.
  induction dis as [|dis IH]; intros p dir q w n q' w' n' H; [done|]. cbn [rotateLoop] in H.
  destruct (randConfigAtPos _ _ _ _ _ _) as [[q1 w1]| |]; [|done|done].
  destruct (if accepted (validate q1) then _ else _) as [q2 w2].
  destruct (accepted (validate q2)) eqn:E; [by inversion H; subst|].
  destruct (trunkInCollision _); [done|]. by eapply IH.
Qed.
Lemma moveLoop_found dis : forall p dir q w n q' w' n',
  moveLoop unit01 uniform validate bnds euler dis p dir q w n = Ok (true, q', w', n') -> accepted (validate q') = true.
Proof.
  induction dis as [|dis IH]; intros p dir q w n q' w' n' H; [done|]. cbn [moveLoop] in H.
  destruct (accepted (validate q)) eqn:E; [by inversion H; subst|].
  destruct (trunkInCollision _).
  - destruct (firstContact _) as [[nrm d]|]; [|done]. by eapply IH.
  - by eapply rotateLoop_found.
Qed.
Lemma shootLoop_found ratio dis limit : forall s q w n q' w' n',
  shootLoop unit01 randMod uniform validate bnds euler ratio dis limit s q w n = Ok (true, q', w', n') -> accepted (validate q') = true.
Proof.
  induction limit as [|limit IH]; intros s q w n q' w' n' H; [done|]. cbn [shootLoop] in H.
  destruct (pickTriangle _ _ _ _ _) as [[[nrm tri] w1]| |]; [|done|done].
  destruct (unit01 w1) as [r1 w2]. destruct (unit01 w2) as [r2 w3].
  destruct (randConfigAtPos _ _ _ _ _ _) as [[q1 w4]| |]; [|done|done].
  destruct (moveLoop _ _ _ _ _ _ _ _ _ _ _) as [[[[b q2] w5] n2]| |] eqn:E; [|done|done].
  destruct b; [|by eapply IH]. inversion H; subst. by eapply moveLoop_found.
Qed.
End found.

Lemma bounds_proper dmax root : root_ok dmax root -> proper (getTranslationBounds dmax root).
Proof.
  intros [Hd Hr]. unfold proper, getTranslationBounds. cbn [lo hi vx vy vz].
  assert (Hi : forall i, (match root i with Some lu => lu | None => (- dmax, dmax) end).1 <= (match root i with Some lu => lu | None => (- dmax, dmax) end).2).
  { intros i. specialize (Hr i). destruct (root i) as [[l u]|]; cbn; [by apply Hr|lra]. }
  by repeat split; apply Hi.
Qed.
Lemma bounds_within dmax root v : within (getTranslationBounds dmax root) v <->
  respects dmax root 0 (vx v) /\ respects dmax root 1 (vy v) /\ respects dmax root 2 (vz v).
Proof.
  unfold within, getTranslationBounds. cbn [lo hi vx vy vz].
  assert (Hi : forall i x, (match root i with Some lu => lu | None => (- dmax, dmax) end).1 <= x <= (match root i with Some lu => lu | None => (- dmax, dmax) end).2
     <-> respects dmax root i x).
  { intros i x. unfold respects. destruct (root i) as [[l u]|]; cbn; [done|]. split; [intros H; apply Rabs_le; lra|].
    intros H. pose proof (Rle_abs x). pose proof (Rle_abs (- x)). rewrite Rabs_Ropp in *. lra. }
  by rewrite !Hi.
Qed.

Section shot.
Context {W C O P : Type} `{EqDecision O}.
Context (unit01 : W -> R * W) (randMod : nat -> W -> nat * W) (uniform : W -> conf C * W).
Context (surf : O -> surface) (selfPairs : list P) (pairsOf : O -> list P) (object2 : P -> O).
Context (trunkHit : conf C -> P -> option (nat * R)) (romHit : conf C -> string -> O -> bool) (inBounds : conf C -> bool).

Lemma firstTrunkHit_none q l : firstTrunkHit trunkHit q l = None <-> forall p, p ∈ l -> trunkHit q p = None.
Proof.
  induction l as [|p l IH]; cbn [firstTrunkHit]; [split; [|done]; intros _ p Hp; by apply elem_of_nil in Hp|].
  destruct (trunkHit q p) eqn:E.
  - split; [done|]. intros H. specialize (H p ltac:(left)). congruence.
  - rewrite IH. split; intros H x; [rewrite elem_of_cons; intros [->|?]; auto|]. intros Hx. apply H. by right.
Qed.
Lemma firstTrunkHit_some q l p c : firstTrunkHit trunkHit q l = Some (p, c) -> p ∈ l /\ trunkHit q p = Some c.
Proof.
  induction l as [|x l IH]; cbn [firstTrunkHit]; [done|]. destruct (trunkHit q x) eqn:E.
  - intros [= -> ->]. split; [left|done].
  - intros H. destruct (IH H). split; [by right|done].
Qed.
Lemma elem_concat_map {A B} (f : A -> list B) (l : list A) b : b ∈ concat (map f l) <-> exists a, a ∈ l /\ b ∈ f a.
Proof.
  induction l as [|a l IH]; cbn; [split; [by intros ?%elem_of_nil|intros (a & Ha & _); by apply elem_of_nil in Ha]|].
  rewrite elem_of_app, IH. split.
  - intros [H|(a' & ? & ?)]; [exists a; split; [left|done]|]. exists a'. split; [by right|done].
  - intros (a' & [->|Ha]%elem_of_cons & Hb); [by left|]. right. eauto.
Qed.

Section built.
Context (names : gmap string unit) (geometries : list O) (affordances : gmap string (list O)) (filter : list string) (affFilters : gmap string (list string)) (s0 : shotter O P).
Hypothesis Hc : construct surf selfPairs pairsOf names geometries affordances filter affFilters = Ok s0.
(** the shooter after BoundSO3 and any use of its validator *)
Context (limits : list R) (ops : list (val_op O)) (v : rbValidation O unit).
Hypothesis Hv : val_run ops (create tt names filter affFilters affordances) = Ok v.
Let s := withValidator v (BoundSO3 limits s0).

Lemma construct_shape : exists sh, InitWeightedTriangles (map surf (getUsedSurfaces affordances affFilters)) = Ok sh /\
  s0 = mkShotter sh (create tt names filter affFilters affordances)
                  (selfPairs ++ concat (map pairsOf geometries) ++ concat (map pairsOf geometries)) filter [].
Proof. unfold construct in Hc. destruct (InitWeightedTriangles _) as [sh| |]; [|done|done]. inversion Hc. eauto. Qed.

Lemma trunk_free_iff q : firstTrunkHit trunkHit q (trunkPairs s) = None <-> trunk_free selfPairs pairsOf trunkHit geometries q.
Proof.
  destruct construct_shape as (sh & _ & ->). cbn. rewrite firstTrunkHit_none. unfold trunk_free. split.
  - intros H. split; [intros p Hp; apply H, elem_of_app; by left|]. intros g p Hg Hp. apply H, elem_of_app. right. apply elem_of_app. left. apply elem_concat_map. eauto.
  - intros [H1 H2] p. rewrite !elem_of_app, !elem_concat_map. intros [?|[(g & ? & ?)|(g & ? & ?)]]; eauto.
Qed.
Lemma shot_accepted q : accepted (shotReport surf object2 trunkHit romHit inBounds s q) = true <->
  NoDup filter /\ reachability_condition selfPairs pairsOf trunkHit romHit inBounds names geometries affordances filter affFilters q.
Proof.
  unfold shotReport. cbn [accepted].
  assert (Hf : filter_ s = filter). { destruct construct_shape as (sh & _ & ->). done. }
  rewrite Hf. change (validator s) with v.
  set (free := match firstTrunkHit trunkHit q (trunkPairs s) with Some _ => false | None => true end).
  assert (Hfree : free = true <-> trunk_free selfPairs pairsOf trunkHit geometries q).
  { rewrite <- trunk_free_iff. subst free. by destruct (firstTrunkHit _ _ _). }
  destruct (verdict_after tt names filter affFilters affordances ops free (inBounds q) (romHit q) filter) as (v1 & Hr & _ & b & v' & rep & Hval & Hb).
  assert (v1 = v) as -> by congruence. rewrite Hval, Hb. split.
  - intros (H1 & H2 & H3 & H4). split; [done|]. split; [by apply Hfree|done|]. intros r Hr'. destruct (H4 r Hr') as [Hn [[_ ?]|Ht]]; [done|]. by split.
  - intros [H3 [H1 H2 H4]]. split; [by apply Hfree|]. split; [done|]. split; [done|]. intros r Hr'. destruct (H4 r Hr'). split; [done|]. by right.
Qed.
Lemma shot_reports : contacts_ok object2 surf trunkHit -> reports_ok (shotReport surf object2 trunkHit romHit inBounds s).
Proof.
  intros Hok q _ Ht. unfold shotReport in *. cbn [trunkInCollision firstContact] in *.
  destruct (firstTrunkHit trunkHit q (trunkPairs s)) as [[p [i d]]|] eqn:E; [|done].
  apply firstTrunkHit_some in E as [_ E]. unfold normalFromTriangleContact.
  destruct (mesh (surf (object2 p))) as [ts|] eqn:Em; [|by eexists].
  destruct (lookup_lt_is_Some_2 ts i (Hok _ _ _ _ _ E Em)) as [t ->]. by eexists.
Qed.
Lemma shot_any dmax root ratio shootLimit dis w q w' n :
  shoot unit01 randMod uniform surf object2 trunkHit romHit inBounds dmax root ratio shootLimit dis s w = Ok (true, q, w', n) ->
  NoDup filter /\ reachability_condition selfPairs pairsOf trunkHit romHit inBounds names geometries affordances filter affFilters q.
Proof.
  unfold shoot, impl_shoot. destruct (uniform w) as [q0 w0]. intros H. apply shootLoop_found in H. by apply shot_accepted in H.
Qed.
Lemma shot_ok dmax root ratio shootLimit dis w :
  random_ok unit01 randMod -> limits_ok limits -> root_ok dmax root -> contacts_ok object2 surf trunkHit -> triangles (surfaces s0) <> [] ->
  exists found q w' n, shoot unit01 randMod uniform surf object2 trunkHit romHit inBounds dmax root ratio shootLimit dis s w = Ok (found, q, w', n) /\
    (n <= shootLimit * (2 * dis + 1))%nat /\
    (found = true -> reachability_condition selfPairs pairsOf trunkHit romHit inBounds names geometries affordances filter affFilters q) /\
    ((0 < shootLimit)%nat -> respects dmax root 0 (vx (trans q)) /\ respects dmax root 1 (vy (trans q)) /\ respects dmax root 2 (vz (trans q)) /\
       within_limits limits (orientation q)).
Proof.
  intros Hr Hl Hroot Hok Ht. destruct construct_shape as (sh & Hi & Hs).
  assert (Hsurf : surfaces s = sh) by (subst s; by rewrite Hs). 
  destruct (shoot_ok unit01 randMod uniform (shotReport surf object2 trunkHit romHit inBounds s) (getTranslationBounds dmax root) (eulerSo3_ s)
     ratio shootLimit dis (map surf (getUsedSurfaces affordances affFilters)) (surfaces s) w Hr) as (found & q & w' & n & H1 & H2 & H3 & H4).
  - by subst s.
  - by apply bounds_proper.
  - by apply shot_reports.
  - rewrite Hsurf. exact Hi.
  - by subst s.
  - exists found, q, w', n. split; [exact H1|]. split; [done|]. split; [intros Hf; by apply shot_accepted, H3|].
    intros Hpos. destruct (H4 Hpos) as [Hw Hw']. apply bounds_within in Hw as (? & ? & ?). repeat split; done.
Qed.
Lemma shot_hopeless dmax root ratio shootLimit dis w found q w' n : hopeless names affordances filter affFilters ->
  shoot unit01 randMod uniform surf object2 trunkHit romHit inBounds dmax root ratio shootLimit dis s w = Ok (found, q, w', n) -> found = false.
Proof.
  intros Hh H. destruct found; [|done]. exfalso. apply shot_any in H as [Hnd [_ _ Hroms]].
  destruct Hh as [?|(r & Hr & Hno)]; [done|]. destruct (Hroms r Hr) as [[u Hu] (kinds & kind & objs & o & Hk & Hkk & Ho & Hoo & _)].
  destruct Hno as [?|[?|(kinds' & Hk' & Hall)]]; [congruence|congruence|].
  assert (kinds' = kinds) as -> by congruence. specialize (Hall kind Hkk). rewrite Ho in Hall. cbn in Hall. subst. by apply elem_of_nil in Hoo.
Qed.
End built.

Lemma shot_history names geometries affordances filter affFilters s0 limits ops v ops' v' dmax root ratio shootLimit dis w :
  construct surf selfPairs pairsOf names geometries affordances filter affFilters = Ok s0 ->
  val_run ops (create tt names filter affFilters affordances) = Ok v -> val_run ops' (create tt names filter affFilters affordances) = Ok v' ->
  shoot unit01 randMod uniform surf object2 trunkHit romHit inBounds dmax root ratio shootLimit dis (withValidator v (BoundSO3 limits s0)) w =
  shoot unit01 randMod uniform surf object2 trunkHit romHit inBounds dmax root ratio shootLimit dis (withValidator v' (BoundSO3 limits s0)) w.
Proof.
  intros Hc Hv Hv'. unfold shoot. cbn [surfaces eulerSo3_ withValidator]. f_equal. extensionality q.
  pose proof (shot_accepted names geometries affordances filter affFilters s0 Hc limits ops v Hv q) as A.
  pose proof (shot_accepted names geometries affordances filter affFilters s0 Hc limits ops' v' Hv' q) as A'.
  unfold shotReport in *. cbn [accepted trunkPairs withValidator BoundSO3 filter_ validator] in *.
  f_equal. destruct (match validate _ _ _ _ v with Ok (b, _, _) => b | _ => false end);
    destruct (match validate _ _ _ _ v' with Ok (b, _, _) => b | _ => false end); try done; [symmetry|]; tauto.
Qed.
Lemma used_iff (affordances : gmap string (list O)) affFilters o : o ∈ getUsedSurfaces affordances affFilters <->
  exists r kinds kind objs, affFilters !! r = Some kinds /\ kind ∈ kinds /\ affordances !! kind = Some objs /\ o ∈ objs.
Proof.
  destruct (used_surfaces affordances affFilters) as (ts & _ & Hts & ->). rewrite elem_concat_map. split.
  - intros (t & Ht & Ho). apply Hts in Ht as (r & types & Hr & Ht). destruct (affordances !! t) as [objs|] eqn:E; cbn in Ho; [|by apply elem_of_nil in Ho].
    exists r, types, t, objs. done.
  - intros (r & kinds & kind & objs & Hr & Hk & Ha & Ho). exists kind. split; [apply Hts; eauto|]. by rewrite Ha.
Qed.
Lemma construct_ok names geometries affordances filter affFilters :
  (forall r kinds kind objs o, affFilters !! r = Some kinds -> kind ∈ kinds -> affordances !! kind = Some objs -> o ∈ objs -> is_Some (mesh (surf o))) ->
  exists s, construct surf selfPairs pairsOf names geometries affordances filter affFilters = Ok s /\
    forall n t, (n, t) ∈ triangles (surfaces s) <-> exists r kinds kind objs o ts t0,
      affFilters !! r = Some kinds /\ kind ∈ kinds /\ affordances !! kind = Some objs /\ o ∈ objs /\ mesh (surf o) = Some ts /\ t0 ∈ ts /\
      t = (place (surf o) t0.1.1, place (surf o) t0.1.2, place (surf o) t0.2) /\ n = TriangleNormal t.
Proof.
  intros H. destruct (init_triangles (map surf (getUsedSurfaces affordances affFilters))) as (sh & Hi & Hsh & _).
  { intros x Hx. apply elem_of_list_fmap in Hx as (o & -> & Ho). apply used_iff in Ho as (r & kinds & kind & objs & ? & ? & ? & ?). eauto. }
  unfold construct. rewrite Hi. eexists. split; [done|]. cbn [surfaces]. intros n t. rewrite Hsh. split.
  - intros (x & ts & t0 & Hx & Hm & Ht0 & Ht & Hn). apply elem_of_list_fmap in Hx as (o & -> & Ho).
    apply used_iff in Ho as (r & kinds & kind & objs & ? & ? & ? & ?). exists r, kinds, kind, objs, o, ts, t0. done.
  - intros (r & kinds & kind & objs & o & ts & t0 & ? & ? & ? & ? & ? & ? & ? & ?). exists (surf o), ts, t0. split_and!; try done.
    apply elem_of_list_fmap. exists o. split; [done|]. apply used_iff. eauto 10.
Qed.
Lemma construct_ub names geometries affordances filter affFilters r kinds kind objs o :
  affFilters !! r = Some kinds -> kind ∈ kinds -> affordances !! kind = Some objs -> o ∈ objs -> mesh (surf o) = None ->
  construct surf selfPairs pairsOf names geometries affordances filter affFilters = Ub.
Proof.
  intros H1 H2 H3 H4 H5. unfold construct. rewrite (init_not_mesh _ (surf o)); [done| |done]. apply elem_of_list_fmap. exists o. split; [done|]. apply used_iff. eauto 10.
Qed.
End shot.

(** ** the way out of a collision *)
Lemma normalize_unit v : 0 < vnorm2 v -> vnorm2 (normalize v) = 1.
Proof.
  intros H. unfold normalize. assert (Rltb 0 (vnorm2 v) = true) as -> by by apply Rltb_true.
  assert (Hn : vnorm v * vnorm v = vnorm2 v). { unfold vnorm. apply sqrt_sqrt. lra. }
  assert (vnorm v <> 0). { intros E. rewrite E in Hn. lra. }
  replace (vnorm2 (vscale (/ vnorm v) v)) with (/ vnorm v * / vnorm v * vnorm2 v) by (unfold vnorm2, vdot, vscale; cbn; ring).
  rewrite <- Hn. field. done.
Qed.
Lemma normal_of_contact i o n : normalFromTriangleContact i o = Some n ->
  (mesh o = None -> n = V3 0 0 1) /\
  (forall ts t, mesh o = Some ts -> ts !! i = Some t ->
     let a := place o t.1.1 in let b := place o t.1.2 in let c := place o t.2 in
     vdot n (vsub b a) = 0 /\ vdot n (vsub c a) = 0 /\
     (vcross (vsub b a) (vsub c a) <> vzero -> vnorm2 n = 1 /\ 0 < vdot n (vcross (vsub b a) (vsub c a)))).
Proof.
  unfold normalFromTriangleContact. intros H. split.
  - intros Hm. rewrite Hm in H. injection H as <-. unfold normalize, vnorm2, vdot. cbn [vx vy vz].
    assert (Rltb 0 (0 * 0 + 0 * 0 + 1 * 1) = true) as -> by (apply Rltb_true; lra).
    unfold vnorm, vnorm2, vdot. cbn [vx vy vz]. replace (0 * 0 + 0 * 0 + 1 * 1) with 1 by ring. rewrite sqrt_1. unfold vscale. cbn. f_equal; field.
  - intros ts t Hm Ht. rewrite Hm in H. unfold triangle3 in *. rewrite Ht in H. injection H as <-. cbv zeta. unfold TriangleNormal, placed. cbn [fst snd].
    set (u := vsub (place o t.1.2) (place o t.1.1)). set (w := vsub (place o t.2) (place o t.1.1)).
    assert (Hu : vdot (vcross u w) u = 0) by (unfold vdot, vcross; cbn; ring).
    assert (Hw : vdot (vcross u w) w = 0) by (unfold vdot, vcross; cbn; ring).
    unfold normalize. destruct (Rltb 0 (vnorm2 (vcross u w))) eqn:E.
    + assert (Hs : forall k a b, vdot (vscale k a) b = k * vdot a b) by (intros; unfold vdot, vscale; cbn; ring).
      rewrite !Hs, Hu, Hw, !Rmult_0_r. split; [done|]. split; [done|]. intros _. apply Rltb_true in E.
      pose proof (normalize_unit _ E) as Hn. unfold normalize in Hn. assert (Rltb 0 (vnorm2 (vcross u w)) = true) as Hr by by apply Rltb_true. rewrite Hr in Hn. split; [exact Hn|].
      apply Rmult_lt_0_compat; [|exact E]. apply Rinv_0_lt_compat. unfold vnorm. by apply sqrt_lt_R0.
    + split; [done|]. split; [done|]. intros Hne. exfalso. apply Hne. apply Rltb_false in E. destruct (vcross u w) as [x y z]. unfold vnorm2, vdot in E. cbn in E.
      pose proof (Rle_0_sqr x) as Hx. pose proof (Rle_0_sqr y) as Hy. pose proof (Rle_0_sqr z) as Hz. unfold Rsqr in *.
      unfold vzero. f_equal; apply Rsqr_0_uniq; unfold Rsqr; lra.
Qed.
