(** Polygon clipping: one edge, all edges. *)
From Verif Require Import Maps Vec VecProofs GeomModel GeomSpec GeomInt GeomProofs GeomProofs2 GeomProofs3 GeomProofs4.
Local Open Scope R_scope.

Lemma switch_from (P : vec3 -> bool) l : forall s, P s = true -> (exists y, y ∈ l /\ P y = false) ->
  exists x y, (x, y) ∈ edges (s :: l) /\ P x = true /\ P y = false.
Proof.
  induction l as [|e l IH]; intros s Hs (y & Hy & Hp); [by apply elem_of_nil in Hy|].
  destruct (P e) eqn:E.
  - apply elem_of_cons in Hy as [->|Hy]; [congruence|]. destruct (IH e E) as (x & z & Hxz & H1 & H2); [by exists y|].
    exists x, z. split_and!; [|done|done]. change (edges (s :: e :: l)) with ((s, e) :: edges (e :: l)). apply elem_of_cons. by right.
  - exists s, e. split_and!; [|done|done]. change (edges (s :: e :: l)) with ((s, e) :: edges (e :: l)). apply elem_of_cons. by left.
Qed.
Lemma switch_to (P : vec3 -> bool) l : (exists x, x ∈ l /\ P x = true) -> P (List.last l vzero) = false ->
  exists x y, (x, y) ∈ edges l /\ P x = true /\ P y = false.
Proof.
  induction l as [|e l IH]; intros (x & Hx & Hp) Hl; [by apply elem_of_nil in Hx|]. destruct l as [|e' l].
  - apply elem_of_list_singleton in Hx as ->. simpl in Hl. congruence.
  - destruct (P e) eqn:E.
    + destruct (switch_from P (e' :: l) e E) as (y & z & Hyz & H1 & H2); [|by exists y, z].
      exists (List.last (e' :: l) vzero). split; [|done]. apply elem_of_list_In. clear. generalize e'. induction l as [|w l IH]; intros v; [by left|].
      right. apply (IH w).
    + apply elem_of_cons in Hx as [->|Hx]; [congruence|]. destruct IH as (y & z & Hyz & H1 & H2); [by exists x|done|].
      exists y, z. split_and!; [|done|done]. change (edges (e :: e' :: l)) with ((e, e') :: edges (e' :: l)). apply elem_of_cons. by right.
Qed.
Lemma edges_cyclic V x y : (x, y) ∈ edges V -> (x, y) ∈ cyclic_edges V.
Proof. intros H. destruct V as [|v vs]; [by apply elem_of_nil in H|]. unfold cyclic_edges. cbn [edges]. apply elem_of_cons. by right. Qed.
Lemma cyclic_switch (P : vec3 -> bool) V : (exists x, x ∈ V /\ P x = true) -> (exists y, y ∈ V /\ P y = false) ->
  exists x y, (x, y) ∈ cyclic_edges V /\ P x = true /\ P y = false.
Proof.
  intros Ht Hf. destruct V as [|v vs]; [destruct Ht as (x & Hx & _); by apply elem_of_nil in Hx|].
  destruct (P (List.last (v :: vs) vzero)) eqn:E.
  - by apply (switch_from P (v :: vs)).
  - destruct (switch_to P (v :: vs) Ht E) as (x & y & Hxy & H). exists x, y. split; [by apply edges_cyclic|done].
Qed.

Section clip.
Variable sect : vec3 -> vec3 -> vec3 -> vec3 -> option vec3.
Hypothesis Hsect : sect_ok sect.

Lemma clipLoop_all_out a b l : forall s, 0 < isLeft a b s -> (forall x, x ∈ l -> 0 < isLeft a b x) ->
  clipLoop sect a b s l = Some [].
Proof.
  induction l as [|e l IH]; intros s Hs Hl; [done|]. cbn [clipLoop].
  assert (He : 0 < isLeft a b e) by (apply Hl, elem_of_cons; by left).
  rewrite IH; [|done|intros x Hx; apply Hl, elem_of_cons; by right].
  assert (Rleb (isLeft a b e) 0 = false) as -> by (apply Rleb_false; lra).
  assert (Rleb (isLeft a b s) 0 = false) as -> by (apply Rleb_false; lra). done.
Qed.
Lemma clipLoop_all_in a b l : forall s, isLeft a b s <= 0 -> (forall x, x ∈ l -> isLeft a b x <= 0) ->
  clipLoop sect a b s l = Some l.
Proof.
  induction l as [|e l IH]; intros s Hs Hl; [done|]. cbn [clipLoop].
  assert (He : isLeft a b e <= 0) by (apply Hl, elem_of_cons; by left).
  rewrite IH; [|done|intros x Hx; apply Hl, elem_of_cons; by right].
  assert (Rleb (isLeft a b e) 0 = true) as -> by (apply Rleb_true; lra).
  assert (Rltb 0 (isLeft a b s) = false) as -> by (apply Rltb_false; lra). done.
Qed.

Lemma last_in (V : list vec3) : V <> [] -> List.last V vzero ∈ V.
Proof.
  destruct V as [|v vs]; [done|]. intros _. apply elem_of_list_In. revert v. induction vs as [|w vs IH]; intros v; [by left|].
  right. apply (IH w).
Qed.
Lemma in_hull_nil p : ~ in_hull [] p.
Proof. intros (ws & H1 & _ & H3 & _). destruct ws; simpl in *; [lra|done]. Qed.
Lemma in_hull_strict l a b p : (forall q, q ∈ l -> 0 < isLeft a b q) -> in_hull l p -> 0 < isLeft a b p.
Proof.
  intros Hl. revert p. apply (in_hull_ind' l (fun p => 0 < isLeft a b p)).
  - intros q r Hq Hqr. rewrite <- (isLeft_xy a b q r Hqr). by apply Hl.
  - intros q r x t _ _ Hq Hr Ht Hx Hy. rewrite (isLeft_comb a b q r x t Hx Hy).
    destruct (Req_EM_T t 0) as [->|Hne]; [lra|].
    assert (0 < t * isLeft a b q) by (apply Rmult_lt_0_compat; lra).
    assert (0 <= (1 - t) * isLeft a b r) by (apply Rmult_le_pos; lra). lra.
Qed.

Section one.
Variables (a b : vec3) (V : list vec3).
Hypothesis Hconv : weakly_convex V.
Hypothesis Hne : V <> [].
Notation f := (isLeft a b).

Lemma clip_pre : (exists x, x ∈ V /\ f x <= 0) -> exists pre, valid_pre a b V (List.last V vzero) pre.
Proof.
  intros (x & Hx & Hfx). destruct (Rle_dec (f (List.last V vzero)) 0) as [Hl|Hl].
  - exists (List.last V vzero). split; [done|lra].
  - destruct (cyclic_switch (fun p => Rleb (f p) 0) V) as (s & e & Hse & Hs & He).
    + exists x. split; [done|by apply Rleb_true].
    + exists (List.last V vzero). split; [by apply last_in|]. apply Rleb_false. lra.
    + apply Rleb_true in Hs. apply Rleb_false in He.
      destruct (Hsect s e a b) as (i & _ & Hi); [lra|]. exists i. split; [lra|]. intros _. by exists s, e.
Qed.

Lemma between_exit_entry x i j l : exit_point a b V i -> entry_point a b V j -> i ∈ l -> j ∈ l ->
  in_hull V x -> f x = 0 -> in_hull l x.
Proof.
  intros Hi Hj Hil Hjl Hx Hfx.
  destruct (after_exit a b V Hconv i x Hi Hx Hfx) as (t1 & Ht1 & X1 & Y1).
  destruct (before_entry a b V Hconv j x Hj Hx Hfx) as (t2 & Ht2 & X2 & Y2).
  destruct (Req_EM_T (t1 - t2) 0) as [H0|H0].
  - apply (in_hull_xy l i); [|by apply in_hull_elem]. assert (t1 = 0) by lra. subst t1. split; lra.
  - apply (in_hull_comb l i j x (- t2 / (t1 - t2))); [by apply in_hull_elem|by apply in_hull_elem| | |].
    + split.
      * apply Rmult_le_reg_r with (t1 - t2); [lra|]. replace (- t2 / (t1 - t2) * (t1 - t2)) with (- t2) by (field; lra). lra.
      * apply Rmult_le_reg_r with (t1 - t2); [lra|]. replace (- t2 / (t1 - t2) * (t1 - t2)) with (- t2) by (field; lra). lra.
    + replace (vx i) with (vx x - t1 * (vx b - vx a)) by lra. replace (vx j) with (vx x - t2 * (vx b - vx a)) by lra. field. lra.
    + replace (vy i) with (vy x - t1 * (vy b - vy a)) by lra. replace (vy j) with (vy x - t2 * (vy b - vy a)) by lra. field. lra.
Qed.

Lemma clip_segment out p q r t : clipLoop sect a b (List.last V vzero) V = Some out ->
  in_hull V p -> in_hull out p -> f p <= 0 -> in_hull V q -> 0 < f q -> 0 <= t <= 1 ->
  vx r = t * vx p + (1 - t) * vx q -> vy r = t * vy p + (1 - t) * vy q -> f r <= 0 -> in_hull out r.
Proof.
  intros Hout Hp Hpo Hfp Hq Hfq Ht Hx Hy Hfr.
  pose proof (isLeft_comb a b p q r t Hx Hy) as Hfr'.
  destruct (Req_EM_T (f p) 0) as [Hp0|Hp0].
  - assert (t = 1) as ->.
    { destruct (Rlt_dec t 1) as [Hlt|]; [|lra]. assert (0 < (1 - t) * f q) by (apply Rmult_lt_0_compat; lra). rewrite Hp0 in Hfr'. lra. }
    apply (in_hull_xy out p); [split; lra|done].
  - set (tau := f q / (f q - f p)).
    set (x := V3 (tau * vx p + (1 - tau) * vx q) (tau * vy p + (1 - tau) * vy q) 0).
    assert (Htau : 0 <= tau <= 1).
    { unfold tau. split; apply Rmult_le_reg_r with (f q - f p); try lra;
        replace (f q / (f q - f p) * (f q - f p)) with (f q) by (field; lra); lra. }
    assert (Hxin : in_hull V x) by (apply (in_hull_comb V p q x tau); done).
    assert (Hfx : f x = 0).
    { rewrite (isLeft_comb a b p q x tau) by done. unfold tau. field. lra. }
    (* exits and entries *)
    assert (Hin : exists v, v ∈ V /\ f v <= 0).
    { destruct (decide (Exists (fun v => Rleb (f v) 0 = true) V)) as [He|He].
      - apply Exists_exists in He as (v & Hv & Hl). exists v. split; [done|by apply Rleb_true].
      - rewrite <- Forall_Exists_neg, Forall_forall in He. exfalso.
        assert (0 < f p); [|lra]. apply (in_hull_strict V); [|done]. intros v Hv. specialize (He v Hv).
        destruct (Rleb (f v) 0) eqn:E; [done|]. by apply Rleb_false in E. }
    assert (Hout' : exists v, v ∈ V /\ 0 < f v).
    { destruct (decide (Exists (fun v => Rleb (f v) 0 = false) V)) as [He|He].
      - apply Exists_exists in He as (v & Hv & Hl). exists v. split; [done|by apply Rleb_false].
      - rewrite <- Forall_Exists_neg, Forall_forall in He. exfalso.
        assert (f q <= 0); [|lra]. apply (in_hull_half V); [|done]. intros v Hv. specialize (He v Hv).
        destruct (Rleb (f v) 0) eqn:E; [by apply Rleb_true|done]. }
    destruct Hin as (vi & Hvi & Hfi). destruct Hout' as (vo & Hvo & Hfo).
    assert (Hpi : exists x, x ∈ V /\ Rleb (f x) 0 = true) by (exists vi; split; [done|by apply Rleb_true]).
    assert (Hpo' : exists x, x ∈ V /\ Rleb (f x) 0 = false) by (exists vo; split; [done|by apply Rleb_false]).
    assert (Hcyc : cyclic_edges V = edges (List.last V vzero :: V)) by (destruct V; done).
    destruct (clipLoop_keeps sect Hsect a b V (List.last V vzero) out Hout) as [K1 K2].
    destruct (cyclic_switch (fun p => Rleb (f p) 0) V Hpi Hpo') as (s & e & Hse & Hs & He).
    apply Rleb_true in Hs. apply Rleb_false in He.
    assert (Hse' := Hse). rewrite Hcyc in Hse'.
    destruct (K2 s e Hse') as (i & Hi & Hci); [by left|].
    destruct (cyclic_switch (fun p => negb (Rleb (f p) 0)) V) as (s' & e' & Hse2 & Hs2 & He2).
    { exists vo. split; [done|]. apply negb_true_iff. by apply Rleb_false. }
    { exists vi. split; [done|]. apply negb_false_iff. by apply Rleb_true. }
    apply negb_true_iff, Rleb_false in Hs2. apply negb_false_iff, Rleb_true in He2.
    assert (Hse2' := Hse2). rewrite Hcyc in Hse2'.
    destruct (K2 s' e' Hse2') as (j & Hj & Hcj); [by right|].
    assert (Hxout : in_hull out x).
    { apply (between_exit_entry x i j out); try done; [by exists s, e|by exists s', e']. }
    set (u := 1 - (1 - t) * (f q - f p) / (- f p)).
    apply (in_hull_comb out p x r u); [done|done| | |].
    + assert (Hb : 0 <= (1 - t) * (f q - f p) / (- f p) <= 1); [|unfold u; lra]. split.
      * apply Rmult_le_reg_r with (- f p); [lra|].
        replace ((1 - t) * (f q - f p) / (- f p) * - f p) with ((1 - t) * (f q - f p)) by (field; lra).
        rewrite Rmult_0_l. apply Rmult_le_pos; lra.
      * apply Rmult_le_reg_r with (- f p); [lra|].
        replace ((1 - t) * (f q - f p) / (- f p) * - f p) with ((1 - t) * (f q - f p)) by (field; lra). lra.
    + rewrite Hx. unfold u, x, tau. simpl. field. lra.
    + rewrite Hy. unfold u, x, tau. simpl. field. lra.
Qed.

Theorem clipEdge_ok : exists out, clipEdge sect a b V = Ok (Some out) /\ weakly_convex out /\
  forall p, in_hull out p <-> in_hull V p /\ f p <= 0.
Proof.
  assert (Hcyc : cyclic_edges V = edges (List.last V vzero :: V)) by (destruct V; done).
  destruct (clipLoop_total sect Hsect a b V (List.last V vzero)) as [out Hout].
  exists out. split.
  { unfold clipEdge. destruct V; [done|]. by rewrite Hout. }
  destruct (decide (Exists (fun v => Rleb (f v) 0 = true) V)) as [He|He].
  - assert (Hin : exists v, v ∈ V /\ f v <= 0).
    { apply Exists_exists in He as (v & Hv & Hl). exists v. split; [done|by apply Rleb_true]. }
    destruct (clip_pre Hin) as [pre Hpre].
    destruct (clipLoop_edges sect Hsect a b V Hconv V (List.last V vzero) pre out Hout) as (_ & G2 & G3).
    { intros x y Hxy. by rewrite Hcyc. }
    { done. }
    destruct (clipLoop_keeps sect Hsect a b V (List.last V vzero) out Hout) as [K1 K2].
    assert (Hone : out <> []).
    { destruct Hin as (v & Hv & Hf). specialize (K1 v Hv Hf). intros ->. by apply elem_of_nil in K1. }
    assert (Hlast : List.last (List.last V vzero :: V) vzero = List.last V vzero) by (destruct V; done).
    assert (Hlasto : List.last (pre :: out) vzero = List.last out vzero) by (destruct out; done).
    rewrite Hlast, Hlasto in G2.
    destruct (clipLoop_edges sect Hsect a b V Hconv V (List.last V vzero) (List.last out vzero) out Hout) as (G1 & _ & _).
    { intros x y Hxy. by rewrite Hcyc. }
    { done. }
    split.
    + intros x y Hxy q Hq. assert (Hco : cyclic_edges out = edges (List.last out vzero :: out)) by (destruct out; done).
      rewrite Hco in Hxy. apply (G1 x y Hxy q); by apply G3.
    + intros p. split.
      * intros Hp. split.
        -- apply (in_hull_incl out); [|done]. intros q Hq. by apply G3.
        -- apply (in_hull_half out); [|done]. intros q Hq. by apply G3.
      * intros [Hp Hfp]. revert Hfp.
        apply (in_hull_ind' V (fun p => f p <= 0 -> in_hull out p)); [| |done].
        -- intros v q Hv Hvq Hq. apply (in_hull_xy out v); [done|]. apply in_hull_elem, K1; [done|]. by rewrite (isLeft_xy a b v q).
        -- intros q r z t Hq Hr IHq IHr Ht Hx Hy Hz.
           pose proof (isLeft_comb a b q r z t Hx Hy) as Hfz.
           destruct (Rle_dec (f q) 0) as [Hq0|Hq0], (Rle_dec (f r) 0) as [Hr0|Hr0].
           ++ apply (in_hull_comb out q r z t); auto.
           ++ apply (clip_segment out q r z t); auto; lra.
           ++ apply (clip_segment out r q z (1 - t)); auto; lra.
           ++ exfalso. destruct (Req_EM_T t 0) as [->|Hn]; [lra|].
              assert (0 < t * f q) by (apply Rmult_lt_0_compat; lra).
              assert (0 <= (1 - t) * f r) by (apply Rmult_le_pos; lra). lra.
  - assert (Hall : forall v, v ∈ V -> 0 < f v).
    { rewrite <- Forall_Exists_neg, Forall_forall in He. intros v Hv. specialize (He v Hv).
      destruct (Rleb (f v) 0) eqn:E; [done|]. by apply Rleb_false in E. }
    rewrite clipLoop_all_out in Hout; [|apply Hall; by apply last_in|done]. injection Hout as <-.
    split; [intros x y Hxy; by apply elem_of_nil in Hxy|].
    intros p. split; [intros Hp; by apply in_hull_nil in Hp|]. intros [Hp Hfp].
    pose proof (in_hull_strict V a b p Hall Hp). lra.
Qed.
End one.

(** ** all edges *)
Lemma clipEdges_ok clip : forall V, weakly_convex V ->
  (exists out, clipEdges sect clip V = Ok (Some out) /\ weakly_convex out /\
     forall p, in_hull out p <-> in_hull V p /\ inside_edges clip p) \/
  (clipEdges sect clip V = Ub /\ forall p, ~ (in_hull V p /\ inside_edges clip p)).
Proof.
  induction clip as [|x clip IH]; intros V HV.
  - left. exists V. split_and!; [done|done|]. intros p. split; [intros H; split; [done|]|by intros [H _]].
    intros u v Huv. by apply elem_of_nil in Huv.
  - destruct clip as [|y clip].
    + left. exists V. split_and!; [done|done|]. intros p. split; [intros H; split; [done|]|by intros [H _]].
      intros u v Huv. by apply elem_of_nil in Huv.
    + change (clipEdges sect (x :: y :: clip) V) with
        (match clipEdge sect x y V with Ok (Some out) => clipEdges sect (y :: clip) out | res => res end).
      assert (Hed : forall p, inside_edges (x :: y :: clip) p <-> isLeft x y p <= 0 /\ inside_edges (y :: clip) p).
      { intros p. unfold inside_edges_. change (edges (x :: y :: clip)) with ((x, y) :: edges (y :: clip)). split.
        - intros H. split; [apply H, elem_of_cons; by left|]. intros u v Huv. apply H, elem_of_cons. by right.
        - intros [H1 H2] u v Huv. apply elem_of_cons in Huv as [Huv|Huv]; [by injection Huv as -> ->|by apply H2]. }
      destruct (decide (V = [])) as [->|Hne].
      * right. split; [done|]. intros p [H _]. by apply in_hull_nil in H.
      * destruct (clipEdge_ok x y V HV Hne) as (out & -> & Hw & Hp).
        destruct (IH out Hw) as [(res & Hres & Hw' & Hp')|[Hres Hno]].
        -- left. exists res. split_and!; [done|done|]. intros p. rewrite Hp', Hp, Hed. tauto.
        -- right. split; [done|]. intros p. rewrite Hed. specialize (Hno p). rewrite Hp in Hno. tauto.
Qed.

Theorem clipPolygon_ok sub clip : weakly_convex sub -> clip <> [] ->
  (exists out, clipPolygon sect sub clip = Ok (Some out) /\ weakly_convex out /\
     forall p, in_hull out p <-> in_hull sub p /\ inside_edges clip p) \/
  (clipPolygon sect sub clip = Ub /\ forall p, ~ (in_hull sub p /\ inside_edges clip p)).
Proof. intros Hw Hc. destruct clip as [|x clip]; [done|]. by apply clipEdges_ok. Qed.

Theorem clipPolygon_unchanged sub clip : sub <> [] -> clip <> [] -> (forall p, p ∈ sub -> inside_edges clip p) ->
  clipPolygon sect sub clip = Ok (Some sub).
Proof.
  intros Hs Hc Hin. destruct clip as [|x clip]; [done|]. clear Hc. unfold clipPolygon.
  revert x Hin. induction clip as [|y clip IH]; intros x Hin; [done|].
  change (clipEdges sect (x :: y :: clip) sub) with
    (match clipEdge sect x y sub with Ok (Some out) => clipEdges sect (y :: clip) out | res => res end).
  assert (Hxy : forall p, p ∈ sub -> isLeft x y p <= 0).
  { intros p Hp. apply (Hin p Hp). cbn [edges]. apply elem_of_cons. by left. }
  unfold clipEdge. destruct sub as [|s sub]; [done|].
  rewrite clipLoop_all_in; [|apply Hxy; by apply last_in|done].
  apply IH. intros p Hp u v Huv. apply (Hin p Hp). change (edges (x :: y :: clip)) with ((x, y) :: edges (y :: clip)).
  apply elem_of_cons. by right.
Qed.
(** if an edge before the last leaves nothing, the program reads before the beginning of an empty vector *)
Theorem clip_empty_undefined x y z clip V : V <> [] -> (forall p, p ∈ V -> 0 < isLeft x y p) ->
  clipPolygon sect V (x :: y :: z :: clip) = Ub.
Proof.
  intros Hne Hout. cbn [clipPolygon]. change (clipEdges sect (x :: y :: z :: clip) V) with
    (match clipEdge sect x y V with Ok (Some out) => clipEdges sect (y :: z :: clip) out | res => res end).
  unfold clipEdge. destruct V as [|v V]; [done|].
  rewrite clipLoop_all_out; [done|apply Hout; by apply last_in|done].
Qed.
End clip.

(** strictly convex closed polygons are weakly convex *)
Lemma convex_weakly l : convex_polygon l -> weakly_convex l.
Proof.
  intros Hc. pose proof Hc as [(v & vs & Hl & Hlen & _) _]. intros x y Hxy.
  assert (Hlast : List.last l vzero = v) by (rewrite Hl; change (v :: vs ++ [v]) with ((v :: vs) ++ [v]); apply last_last).
  assert (Hne : l <> []) by (rewrite Hl; done).
  assert (Hcy : cyclic_edges l = (v, v) :: edges l).
  { unfold cyclic_edges. destruct l as [|w l']; [done|]. rewrite Hlast. injection Hl as -> _. done. }
  rewrite Hcy in Hxy. apply elem_of_cons in Hxy as [Hxy|Hxy].
  - injection Hxy as -> ->. intros p Hp. rewrite isLeft_same3. lra.
  - by apply polygon_right.
Qed.
