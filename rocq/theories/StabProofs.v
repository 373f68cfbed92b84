From Coq Require Import Reals Lra Lia Psatz Nsatz.
From Verif Require Import SampModel.
From Verif Require Import StabSpec MapsProofs VecProofs ProjProofs ProjProofs2.
Local Open Scope R_scope.

Lemma obind_ok {A B} (o : outcome A) (f : A -> outcome B) b :
  obind o f = Ok b -> exists a, o = Ok a /\ f a = Ok b.
Proof. destruct o; simpl; intros H; try discriminate. eauto. Qed.
Ltac inv_bind H :=
  let a := fresh "a" in let E := fresh "E" in
  apply obind_ok in H; destruct H as (a & E & H).
Lemma at_ok {V} (m : gmap string V) k v : at_ m k = Ok v <-> m !! k = Some v.
Proof. unfold at_. destruct (m !! k); split; intros H; congruence. Qed.

Section S.
Context (axis : vec3 -> vec3 -> vec3) (B : rbody).

Lemma split_spec names cs gs : splitGrasps B names = Ok (cs, gs) ->
  let grasping e := match rlimbs B !! e with Some l => rgrasp l | None => false end in
  cs = filter (fun e => grasping e = false) names /\ gs = filter (fun e => grasping e = true) names /\
  forall e, e ∈ names -> is_Some (rlimbs B !! e).
Proof.
  intros H g. revert cs gs H. induction names as [|n ns IH]; intros cs gs H; simpl in H.
  - injection H as <- <-. split_and!; [done|done|]. intros e He. inversion He.
  - inv_bind H. inv_bind H. apply at_ok in E. destruct a0 as [cs' gs'].
    destruct (IH _ _ E0) as (-> & -> & Hall).
    assert (Hg : g n = rgrasp a) by (unfold g; rewrite E; done).
    rewrite !filter_cons, Hg.
    destruct (rgrasp a); injection H as <- <-; simpl; split_and!; try done;
      intros e [->|He]%elem_of_cons; eauto.
Qed.

Lemma mapp_vscale m k v : mapp m (vscale k v) = vscale k (mapp m v).
Proof. destruct m as [[a1 a2 a3] [b1 b2 b3] [c1 c2 c3]], v as [x y z]. unfold mapp, vscale, vdot; simpl. f_equal; ring. Qed.

Lemma rect_points (r rl : mat3) (p off : vec3) lx ly :
  map (fun c => se3act (SE3 r p) (vadd (mapp rl c) off)) (corners lx ly) =
  let c := vadd (mapp r off) p in
  let u := mapp r (mapp rl (V3 lx 0 0)) in let v := mapp r (mapp rl (V3 0 ly 0)) in
  [vadd (vadd c u) v; vsub (vadd c u) v; vsub (vsub c u) v; vadd (vsub c u) v].
Proof.
  cbn [map corners]. unfold se3act; cbn [rot tra].
  destruct r as [[a1 a2 a3] [b1 b2 b3] [c1 c2 c3]], rl as [[d1 d2 d3] [e1 e2 e3] [f1 f2 f3]], p as [px py pz], off as [ox oy oz].
  unfold mapp, vadd, vsub, vdot; cbn [row1 row2 row3 vx vy vz].
  do 4 (apply (f_equal2 cons); [f_equal; ring|]). reflexivity.
Qed.

Lemma rotation_dot m u v : is_rotation m -> vdot (mapp m u) (mapp m v) = vdot u v.
Proof.
  intros [H _]. rewrite vdot_mapp, <- mapp_mmul, H, mapp_id. done.
Qed.

Lemma rotation_vnorm m v : is_rotation m -> vnorm (mapp m v) = vnorm v.
Proof. intros H. unfold vnorm. rewrite rotation_norm; done. Qed.

Context (Hax : good_axis axis).

Lemma zaxis_rotation n : n <> vzero -> is_rotation (GetRotationMatrix axis (V3 0 0 1) n).
Proof.
  intros Hn. refine (proj1 (rotation_matrix axis (V3 0 0 1) n _ Hn Hax)).
  intros H. injection H. lra.
Qed.

Lemma vnorm_x lx : vnorm (V3 lx 0 0) = Rabs lx.
Proof. unfold vnorm, vnorm2, vdot; simpl. replace (lx*lx+0*0+0*0) with (Rsqr lx) by (unfold Rsqr; ring). apply sqrt_Rsqr_abs. Qed.
Lemma vnorm_y lx : vnorm (V3 0 lx 0) = Rabs lx.
Proof. unfold vnorm, vnorm2, vdot; simpl. replace (0*0+lx*lx+0*0) with (Rsqr lx) by (unfold Rsqr; ring). apply sqrt_Rsqr_abs. Qed.

Lemma size_or_if f x : size_or f x (if Reqb f 0 then x else f).
Proof. destruct (Reqb f 0) eqn:E; [left|right]; (apply Reqb_true in E || apply Reqb_false in E); done. Qed.

Lemma part_points s e l fx fy n ps : normals s !! e = Some n ->
  (if (1 <? numContactPoints l)%nat then computeRectangleContact axis e l s fx fy
   else obind (computePointContact axis e l s) (fun p => Ok [p])) = Ok ps ->
  points_of s e l fx fy ps /\ length ps = match rtype l with _3_DOF => 1%nat | _6_DOF => 4%nat end.
Proof.
  intros Hn H. unfold points_of, numContactPoints in *. destruct (rtype l) eqn:Et; simpl in H.
  - unfold computeRectangleContact in H. inv_bind H. inv_bind H. apply at_ok in E, E0.
    assert (H' := f_equal (fun o => match o with Ok l => l | _ => [] end) H). cbn beta iota in H'. clear H. rename H' into H.
    split; [|rewrite <- H; done].
    exists a, n. split_and!; [done|done|].
    exists a0, (if Reqb fx 0 then rx l else fx), (if Reqb fy 0 then ry l else fy).
    exists (mapp a0 (mapp (mtr (GetRotationMatrix axis (V3 0 0 1) (rnormal l))) (V3 (if Reqb fx 0 then rx l else fx) 0 0))),
      (mapp a0 (mapp (mtr (GetRotationMatrix axis (V3 0 0 1) (rnormal l))) (V3 0 (if Reqb fy 0 then ry l else fy) 0))). split_and!; [done|apply size_or_if|apply size_or_if|].
    intros Hnz Hr. rewrite rect_points in H. cbn zeta in H. rewrite <- H. pose proof (rotation_mtr _ (zaxis_rotation _ Hnz)) as HG.
    split_and!; [split; [done|]| |].
    + rewrite !rotation_dot by done. unfold vdot; simpl. ring.
    + rewrite !rotation_vnorm by done. apply vnorm_x.
    + rewrite !rotation_vnorm by done. apply vnorm_y.
  - unfold computePointContact in H. inv_bind H. injection H as <-. split; [|done].
    inv_bind E. inv_bind E. apply at_ok in E0, E1. injection E as <-.
    rewrite Hn in E1. injection E1 as <-.
    exists a0, n. split_and!; [done|done|].
    eexists. split; [rewrite mapp_mmul; reflexivity|]. cbn zeta.
    intros Hnz Hnn Hrot. set (from := mapp (rot (reffpose l (configuration s))) (rnormal l)).
    assert (Hf : from <> vzero).
    { intros Hf. apply Hnz. apply vnorm2_zero. rewrite <- (rotation_norm _ _ Hrot). fold from. rewrite Hf.
      unfold vnorm2, vdot; simpl. ring. }
    destruct (rotation_matrix axis from n Hf Hnn Hax) as (Hi & _ & Hd). split; done.
Qed.

Lemma rows_spec s (g : bool) fx fy names rows :
  contactRows axis B s (if g then (fun n => n) else vnormalize) (if g then 0 else fx) (if g then 0 else fy) names = Ok rows ->
  (forall e l, e ∈ names -> rlimbs B !! e = Some l -> rgrasp l = g) ->
  exists parts, rows = concat parts /\ Forall2 (contact_part B s fx fy) names parts.
Proof.
  revert rows. induction names as [|n ns IH]; intros rows H Hg; simpl in H.
  - injection H as <-. exists []. split; [done|constructor].
  - inv_bind H. inv_bind H. inv_bind H. inv_bind H. injection H as <-.
    apply at_ok in E, E0. destruct (IH _ E2) as (parts & -> & Hp).
    { intros e l He. apply Hg. apply elem_of_cons. by right. }
    destruct (part_points _ _ _ _ _ _ _ E0 E1) as [P1 P2].
    assert (Eg : rgrasp a = g) by (apply (Hg n); [apply elem_of_cons; by left|done]).
    exists (map (fun p => (p, if g then a0 else vnormalize a0)) a1 :: parts). split; [by destruct g|].
    constructor; [|done]. exists a, a0, a1. rewrite Eg. split_and!; try done.
    destruct g; done.
Qed.

Context (lib : eqlib).
Lemma contact_set s alg fx fy k com : setupLibrary axis lib B s alg fx fy = Ok (k, com) ->
  describes B s fx fy k /\ (has_grasp B s -> calg k = ALG_PP) /\ (~ has_grasp B s -> calg k = alg) /\
    com = rcom B (configuration s) /\ setNew lib k = true.
Proof.
  intros H. unfold setupLibrary in H. inv_bind H. destruct a as [cs gs]. inv_bind H. inv_bind H.
  destruct (setNew lib _) eqn:Es in H; [|done]. injection H as <- <-.
  destruct (split_spec _ _ _ E) as (Ec & Eg & Hall).
  pose (g e := match rlimbs B !! e with Some l => rgrasp l | None => false end).
  destruct (rows_spec s false fx fy cs _ E0) as (p1 & -> & F1).
  { intros e l He Hl. subst cs. apply elem_of_list_filter in He as [He _]. rewrite Hl in He. done. }
  destruct (rows_spec s true fx fy gs _ E1) as (p2 & -> & F2).
  { intros e l He Hl. subst gs. apply elem_of_list_filter in He as [He _]. rewrite Hl in He. done. }
  cbn [calg]. split_and!; try done.
  - exists (cs ++ gs)%list, (p1 ++ p2)%list. cbn [cpts cnrms cmu]. rewrite !concat_app. split_and!; try done.
    + unfold contact_list. cbn zeta. by rewrite Ec, Eg.
    + by apply Forall2_app.
  - intros (e & l & Hp & Hl & Hgr).
    assert (He : e ∈ gs). { rewrite Eg. apply elem_of_list_filter. rewrite Hl. split; [done|]. by apply elem_of_skeys. }
    destruct gs; [inversion He|]. done.
  - intros Hno. destruct gs as [|e gs']; [done|]. exfalso. apply Hno.
    assert (He : e ∈ (e :: gs')) by (apply elem_of_cons; by left). rewrite Eg in He.
    apply elem_of_list_filter in He as [He1 He2]. apply elem_of_skeys in He2.
    destruct (rlimbs B !! e) as [l|] eqn:El; [|done]. exists e, l. done.
Qed.
End S.

(** ** what can make the library call impossible *)
Section T.
Context (axis : vec3 -> vec3 -> vec3) (B : rbody) (lib : eqlib).
Definition complete_contact (s : PSt) (e : string) : Prop :=
  exists l, rlimbs B !! e = Some l /\ is_Some (normals s !! e) /\
    (rtype l = _6_DOF -> is_Some (rotations s !! e)).

Lemma rows_defined s norm fx fy names : (forall e, e ∈ names -> is_Some (positions s !! e)) ->
  (forall e, e ∈ names -> complete_contact s e) ->
  exists rows, contactRows axis B s norm fx fy names = Ok rows.
Proof.
  intros Hp Hc. induction names as [|n ns IH]; simpl; [eauto|].
  destruct (Hc n) as (l & El & [nn En] & Hr); [apply elem_of_cons; by left|].
  destruct (Hp n) as [p Ep]; [apply elem_of_cons; by left|].
  destruct IH as [rows Er]. { intros e He. apply Hp. apply elem_of_cons; by right. }
  { intros e He. apply Hc. apply elem_of_cons; by right. }
  unfold computeRectangleContact, computePointContact, numContactPoints, at_. rewrite El, En, Ep, Er. simpl.
  destruct (rtype l) eqn:Et; simpl.
  - destruct Hr as [r Hr]; [done|]. rewrite Hr. simpl. eauto.
  - eauto.
Qed.
Lemma rows_no_ub s norm fx fy names : contactRows axis B s norm fx fy names <> Ub.
Proof.
  induction names as [|n ns IH]; simpl; [done|].
  unfold computeRectangleContact, computePointContact, numContactPoints, at_.
  destruct (rlimbs B !! n) as [l|]; simpl; [|done]. destruct (normals s !! n); simpl; [|done].
  destruct (rtype l), (positions s !! n), (rotations s !! n); simpl; try done;
  destruct (contactRows axis B s norm fx fy ns); done.
Qed.
Lemma split_no_ub names : splitGrasps B names <> Ub.
Proof.
  induction names as [|n ns IH]; simpl; [done|]. unfold at_.
  destruct (rlimbs B !! n); simpl; [|done]. destruct (splitGrasps B ns) as [[? ?]| |]; done.
Qed.
Lemma split_defined names : (forall e, e ∈ names -> is_Some (rlimbs B !! e)) -> exists p, splitGrasps B names = Ok p.
Proof.
  induction names as [|n ns IH]; intros H; simpl; [eauto|].
  destruct (H n) as [l El]; [apply elem_of_cons; by left|]. unfold at_. rewrite El. simpl.
  destruct IH as [[cs gs] E]. { intros e He. apply H. apply elem_of_cons; by right. }
  rewrite E. simpl. eauto.
Qed.
Lemma setup_no_ub s alg fx fy : setupLibrary axis lib B s alg fx fy <> Ub.
Proof.
  unfold setupLibrary. destruct (splitGrasps B _) as [[cs gs]| |] eqn:E; simpl; try done; [|by apply split_no_ub in E].
  destruct (contactRows axis B s vnormalize _ _ cs) eqn:E1; simpl; try done; [|by apply rows_no_ub in E1].
  destruct (contactRows axis B s _ 0 0 gs) eqn:E2; simpl; try done; [|by apply rows_no_ub in E2].
  destruct (setNew lib _); done.
Qed.
Lemma setup_defined s alg fx fy : (forall e, is_Some (positions s !! e) -> complete_contact s e) ->
  (forall k, setNew lib k = true) -> exists r, setupLibrary axis lib B s alg fx fy = Ok r.
Proof.
  intros Hc Hs. unfold setupLibrary.
  destruct (split_defined (skeys (positions s))) as [[cs gs] E].
  { intros e He. apply elem_of_skeys in He. destruct (Hc e He) as (l & El & _). eauto. }
  rewrite E. simpl.
  pose proof (split_spec B _ _ _ E) as (Ec & Eg & _).
  destruct (rows_defined s vnormalize fx fy cs) as [r1 E1].
  { intros e He. rewrite Ec in He. apply elem_of_list_filter in He as [_ He]. by apply elem_of_skeys. }
  { intros e He. rewrite Ec in He. apply elem_of_list_filter in He as [_ He]. apply Hc. by apply elem_of_skeys. }
  destruct (rows_defined s (fun n => n) 0 0 gs) as [r2 E2].
  { intros e He. rewrite Eg in He. apply elem_of_list_filter in He as [_ He]. by apply elem_of_skeys. }
  { intros e He. rewrite Eg in He. apply elem_of_list_filter in He as [_ He]. apply Hc. by apply elem_of_skeys. }
  rewrite E1. simpl. rewrite E2. simpl. rewrite Hs. eauto.
Qed.
End T.
