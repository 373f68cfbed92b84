(** Proofs about the timed paths returned by the steering method. *)
From Verif Require Import Maps Vec ParaModel ParaSpec ParaProofs ParaProofs2 ParaProofs3 ParaProofs4.
From Coq Require Import Psatz.
Local Open Scope R_scope.

Lemma compute_total validate romNames d s q1 q2 : (indexEcs d + 6 <= length q1)%nat -> (indexEcs d + 3 <= length q2)%nat ->
  exists o tried, compute_3D_path validate romNames d s q1 q2 = Ok (o, tried).
Proof.
  intros H1 H2. apply Nat.leb_le in H1, H2. unfold compute_3D_path.
  destruct (second_constraint _ _ _); [|eauto]. destruct (sixth_constraint _ _ _); [|eauto]. unfold third_constraint.
  destruct (alphaBounds _ _ _ _ _ _ _ _ _ _) as [inf sup]. destruct (Rltb sup inf); [eauto|].
  destruct (negb _); [eauto|]. destruct (attempt _ _ _ _ _ _ _ _ _ _ (inf + _)) as [pp ok0].
  destruct (search _ _ _ _ _ _ _ _) as [[ppp good] tr]. rewrite H1, H2. destruct good; simpl; eauto.
Qed.

Section timed.
Context (validate : ppath -> bool) (romNames : config -> list string) (d : device) (s : steering).
Context (Hg : 0 < s_g s) (HD : 0 < s_Dalpha s) (HV : 0 <= s_V0max s) (HW : 0 <= s_Vimpmax s).
Context (Hlaw : lawful d) (q1 q2 : config) (L1 : length q1 = csize d) (L2 : length q2 = csize d) (Hx : qi q1 0 <> qi q2 0).
Context (t : tpath) (tried : list ppath) (Ht : compute_3D_path validate romNames d s q1 q2 = Ok (Some t, tried)).

Let Hap : apart q1 q2. Proof. left. exact Hx. Qed.

(** all that is needed on the path returned *)
Lemma timed_facts : let p := t_para t in let w := k_xdot (p_coefs p) in
  jump_path d p /\ p_init p = q1 /\ p_end p = q2 /\ 0 < w /\ 0 < t_len t /\ w * t_len t = p_len p /\
  t_len t = computeTimedLength p /\ t_range t = (0, p_len p) /\
  (exists a, - PI / 2 < a < PI / 2 /\ k_alpha (p_coefs p) = a /\ vnorm (p_V0 p) * cos a = w /\ vz (p_V0 p) = w * tan a) /\
  p_V0 p = V3 (w * cos (k_theta (p_coefs p))) (w * sin (k_theta (p_coefs p))) (vz (p_V0 p)) /\
  k_x0 (p_coefs p) = cos (k_theta (p_coefs p)) * qi q1 0 + sin (k_theta (p_coefs p)) * qi q1 1 /\
  p_Vimp p = fallVelocity (s_g s) (p_V0 p) (t_len t) /\
  fall (s_g s) (qpos q1) (p_V0 p) (t_len t) = qpos q2 /\
  (forall i, (i < indexEcs d)%nat -> qi (t_init t) i = qi q1 i) /\ (forall i, (i < indexEcs d)%nat -> qi (t_end t) i = qi q2 i) /\
  (indexEcs d + 6 <= csize d)%nat /\
  t_init t = (<[(indexEcs d + 5)%nat := - s_g s]> (<[(indexEcs d + 2)%nat := vz (p_V0 p)]> (<[(indexEcs d + 1)%nat := vy (p_V0 p)]> (<[indexEcs d := vx (p_V0 p)]> q1)))) /\
  t_end t = (<[(indexEcs d + 2)%nat := vz (p_Vimp p)]> (<[(indexEcs d + 1)%nat := vy (p_Vimp p)]> (<[indexEcs d := vx (p_Vimp p)]> q2))).
Proof.
  intros p w.
  destruct (jump_returned validate romNames d s Hg HD HV HW q1 q2 Hap t tried Ht) as (HT & Hfall & Hvi & _ & _ & _ & _ & _ & _ & _ & _ & _ & _ & a & Hadm & Hp & Hok & _ & Et & I1 & I2).
  fold p in Hfall, Hvi, Hp, Et |- *.
  destruct (attempt romNames s q1 q2 _ _ _ _ _ _ a) as [p' ok'] eqn:Ea. simpl in Hp, Hok. subst p' ok'.
  destruct (attempt_spec romNames s Hg q1 q2 Hap a p true Hadm Ea) as
    (T & HTp & HTl & Hf & Hpi & Hpe & Hpl & Hth & Hal & Hx0 & HwT & Hw & _ & EV & _ & _ & _ & _ & _ & _).
  destruct (direction q1 q2 Hap) as (HLp & HXd & HYd & _ & _). fold w in HwT, Hw, EV.
  assert (EtT : t_len t = T) by (rewrite Et; simpl; exact HTl).
  split. { unfold jump_path. rewrite Hpi, Hpe, Hpl, Hth. repeat split; auto. }
  repeat split; auto.
  - rewrite EtT, HwT, Hpl. reflexivity.
  - rewrite EtT, HTl. reflexivity.
  - rewrite Et. reflexivity.
  - exists a. split; [apply Hadm|]. split; auto. split.
    + apply (Rmult_eq_reg_r T); [|lra]. rewrite HwT. apply Hf.
    + rewrite EV. reflexivity.
  - rewrite Hth. rewrite EV at 1. rewrite EV. reflexivity.
  - rewrite Hth, Hx0. reflexivity.
  - intros i Hi. rewrite Et. simpl. rewrite !qi_insert_ne by lia. reflexivity.
  - intros i Hi. rewrite Et. simpl. rewrite !qi_insert_ne by lia. reflexivity.
  - rewrite <- L1. exact I1.
  - rewrite Et. reflexivity.
  - rewrite Et. reflexivity.
Qed.

Lemma timed_starts : t_compute d t 0 = t_init t.
Proof. unfold t_compute. assert (Reqb 0 0 = true) as -> by (apply Reqb_true; auto). reflexivity. Qed.
Lemma timed_x : Reqb (qi (t_init t) 0) (qi (t_end t) 0) = false.
Proof.
  destruct timed_facts as (_ & _ & _ & _ & _ & _ & _ & _ & _ & _ & _ & _ & _ & Hi & He & _).
  pose proof (index_ge3 d Hlaw). rewrite Hi, He by lia. apply Reqb_false; auto.
Qed.
Lemma timed_ends u : t_len t <= u -> t_compute d t u = t_end t.
Proof.
  intros Hu. destruct timed_facts as (_ & _ & _ & _ & HT & _). unfold t_compute. rewrite timed_x.
  assert (Reqb u 0 = false) as -> by (apply Reqb_false; lra). simpl.
  assert (Rleb (t_len t) u = true) as -> by (apply Rleb_true; auto). reflexivity.
Qed.

Lemma timed_inside u : 0 < u < t_len t -> s_g s = 981 / 100 ->
  let q := t_compute d t u in let v := fallVelocity (s_g s) (p_V0 (t_para t)) u in let i := indexEcs d in
  qpos q = between (qpos q1) (qpos q2) (u / t_len t) /\
  vx (fall (s_g s) (qpos q1) (p_V0 (t_para t)) u) = qi q 0 /\ vy (fall (s_g s) (qpos q1) (p_V0 (t_para t)) u) = qi q 1 /\
  qi q 2 < vz (fall (s_g s) (qpos q1) (p_V0 (t_para t)) u) /\
  V3 (qi q i) (qi q (i + 1)) (qi q (i + 2)) = v /\ qi q (i + 3) = 0 /\ qi q (i + 4) = 0 /\ qi q (i + 5) = - s_g s.
Proof.
  intros Hu Hgv.
  destruct timed_facts as (Hjp & Hpi & Hpe & Hw & HT & HwT & _ & _ & (a & Ha & Hal & Hnc & Hvz) & EV & Hx0 & Hvi & Hfall & _ & _ & Hsz & _).
  set (p := t_para t) in *. set (w := k_xdot (p_coefs p)) in *. set (th := k_theta (p_coefs p)) in *. set (i := indexEcs d) in *.
  pose proof (index_ge3 d Hlaw) as H3. fold i in H3.
  assert (Hul : 0 < w * u < p_len p). { split; [rpos|]. rewrite <- HwT. apply Rmult_lt_compat_l; lra. }
  assert (Eu : u * vnorm (p_V0 p) * cos a = w * u) by (rewrite <- Hnc; ring).
  assert (Hq : t_compute d t u = <[(i + 5)%nat := - (981/100)]> (<[(i + 4)%nat := 0]> (<[(i + 3)%nat := 0]>
      (<[(i + 2)%nat := vz (evaluateVelocity d p (w * u))]> (<[(i + 1)%nat := vy (evaluateVelocity d p (w * u))]> (<[i := vx (evaluateVelocity d p (w * u))]> (p_at d p (w * u)))))))).
  { unfold t_compute. rewrite timed_x. assert (Reqb u 0 = false) as -> by (apply Reqb_false; lra). cbn [orb].
    assert (Rleb (t_len t) u = false) as -> by (apply Rleb_false; lra). fold p. rewrite Hal, Eu. fold i. reflexivity. }
  assert (Hpos : qpos (p_at d p (w * u)) = between (qpos q1) (qpos q2) (u / t_len t)).
  { rewrite (p_straight d Hlaw p Hjp) by lra. rewrite Hpi, Hpe. f_equal. rewrite <- HwT. field. lra. }
  assert (Hlen : length (p_at d p (w * u)) = csize d) by (apply p_length; auto).
  assert (Hpos2 : qpos (t_compute d t u) = between (qpos q1) (qpos q2) (u / t_len t)).
  { rewrite <- Hpos, Hq. unfold qpos. rewrite !qi_insert_ne by lia. reflexivity. }
  set (q := t_compute d t u) in *.
  assert (Hfall' : fall (s_g s) (qpos q1) (p_V0 p) (t_len t) = qpos q2) by exact Hfall.
  assert (Hex : qi q 0 = (1 - u / t_len t) * qi q1 0 + u / t_len t * qi q2 0) by exact (f_equal vx Hpos2).
  assert (Hey : qi q 1 = (1 - u / t_len t) * qi q1 1 + u / t_len t * qi q2 1) by exact (f_equal vy Hpos2).
  assert (Hez : qi q 2 = (1 - u / t_len t) * qi q1 2 + u / t_len t * qi q2 2) by exact (f_equal vz Hpos2).
  assert (Hfx : qi q1 0 + t_len t * vx (p_V0 p) + 0 = qi q2 0) by exact (f_equal vx Hfall').
  assert (Hfy : qi q1 1 + t_len t * vy (p_V0 p) + 0 = qi q2 1) by exact (f_equal vy Hfall').
  assert (Hfz : qi q1 2 + t_len t * vz (p_V0 p) + - (s_g s * (t_len t * t_len t) / 2) = qi q2 2) by exact (f_equal vz Hfall').
  split; [exact Hpos2|].
  unfold fall, vadd, vscale, qpos. cbn [vx vy vz].
  split. { rewrite Hex, <- Hfx. field. lra. }
  split. { rewrite Hey, <- Hfy. field. lra. }
  split.
  { rewrite Hez, <- Hfz.
    replace ((1 - u / t_len t) * qi q1 2 + u / t_len t * (qi q1 2 + t_len t * vz (p_V0 p) + - (s_g s * (t_len t * t_len t) / 2)))
      with (qi q1 2 + u * vz (p_V0 p) - s_g s * (u * t_len t) / 2) by (field; lra).
    assert (s_g s * (u * u) < s_g s * (u * t_len t)) by (apply Rmult_lt_compat_l; auto; apply Rmult_lt_compat_l; lra). lra. }
  assert (Hxt : qi (p_at d p (w * u)) 0 * cos th + qi (p_at d p (w * u)) 1 * sin th = k_x0 (p_coefs p) + w * u).
  { assert (E0 : qi (p_at d p (w * u)) 0 = (1 - u / t_len t) * qi q1 0 + u / t_len t * qi q2 0) by exact (f_equal vx Hpos).
    assert (E1 : qi (p_at d p (w * u)) 1 = (1 - u / t_len t) * qi q1 1 + u / t_len t * qi q2 1) by exact (f_equal vy Hpos).
    rewrite E0, E1, Hx0. rewrite EV in Hfx, Hfy. cbn [vx vy] in Hfx, Hfy. rewrite <- Hfx, <- Hfy. pose proof (sin2cos2 th) as S.
    transitivity (cos th * qi q1 0 + sin th * qi q1 1 + w * u * (sin th * sin th + cos th * cos th)); [field; lra|rewrite S; ring]. }
  assert (Hvel : evaluateVelocity d p (w * u) = fallVelocity (s_g s) (p_V0 p) u).
  { unfold evaluateVelocity. fold th w. rewrite Hal, Hxt. unfold fallVelocity. rewrite EV. unfold vadd. cbn [vx vy vz]. rewrite Hvz, Hgv.
    f_equal; [ring|ring|]. field. lra. }
  rewrite Hvel in Hq.
  assert (Hli : length (p_at d p (w * u)) = csize d) by auto.
  split.
  { rewrite Hq. apply vec3_eq; cbn [vx vy vz].
    - rewrite !qi_insert_ne by lia. apply qi_insert_eq. lia.
    - rewrite !qi_insert_ne by lia. apply qi_insert_eq. rewrite !insert_length. lia.
    - rewrite !qi_insert_ne by lia. apply qi_insert_eq. rewrite !insert_length. lia. }
  rewrite Hq. split; [|split].
  - rewrite !qi_insert_ne by lia. apply qi_insert_eq. rewrite !insert_length. lia.
  - rewrite !qi_insert_ne by lia. apply qi_insert_eq. rewrite !insert_length. lia.
  - rewrite qi_insert_eq by (rewrite !insert_length; lia). lra.
Qed.

(** the ends carry the velocities *)
Lemma timed_end_velocities : let i := indexEcs d in
  V3 (qi (t_init t) i) (qi (t_init t) (i + 1)) (qi (t_init t) (i + 2)) = p_V0 (t_para t) /\
  V3 (qi (t_end t) i) (qi (t_end t) (i + 1)) (qi (t_end t) (i + 2)) = fallVelocity (s_g s) (p_V0 (t_para t)) (t_len t) /\
  qi (t_init t) (i + 5) = - s_g s /\ qi (t_end t) (i + 5) = qi q2 (i + 5).
Proof.
  intros i. destruct timed_facts as (_ & _ & _ & _ & _ & _ & _ & _ & _ & _ & _ & Hvi & _ & _ & _ & Hsz & Ei & Ee). fold i in Ei, Ee, Hsz.
  split; [|split; [|split]].
  - rewrite Ei. apply vec3_eq; cbn [vx vy vz]; rewrite ?qi_insert_ne by lia; rewrite ?qi_insert_ne by lia; apply qi_insert_eq; rewrite ?insert_length; lia.
  - rewrite <- Hvi, Ee. apply vec3_eq; cbn [vx vy vz]; rewrite ?qi_insert_ne by lia; rewrite ?qi_insert_ne by lia; apply qi_insert_eq; rewrite ?insert_length; lia.
  - rewrite Ei. apply qi_insert_eq. rewrite !insert_length. lia.
  - rewrite Ee. rewrite !qi_insert_ne by lia. reflexivity.
Qed.

(** the reversed timed path has a negative length and is nowhere but at its end *)
Lemma timed_reverse u : 0 < u -> t_len (t_reverse d t) < 0 /\ t_compute d (t_reverse d t) u = t_init t.
Proof.
  intros Hu. destruct timed_facts as (Hjp & Hpi & Hpe & Hw & HT & HwT & _ & _ & (a & Ha & Hal & Hnc & Hvz) & EV & Hx0 & Hvi & Hfall & Hi & He & _).
  set (p := t_para t) in *. set (w := k_xdot (p_coefs p)) in *. set (th := k_theta (p_coefs p)) in *.
  assert (Hlen : t_len (t_reverse d t) < 0).
  { unfold t_reverse, t_create. simpl. unfold computeTimedLength, timedLength. fold p. rewrite (p_reverse_eq d p Hjp). simpl. fold th. rewrite Hal.
    pose proof Hjp as (_ & _ & _ & Hl & Hc & Hs). fold th in Hc, Hs. pose proof (sin2cos2 th) as S.
    assert (E : (qi (p_init p) 0 - qi (p_end p) 0) * cos th + (qi (p_init p) 1 - qi (p_end p) 1) * sin th = - p_len p).
    { transitivity (- ((qi (p_end p) 0 - qi (p_init p) 0) * cos th + (qi (p_end p) 1 - qi (p_init p) 1) * sin th)); [ring|].
      rewrite <- Hc, <- Hs. transitivity (- p_len p * (sin th * sin th + cos th * cos th)); [ring|rewrite S; ring]. }
    rewrite E. assert (Hn : 0 < vnorm (p_Vimp p)).
    { apply sqrt_lt_R0. rewrite Hvi, EV. unfold vnorm2, vdot, fallVelocity, vadd. cbn [vx vy vz].
      pose proof (sqr_pos (vz (p_V0 p) + - (s_g s * t_len t))) as P. assert (0 < w * w) by rpos.
      replace ((w * cos th + 0) * (w * cos th + 0) + (w * sin th + 0) * (w * sin th + 0)) with (w * w * (sin th * sin th + cos th * cos th)) by ring.
      rewrite S. lra. }
    pose proof (cos_pos_in a Ha). assert (0 < p_len p / (vnorm (p_Vimp p) * cos a)) by rpos.
    replace (- p_len p / (vnorm (p_Vimp p) * cos a)) with (- (p_len p / (vnorm (p_Vimp p) * cos a))) by (unfold Rdiv; ring). lra. }
  split; auto. unfold t_compute. assert (Reqb u 0 = false) as -> by (apply Reqb_false; lra).
  assert (Reqb (qi (t_init (t_reverse d t)) 0) (qi (t_end (t_reverse d t)) 0) = false) as ->.
  { simpl. pose proof (index_ge3 d Hlaw). rewrite Hi, He by lia. apply Reqb_false. auto. }
  simpl orb. assert (Rleb (t_len (t_reverse d t)) u = true) as -> by (apply Rleb_true; lra). reflexivity.
Qed.

(** length and time range *)
Lemma timed_range : t_range t = (0, hdist q1 q2) /\ t_len t = hdist q1 q2 / sqrt (vx (p_V0 (t_para t)) * vx (p_V0 (t_para t)) + vy (p_V0 (t_para t)) * vy (p_V0 (t_para t))).
Proof.
  destruct timed_facts as (Hjp & Hpi & Hpe & Hw & HT & HwT & _ & Hr & _ & EV & _).
  set (p := t_para t) in *. set (w := k_xdot (p_coefs p)) in *. set (th := k_theta (p_coefs p)) in *.
  pose proof Hjp as (_ & _ & _ & Hl & Hc & Hs). fold th in Hc, Hs. pose proof (sin2cos2 th) as S.
  assert (El : p_len p = hdist q1 q2).
  { unfold hdist. rewrite Hpi, Hpe in Hc, Hs. rewrite <- Hc, <- Hs.
    replace (p_len p * cos th * (p_len p * cos th) + p_len p * sin th * (p_len p * sin th)) with (p_len p * p_len p * (sin th * sin th + cos th * cos th)) by ring.
    rewrite S, Rmult_1_r, sqrt_square by lra. reflexivity. }
  split; [rewrite Hr, El; reflexivity|]. rewrite EV. cbn [vx vy].
  replace (w * cos th * (w * cos th) + w * sin th * (w * sin th)) with (w * w * (sin th * sin th + cos th * cos th)) by ring.
  rewrite S, Rmult_1_r, sqrt_square by lra. rewrite <- El, <- HwT. field. lra.
Qed.
End timed.

(** a jump along y returned by the steering method never leaves its start *)
Lemma timed_stuck d t u : qi (t_init t) 0 = qi (t_end t) 0 -> t_compute d t u = t_init t.
Proof. intros H. unfold t_compute. assert (Reqb (qi (t_init t) 0) (qi (t_end t) 0) = true) as -> by (apply Reqb_true; auto). rewrite orb_true_r. reflexivity. Qed.
Lemma stuck_jump validate romNames d s q1 q2 t tried u :
  0 < s_g s -> 0 < s_Dalpha s -> 0 <= s_V0max s -> 0 <= s_Vimpmax s -> lawful d ->
  qi q1 0 = qi q2 0 -> qi q1 1 <> qi q2 1 -> compute_3D_path validate romNames d s q1 q2 = Ok (Some t, tried) ->
  qpos (t_compute d t u) = qpos q1 /\ qpos (t_compute d t (t_len t)) <> qpos q2.
Proof.
  intros Hg HD HV HW Hlaw Hx Hy Ht.
  destruct (jump_returned validate romNames d s Hg HD HV HW q1 q2 (or_intror Hy) t tried Ht) as (_ & _ & _ & _ & _ & _ & _ & _ & _ & _ & _ & _ & _ & a & _ & _ & _ & _ & Et & _).
  pose proof (index_ge3 d Hlaw).
  assert (E : forall i, (i < 3)%nat -> qi (t_init t) i = qi q1 i) by (intros i Hi; rewrite Et; simpl; rewrite !qi_insert_ne by lia; reflexivity).
  assert (E' : qi (t_end t) 0 = qi q2 0) by (rewrite Et; simpl; rewrite !qi_insert_ne by lia; reflexivity).
  assert (Hs : forall u, t_compute d t u = t_init t) by (intros; apply timed_stuck; rewrite E, E' by lia; auto).
  rewrite !Hs. unfold qpos. rewrite !E by lia. split; auto. intros K. apply (f_equal vy) in K. simpl in K. auto.
Qed.

(** the random jump *)
Lemma random_target g theta q1 alpha v :
  randomTarget g theta q1 alpha v = fall g (qpos q1) (V3 (v * cos alpha * cos theta) (v * cos alpha * sin theta) (v * sin alpha)) 3
  <-> qi q1 1 * cos theta = qi q1 0 * sin theta.
Proof.
  unfold randomTarget, fall, vadd, vscale, qpos. cbn [vx vy vz]. set (c := cos theta). set (s := sin theta).
  assert (S : s * s + c * c = 1) by apply sin2cos2. set (x := qi q1 0). set (y := qi q1 1).
  split.
  - intros E. injection E as E1 E2 _.
    assert (K1 : s * (y * c - x * s) = 0). { transitivity ((c * x + s * y) * c - x * (s * s + c * c)); [ring|]. rewrite S. nra. }
    assert (K2 : c * (y * c - x * s) = 0). { transitivity (- ((c * x + s * y) * s - y * (s * s + c * c))); [ring|]. rewrite S. nra. }
    assert (K : (s * s + c * c) * (y * c - x * s) = 0) by (rewrite Rmult_plus_distr_r, !Rmult_assoc, K1, K2; ring).
    rewrite S in K. lra.
  - intros E. apply vec3_eq; cbn [vx vy vz].
    + transitivity (3 * (v * cos alpha * c) + (x * (c * c) + y * c * s)); [ring|]. rewrite E.
      transitivity (3 * (v * cos alpha * c) + x * (s * s + c * c)); [ring|rewrite S; ring].
    + transitivity (3 * (v * cos alpha * s) + (x * s * c + y * (s * s))); [ring|]. rewrite <- E.
      transitivity (3 * (v * cos alpha * s) + y * (s * s + c * c)); [ring|rewrite S; ring].
    + field.
Qed.

Lemma timed_all_ends validate romNames d s q1 q2 t tried :
  0 < s_g s -> 0 < s_Dalpha s -> 0 <= s_V0max s -> 0 <= s_Vimpmax s -> lawful d ->
  length q1 = csize d -> length q2 = csize d -> qi q1 0 <> qi q2 0 ->
  compute_3D_path validate romNames d s q1 q2 = Ok (Some t, tried) ->
  t_compute d t 0 = t_init t /\ (forall u, t_len t <= u -> t_compute d t u = t_end t) /\
  (forall i, (i < indexEcs d)%nat -> qi (t_init t) i = qi q1 i /\ qi (t_end t) i = qi q2 i) /\
  let i := indexEcs d in
  V3 (qi (t_init t) i) (qi (t_init t) (i + 1)) (qi (t_init t) (i + 2)) = p_V0 (t_para t) /\
  V3 (qi (t_end t) i) (qi (t_end t) (i + 1)) (qi (t_end t) (i + 2)) = fallVelocity (s_g s) (p_V0 (t_para t)) (t_len t) /\
  qi (t_init t) (i + 5) = - s_g s /\ qi (t_end t) (i + 5) = qi q2 (i + 5).
Proof.
  intros Hg HD HV HW Hl L1 L2 Hx Ht. split; [apply timed_starts|]. split.
  - intros u. apply (timed_ends validate romNames d s Hg HD HV HW Hl q1 q2 L1 L2 Hx t tried Ht).
  - split.
    + destruct (timed_facts validate romNames d s Hg HD HV HW q1 q2 L1 L2 Hx t tried Ht) as (_ & _ & _ & _ & _ & _ & _ & _ & _ & _ & _ & _ & _ & Hi & He & _).
      intros i Hi'. split; auto.
    + apply (timed_end_velocities validate romNames d s Hg HD HV HW q1 q2 L1 L2 Hx t tried Ht).
Qed.
Lemma extract_all d p a b : lawful d -> jump_path d p -> 0 <= a -> a < b -> b <= p_len p ->
  p_len (p_extract d p a b) = b - a /\ p_init (p_extract d p a b) = p_at d p a /\ p_end (p_extract d p a b) = p_at d p b /\
  forall u, 0 <= u <= b - a -> qpos (p_at d (p_extract d p a b) u) = qpos (p_at d p (a + u)).
Proof.
  intros Hd Hp Ha Hab Hb. repeat split; [apply p_extract_len; auto; lra|]. intros u Hu. apply p_extract_at; auto.
Qed.
