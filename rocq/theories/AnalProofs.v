(** Proofs about the jacobian analyses. *)
From Verif Require Import Maps MapsProofs Vec SampModel SampProofs AnalModel AnalSpec.
From Coq Require Import Lra Lia.
Local Open Scope R_scope.

(** * Positive forms of three variables *)
Section form.
Variables A B C D E F : R.
Definition Qf (u v w : R) : R := A*u*u + B*v*v + C*w*w + 2*D*u*v + 2*E*u*w + 2*F*v*w.
Definition Det : R := A*(B*C - F*F) - D*(D*C - F*E) + E*(D*F - B*E).
Hypothesis pos : forall u v w, 0 <= Qf u v w.

Lemma lin_zero a b : (forall t, 0 <= 2 * t * a + b) -> a = 0.
Proof.
  intros H. destruct (Req_dec a 0) as [|Hne]; [done|]. exfalso.
  specialize (H (- (b + 1) / (2 * a))).
  replace (2 * (- (b + 1) / (2 * a)) * a + b) with (-1) in H by (field; lra). lra.
Qed.
Lemma quad2_pos P S T : (forall v w, 0 <= P*v*v + 2*S*v*w + T*w*w) -> 0 <= P * T - S * S.
Proof.
  intros H. destruct (Req_dec P 0) as [->|Hne].
  - assert (S = 0) as ->; [|lra]. apply (lin_zero S T). intros t. specialize (H t 1). lra.
  - pose proof (H 1 0) as HP. assert (0 < P) by lra. specialize (H (- S) P).
    apply Rmult_le_reg_l with P; [done|]. lra.
Qed.
Lemma quad2_null P S T : P * T - S * S = 0 -> exists v w, ~ (v = 0 /\ w = 0) /\ P*v*v + 2*S*v*w + T*w*w = 0.
Proof.
  intros H. destruct (Req_dec P 0) as [->|Hne].
  - exists 1, 0. split; [lra|lra].
  - exists (- S), P. split; [lra|]. replace (P * - S * - S + 2 * S * - S * P + T * P * P) with (P * (P * T - S * S)) by ring. rewrite H. ring.
Qed.
Lemma reduce_form v w : A <> 0 -> A * Qf (- (D * v + E * w) / A) v w = (A*B - D*D)*v*v + 2*(A*F - D*E)*v*w + (A*C - E*E)*w*w.
Proof. intros HA. unfold Qf. field. done. Qed.
Lemma det_reduced : A * Det = (A*B - D*D)*(A*C - E*E) - (A*F - D*E)*(A*F - D*E).
Proof. unfold Det. ring. Qed.
Lemma form_A_zero : A = 0 -> D = 0 /\ E = 0.
Proof.
  intros HA. split.
  - apply (lin_zero D B). intros t. pose proof (pos t 1 0) as H. unfold Qf in H. rewrite HA in H. lra.
  - apply (lin_zero E C). intros t. pose proof (pos t 0 1) as H. unfold Qf in H. rewrite HA in H. lra.
Qed.
Lemma form_A_pos : A <> 0 -> 0 < A.
Proof. intros HA. pose proof (pos 1 0 0) as H. unfold Qf in H. lra. Qed.
Lemma form_det_nonneg : 0 <= Det.
Proof.
  destruct (Req_dec A 0) as [HA|HA].
  - destruct (form_A_zero HA) as [HD HE]. unfold Det. rewrite HA, HD, HE. lra.
  - pose proof (form_A_pos HA) as Hp. apply Rmult_le_reg_l with A; [done|]. rewrite Rmult_0_r, det_reduced.
    apply quad2_pos. intros v w. rewrite <- reduce_form by done. apply Rmult_le_pos; [lra|apply pos].
Qed.
Lemma form_det_zero : Det = 0 <-> exists u v w, ~ (u = 0 /\ v = 0 /\ w = 0) /\ Qf u v w = 0.
Proof.
  split.
  - intros Hd. destruct (Req_dec A 0) as [HA|HA].
    + exists 1, 0, 0. split; [lra|]. unfold Qf. rewrite HA. ring.
    + assert (H2 : (A*B - D*D)*(A*C - E*E) - (A*F - D*E)*(A*F - D*E) = 0) by (rewrite <- det_reduced, Hd; ring).
      destruct (quad2_null _ _ _ H2) as (v & w & Hne & H0).
      exists (- (D * v + E * w) / A), v, w. split; [tauto|].
      apply Rmult_eq_reg_l with A; [|done]. rewrite reduce_form by done. rewrite H0. ring.
  - intros (u & v & w & Hne & H0).
    assert (H1 : A*u + D*v + E*w = 0).
    { assert (Hl : forall t, 0 <= 2 * t * (A*u + D*v + E*w) + t * t * A).
      { intros t. pose proof (pos (u + t) v w) as H. replace (Qf (u + t) v w) with (Qf u v w + 2 * t * (A*u+D*v+E*w) + t*t*A) in H by (unfold Qf; ring). lra. }
      destruct (Req_dec A 0) as [HA|HA].
      - apply (lin_zero _ 0). intros t. specialize (Hl t). rewrite HA in Hl at 2. lra.
      - pose proof (form_A_pos HA). specialize (Hl (- (A*u+D*v+E*w) / A)).
        replace (2 * (- (A*u+D*v+E*w) / A) * (A*u+D*v+E*w) + - (A*u+D*v+E*w) / A * (- (A*u+D*v+E*w) / A) * A)
          with (- ((A*u+D*v+E*w) * (A*u+D*v+E*w)) / A) in Hl by (field; done).
        assert (Hsq : (A*u+D*v+E*w) * (A*u+D*v+E*w) = 0); [|by apply Rmult_integral in Hsq as [?|?]].
        pose proof (Rle_0_sqr (A*u+D*v+E*w)) as Hs. unfold Rsqr in Hs.
        assert (0 <= - ((A*u+D*v+E*w) * (A*u+D*v+E*w))); [|lra].
        apply Rmult_le_reg_r with (/ A); [by apply Rinv_0_lt_compat|]. unfold Rdiv in Hl. lra. }
    assert (H2 : D*u + B*v + F*w = 0).
    { assert (Hl : forall t, 0 <= 2 * t * (D*u+B*v+F*w) + t * t * B).
      { intros t. pose proof (pos u (v + t) w) as H. replace (Qf u (v + t) w) with (Qf u v w + 2 * t * (D*u+B*v+F*w) + t*t*B) in H by (unfold Qf; ring). lra. }
      destruct (Req_dec B 0) as [HB|HB].
      - apply (lin_zero _ 0). intros t. specialize (Hl t). rewrite HB in Hl at 2. lra.
      - assert (0 < B) by (pose proof (pos 0 1 0) as H; unfold Qf in H; lra). specialize (Hl (- (D*u+B*v+F*w) / B)).
        replace (2 * (- (D*u+B*v+F*w) / B) * (D*u+B*v+F*w) + - (D*u+B*v+F*w) / B * (- (D*u+B*v+F*w) / B) * B)
          with (- ((D*u+B*v+F*w) * (D*u+B*v+F*w)) / B) in Hl by (field; done).
        assert (Hsq : (D*u+B*v+F*w) * (D*u+B*v+F*w) = 0); [|by apply Rmult_integral in Hsq as [?|?]].
        pose proof (Rle_0_sqr (D*u+B*v+F*w)) as Hs. unfold Rsqr in Hs.
        assert (0 <= - ((D*u+B*v+F*w) * (D*u+B*v+F*w))); [|lra].
        apply Rmult_le_reg_r with (/ B); [by apply Rinv_0_lt_compat|]. unfold Rdiv in Hl. lra. }
    assert (H3 : E*u + F*v + C*w = 0).
    { assert (Hl : forall t, 0 <= 2 * t * (E*u+F*v+C*w) + t * t * C).
      { intros t. pose proof (pos u v (w + t)) as H. replace (Qf u v (w + t)) with (Qf u v w + 2 * t * (E*u+F*v+C*w) + t*t*C) in H by (unfold Qf; ring). lra. }
      destruct (Req_dec C 0) as [HC|HC].
      - apply (lin_zero _ 0). intros t. specialize (Hl t). rewrite HC in Hl at 2. lra.
      - assert (0 < C) by (pose proof (pos 0 0 1) as H; unfold Qf in H; lra). specialize (Hl (- (E*u+F*v+C*w) / C)).
        replace (2 * (- (E*u+F*v+C*w) / C) * (E*u+F*v+C*w) + - (E*u+F*v+C*w) / C * (- (E*u+F*v+C*w) / C) * C)
          with (- ((E*u+F*v+C*w) * (E*u+F*v+C*w)) / C) in Hl by (field; done).
        assert (Hsq : (E*u+F*v+C*w) * (E*u+F*v+C*w) = 0); [|by apply Rmult_integral in Hsq as [?|?]].
        pose proof (Rle_0_sqr (E*u+F*v+C*w)) as Hs. unfold Rsqr in Hs.
        assert (0 <= - ((E*u+F*v+C*w) * (E*u+F*v+C*w))); [|lra].
        apply Rmult_le_reg_r with (/ C); [by apply Rinv_0_lt_compat|]. unfold Rdiv in Hl. lra. }
    assert (Du : Det * u = 0).
    { replace (Det * u) with ((B*C - F*F)*(A*u + D*v + E*w) + (E*F - D*C)*(D*u+B*v+F*w) + (D*F - B*E)*(E*u+F*v+C*w)) by (unfold Det; ring). rewrite H1, H2, H3. ring. }
    assert (Dv : Det * v = 0).
    { replace (Det * v) with ((E*F - D*C)*(A*u + D*v + E*w) + (A*C - E*E)*(D*u+B*v+F*w) + (D*E - A*F)*(E*u+F*v+C*w)) by (unfold Det; ring). rewrite H1, H2, H3. ring. }
    assert (Dw : Det * w = 0).
    { replace (Det * w) with ((D*F - B*E)*(A*u + D*v + E*w) + (D*E - A*F)*(D*u+B*v+F*w) + (A*B - D*D)*(E*u+F*v+C*w)) by (unfold Det; ring). rewrite H1, H2, H3. ring. }
    destruct (Req_dec Det 0) as [|Hd]; [done|]. exfalso. apply Hne.
    apply Rmult_integral in Du as [?|?]; [done|]. apply Rmult_integral in Dv as [?|?]; [done|].
    apply Rmult_integral in Dw as [?|?]; done.
Qed.
End form.

(** * Three rows *)
Lemma ldot_entries m i k : well_formed m -> (i < mrows m)%nat -> (k < mrows m)%nat ->
  ldot (mrow m i) (mrow m k) = row_dot m i k.
Proof.
  intros Hw Hi Hk. unfold ldot, row_dot. f_equal.
  assert (Hlen : forall i, (i < mrows m)%nat -> length (mrow m i) = mcols m).
  { intros j Hj. unfold mrow. rewrite take_length, drop_length, Hw.
    assert (S j * mcols m <= mrows m * mcols m)%nat by (apply Nat.mul_le_mono_r; lia). simpl in *. lia. }
  assert (Hat : forall i j, (i < mrows m)%nat -> (j < mcols m)%nat -> mrow m i !! j = Some (entry m i j)).
  { intros i' j Hi' Hj. unfold mrow, entry. rewrite lookup_take by lia. rewrite lookup_drop.
    rewrite (nth_lookup (mdata m)).
    destruct (mdata m !! (i' * mcols m + j)%nat) as [x|] eqn:E; [done|].
    apply lookup_ge_None in E. rewrite Hw in E.
    assert (S i' * mcols m <= mrows m * mcols m)%nat by (apply Nat.mul_le_mono_r; lia). simpl in *. lia. }
  apply list_eq. intros j. rewrite lookup_zip_with, list_lookup_fmap.
  destruct (decide (j < mcols m)%nat) as [Hj|Hj].
  - rewrite !Hat by done. simpl. rewrite lookup_seq_lt by done. done.
  - rewrite (lookup_ge_None_2 (seq _ _)) by (rewrite seq_length; lia).
    rewrite (lookup_ge_None_2 (mrow m i)) by (rewrite Hlen by done; lia). done.
Qed.
Lemma det3_gram a b c : det 3 (gram [a; b; c]) =
  sarrus (fun i k => ldot (nth i [a; b; c] []) (nth k [a; b; c] [])).
Proof. unfold gram, sarrus. simpl. ring. Qed.

Section sums.
Variable f : nat -> R.
Definition sum (l : list nat) (f : nat -> R) : R := fold_right Rplus 0 (map f l).
Lemma sum_ext l f1 f2 : (forall x, x ∈ l -> f1 x = f2 x) -> sum l f1 = sum l f2.
Proof. intros H. induction l as [|x l IH]; [done|]. simpl. unfold sum in *. simpl. rewrite H by left. f_equal. apply IH. intros y Hy. apply H. by right. Qed.
Lemma sum_scale l c g : sum l (fun x => c * g x) = c * sum l g.
Proof. induction l as [|x l IH]; unfold sum in *; simpl; [ring|]. rewrite IH. ring. Qed.
Lemma sum_plus l g h : sum l (fun x => g x + h x) = sum l g + sum l h.
Proof. induction l as [|x l IH]; unfold sum in *; simpl; [ring|]. rewrite IH. ring. Qed.
Lemma sum_sq_nonneg l g : 0 <= sum l (fun x => g x * g x).
Proof. induction l as [|x l IH]; unfold sum in *; simpl; [lra|]. pose proof (Rle_0_sqr (g x)) as H. unfold Rsqr in H. lra. Qed.
Lemma sum_sq_zero l g : sum l (fun x => g x * g x) = 0 -> forall x, x ∈ l -> g x = 0.
Proof.
  induction l as [|y l IH]; intros H x Hx; [by apply elem_of_nil in Hx|].
  unfold sum in H. simpl in H. pose proof (Rle_0_sqr (g y)) as Hy. unfold Rsqr in Hy.
  pose proof (sum_sq_nonneg l g) as Hl. unfold sum in Hl.
  apply elem_of_cons in Hx as [->|Hx].
  - assert (Hz : g y * g y = 0) by lra. by apply Rmult_integral in Hz as [?|?].
  - apply IH; [unfold sum; lra|done].
Qed.
End sums.

Definition gram_det (m : matrix R) (r : nat) : R := sarrus (fun i k => row_dot m (r + i) (r + k)).
Lemma row_form m r u v w : 
  Qf (row_dot m r r) (row_dot m (r+1) (r+1)) (row_dot m (r+2) (r+2)) (row_dot m r (r+1)) (row_dot m r (r+2)) (row_dot m (r+1) (r+2)) u v w
  = sum (seq 0 (mcols m)) (fun j => (u * entry m r j + v * entry m (r+1) j + w * entry m (r+2) j) * (u * entry m r j + v * entry m (r+1) j + w * entry m (r+2) j)).
Proof.
  unfold Qf. change (row_dot m ?a ?b) with (sum (seq 0 (mcols m)) (fun j => entry m a j * entry m b j)).
  generalize (seq 0 (mcols m)) as l. intros l. induction l as [|j l IH]; unfold sum in *; simpl; [ring|].
  rewrite <- IH. ring.
Qed.
Lemma row_dot_sym m i k : row_dot m i k = row_dot m k i.
Proof. unfold row_dot. f_equal. apply map_ext. intros j. ring. Qed.
Lemma gram_det_form m r : gram_det m r = Det (row_dot m r r) (row_dot m (r+1) (r+1)) (row_dot m (r+2) (r+2)) (row_dot m r (r+1)) (row_dot m r (r+2)) (row_dot m (r+1) (r+2)).
Proof.
  unfold gram_det, sarrus, Det. rewrite !Nat.add_0_r.
  rewrite (row_dot_sym m (r+1) r), (row_dot_sym m (r+2) r), (row_dot_sym m (r+2) (r+1)). ring.
Qed.
Lemma gram_det_nonneg m r : 0 <= gram_det m r.
Proof.
  rewrite gram_det_form. apply form_det_nonneg. intros u v w. rewrite row_form.
  apply (sum_sq_nonneg _ (fun j => u * entry m r j + v * entry m (r+1) j + w * entry m (r+2) j)).
Qed.
Lemma gram_det_zero m r : gram_det m r = 0 <-> dependent_rows m r.
Proof.
  rewrite gram_det_form, form_det_zero.
  2:{ intros u v w. rewrite row_form.
      apply (sum_sq_nonneg _ (fun j => u * entry m r j + v * entry m (r+1) j + w * entry m (r+2) j)). }
  split; intros (u & v & w & Hne & H); exists u, v, w; (split; [done|]).
  - rewrite row_form in H. intros j Hj.
    apply (sum_sq_zero _ (fun j => u * entry m r j + v * entry m (r+1) j + w * entry m (r+2) j) H).
    apply elem_of_seq. lia.
  - rewrite row_form. rewrite (sum_ext _ _ (fun _ => 0 * 0)); [rewrite sum_scale; ring|].
    intros j Hj. apply elem_of_seq in Hj. rewrite H by lia. ring.
Qed.
Lemma gram_rows m r : well_formed m -> (r + 3 <= mrows m)%nat ->
  threeRows m r = Ok [mrow m r; mrow m (r + 1); mrow m (r + 2)] /\
  det 3 (gram [mrow m r; mrow m (r + 1); mrow m (r + 2)]) = gram_det m r.
Proof.
  intros Hw Hr. split.
  - unfold threeRows. destruct (Nat.leb_spec (r + 3) (mrows m)); [done|lia].
  - rewrite det3_gram. unfold gram_det, sarrus. cbn [nth]. rewrite !Nat.add_0_r.
    rewrite !ldot_entries by (try done; lia). done.
Qed.

Definition rank_of_mode (mode : JacobianMode) : nat := match mode with ROTATION => 3 | _ => 0 end.
Theorem manipulability_three mode s : mode <> ALL ->
  let m := jacobian (content s) in let r := match mode with ROTATION => 3%nat | _ => 0%nat end in
  well_formed m -> (r + 3 <= mrows m)%nat ->
  exists v, manipulability mode s = Ok v /\ 0 <= v /\
    v * v = sarrus (fun i k => row_dot m (r + i) (r + k)) /\
    (v = 0 <-> dependent_rows m r).
Proof.
  intros Hmode m r Hw Hr.
  destruct (gram_rows m r Hw Hr) as [H1 H2].
  set (d := gram_det m r).
  assert (Hd : 0 <= d) by apply gram_det_nonneg.
  exists (if Rltb 0 d then sqrt d else 0).
  assert (Hval : manipulability mode s = Ok (if Rltb 0 d then sqrt d else 0)).
  { unfold manipulability. destruct mode; [done| |]; unfold r in *; fold m; rewrite H1, H2; done. }
  split; [done|]. unfold Rltb. destruct (Rlt_dec 0 d) as [Hp|Hn].
  - split; [apply sqrt_pos|]. split; [rewrite sqrt_sqrt by done; done|].
    split; [|intros Hdep; apply gram_det_zero in Hdep; fold d in Hdep; lra].
    intros H. apply sqrt_eq_0 in H; [|done]. lra.
  - assert (Hz : d = 0) by lra. split; [lra|]. split; [fold (gram_det m r); fold d; lra|].
    split; [|done]. intros _. apply gram_det_zero. done.
Qed.
Theorem manipulability_all s : let m := jacobianProduct (content s) in
  exists v, manipulability ALL s = Ok v /\ 0 <= v /\ v * v = Rmax 0 (det (mrows m) (rowsOf m)).
Proof.
  intros m. unfold manipulability. fold m. eexists. split; [reflexivity|]. unfold Rltb.
  destruct (Rlt_dec 0 _) as [H|H].
  - split; [apply sqrt_pos|]. rewrite sqrt_sqrt by lra. rewrite Rmax_right; lra.
  - split; [lra|]. rewrite Rmax_left; lra.
Qed.
Theorem manipulability_short mode s : mode <> ALL ->
  let r := match mode with ROTATION => 3%nat | _ => 0%nat end in
  (mrows (jacobian (content s)) < r + 3)%nat <-> manipulability mode s = Ub.
Proof.
  intros Hm r. unfold manipulability, threeRows. destruct mode; [done| |]; unfold r.
  - destruct (Nat.leb_spec (3 + 3) (mrows (jacobian (content s)))); split; intros; try done; lia.
  - destruct (Nat.leb_spec (0 + 3) (mrows (jacobian (content s)))); split; intros; try done; lia.
Qed.

(** * Singular values *)
Lemma fold_min l : forall d, let m := fold_left (fun m v => if Rltb v m then v else m) l d in
  (m = d \/ m ∈ l) /\ m <= d /\ forall x, x ∈ l -> m <= x.
Proof.
  induction l as [|y l IH]; intros d; cbn [fold_left].
  - split_and!; [by left|lra|]. intros x Hx. by apply elem_of_nil in Hx.
  - destruct (IH (if Rltb y d then y else d)) as (H1 & H2 & H3). cbn zeta. unfold Rltb in *.
    destruct (Rlt_dec y d); split_and!.
    + destruct H1 as [->|H1]; right; [left|by right].
    + lra.
    + intros x [->|Hx]%elem_of_cons; [lra|auto].
    + destruct H1 as [->|H1]; [by left|right; by right].
    + lra.
    + intros x [->|Hx]%elem_of_cons; [lra|auto].
Qed.
Lemma fold_max l : forall d, let m := fold_left (fun m v => if Rltb m v then v else m) l d in
  (m = d \/ m ∈ l) /\ d <= m /\ forall x, x ∈ l -> x <= m.
Proof.
  induction l as [|y l IH]; intros d; cbn [fold_left].
  - split_and!; [by left|lra|]. intros x Hx. by apply elem_of_nil in Hx.
  - destruct (IH (if Rltb d y then y else d)) as (H1 & H2 & H3). cbn zeta. unfold Rltb in *.
    destruct (Rlt_dec d y); split_and!.
    + destruct H1 as [->|H1]; right; [left|by right].
    + lra.
    + intros x [->|Hx]%elem_of_cons; [lra|auto].
    + destruct H1 as [->|H1]; [by left|right; by right].
    + lra.
    + intros x [->|Hx]%elem_of_cons; [lra|auto].
Qed.
Lemma minSing_least dmax sv : sv <> [] -> (forall x, x ∈ sv -> x <= dmax) -> least (minSing dmax sv) sv.
Proof.
  intros Hne Hb. destruct (fold_min sv dmax) as (H1 & H2 & H3). fold (minSing dmax sv) in *.
  split; [|done]. destruct H1 as [H1|H1]; [|done].
  destruct sv as [|y sv]; [done|]. assert (y = minSing dmax (y :: sv)) as <-; [|left].
  assert (minSing dmax (y :: sv) <= y) by (apply H3; left). assert (y <= dmax) by (apply Hb; left). lra.
Qed.
Lemma maxSing_greatest dmax sv : sv <> [] -> (forall x, x ∈ sv -> - dmax <= x) -> greatest (maxSing dmax sv) sv.
Proof.
  intros Hne Hb. destruct (fold_max sv (- dmax)) as (H1 & H2 & H3). fold (maxSing dmax sv) in *.
  split; [|done]. destruct H1 as [H1|H1]; [|done].
  destruct sv as [|y sv]; [done|]. assert (y = maxSing dmax (y :: sv)) as <-; [|left].
  assert (y <= maxSing dmax (y :: sv)) by (apply H3; left). assert (- dmax <= y) by (apply Hb; left). lra.
Qed.
Theorem isotropy_exact dmax sv mn mx : (forall x, x ∈ sv -> 0 <= x <= dmax) -> least mn sv -> greatest mx sv ->
  (mx = 0 -> isotropy dmax sv = Some 0) /\
  (0 < mx -> mn <= 1 -> exists v, isotropy dmax sv = Some v /\ 0 <= v <= 1 /\ (1 - v) * (1 - v) = 1 - mn * mn) /\
  (1 < mn -> isotropy dmax sv = None).
Proof.
  intros Hb [Hmn1 Hmn2] [Hmx1 Hmx2].
  assert (Hne : sv <> []) by (intros ->; by apply elem_of_nil in Hmn1).
  assert (Emn : fold_left (fun m v => if Rltb v m then v else m) sv dmax = mn).
  { destruct (minSing_least dmax sv Hne) as [H1 H2]; [intros x Hx; apply Hb in Hx; lra|].
    unfold minSing in *. apply Rle_antisym; [by apply H2|by apply Hmn2]. }
  assert (Emx : fold_left (fun m v => if Rltb m v then v else m) sv 0 = mx).
  { destruct (fold_max sv 0) as (H1 & H2 & H3). cbn zeta in *.
    apply Rle_antisym; [|by apply H3]. destruct H1 as [->|H1]; [|by apply Hmx2].
    apply Hb in Hmx1. lra. }
  pose proof (Hb _ Hmn1) as Bmn. pose proof (Hb _ Hmx1) as Bmx.
  unfold isotropy. rewrite Emn, Emx. unfold Rltb.
  assert (Hq : mx <> 0 -> 1 - mn * mn / mx * mx = 1 - mn * mn) by (intros; field; done).
  split_and!.
  - intros ->. destruct (Rlt_dec 0 0); [lra|done].
  - intros Hp Hle. destruct (Rlt_dec 0 mx); [|lra]. rewrite Hq by lra.
    assert (Hm2 : 0 <= mn * mn <= 1). { split; [apply Rmult_le_pos; lra|]. replace 1 with (1 * 1) by ring. apply Rmult_le_compat; lra. }
    destruct (Rlt_dec (1 - mn * mn) 0); [lra|]. eexists. split; [reflexivity|].
    assert (0 <= sqrt (1 - mn * mn)) by apply sqrt_pos.
    assert (Hs1 : sqrt (1 - mn * mn) <= sqrt 1) by (apply sqrt_le_1_alt; lra). rewrite sqrt_1 in Hs1.
    split; [lra|]. replace (1 - (1 - sqrt (1 - mn * mn))) with (sqrt (1 - mn * mn)) by ring. apply sqrt_sqrt. lra.
  - intros H1. assert (mn <= mx) by (by apply Hmx2). destruct (Rlt_dec 0 mx); [|lra]. rewrite Hq by lra.
    destruct (Rlt_dec (1 - mn * mn) 0) as [|Hn]; [done|]. exfalso. apply Hn.
    assert (1 * 1 < mn * mn) by (apply Rmult_le_0_lt_compat; lra). lra.
Qed.

(** the index the code aims at, 1 - sqrt (1 - (min/max)^2), is only obtained when the two agree *)
Theorem isotropy_intended dmax sv mn mx : (forall x, x ∈ sv -> 0 <= x <= dmax) -> least mn sv -> greatest mx sv ->
  0 < mx -> (isotropy dmax sv = Some (1 - sqrt (1 - (mn / mx) * (mn / mx))) <-> mn = 0 \/ mx = 1).
Proof.
  intros Hb Hmn Hmx Hp. destruct (isotropy_exact dmax sv mn mx Hb Hmn Hmx) as (_ & H2 & H3).
  pose proof (Hb _ (proj1 Hmn)) as Bmn. assert (Hle : mn <= mx) by (apply (proj2 Hmx), (proj1 Hmn)).
  set (q := mn / mx). assert (Hq : q * mx = mn) by (unfold q; field; lra).
  assert (Hq0 : 0 <= q). { apply Rmult_le_reg_r with mx; lra. }
  assert (Hq1 : q <= 1). { apply Rmult_le_reg_r with mx; lra. }
  assert (Hqq : 0 <= q * q <= 1). { split; [apply Rmult_le_pos; lra|]. replace 1 with (1 * 1) by ring. apply Rmult_le_compat; lra. }
  split.
  - intros Hi. destruct (Rle_dec mn 1) as [Hm1|Hm1].
    + destruct (H2 Hp Hm1) as (v & Hv & Hv1 & Hv2). rewrite Hi in Hv. injection Hv as Hv. rewrite <- Hv in Hv2.
      replace (1 - (1 - sqrt (1 - q * q))) with (sqrt (1 - q * q)) in Hv2 by ring.
      rewrite sqrt_sqrt in Hv2 by lra.
      assert (Hz : mn * mn * ((mx - 1) * (mx + 1)) = 0).
      { rewrite <- Hq. replace (q * mx * (q * mx) * ((mx - 1) * (mx + 1))) with ((q * mx * (q * mx) - q * q) * (mx * mx)) by ring.
        rewrite Hq. replace (mn * mn - q * q) with 0 by lra. ring. }
      apply Rmult_integral in Hz as [Hz|Hz].
      * left. apply Rmult_integral in Hz as [|]; done.
      * right. apply Rmult_integral in Hz as [|]; lra.
    + rewrite H3 in Hi by lra. done.
  - intros Hc. assert (Hm1 : mn <= 1) by (destruct Hc; lra).
    destruct (H2 Hp Hm1) as (v & -> & Hv1 & Hv2). f_equal.
    assert (Hs : sqrt (1 - q * q) * sqrt (1 - q * q) = (1 - v) * (1 - v)).
    { rewrite sqrt_sqrt by lra. rewrite Hv2. destruct Hc as [H0|H1].
      - assert (q = 0) by (unfold q; rewrite H0; field; lra). rewrite H, H0. ring.
      - rewrite H1 in Hq. rewrite <- Hq. ring. }
    assert (0 <= sqrt (1 - q * q)) by apply sqrt_pos.
    assert (Hz : (sqrt (1 - q * q) - (1 - v)) * (sqrt (1 - q * q) + (1 - v)) = 0) by lra.
    apply Rmult_integral in Hz as [|]; lra.
Qed.
