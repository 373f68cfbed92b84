(** Proofs about the evaluation of the parabolic paths. *)
From Verif Require Import Maps Vec ParaModel ParaSpec ParaProofs ParaProofs2 ParaProofs3.
From Coq Require Import Psatz.
Local Open Scope R_scope.


Lemma qi_lookup (q : config) i : qi q i = default 0 (q !! i).
Proof. unfold qi. rewrite nth_lookup. reflexivity. Qed.
Lemma qi_insert_ne (q : config) i j v : i <> j -> qi (<[i := v]> q) j = qi q j.
Proof. intros H. rewrite !qi_lookup, list_lookup_insert_ne by auto. reflexivity. Qed.
Lemma qi_insert_eq (q : config) i v : (i < length q)%nat -> qi (<[i := v]> q) i = v.
Proof. intros H. rewrite qi_lookup, list_lookup_insert by auto. reflexivity. Qed.

Lemma zeroExtra_length n : forall i q, length (zeroExtra i n q) = length q.
Proof. induction n; intros; simpl; auto. rewrite IHn, insert_length. auto. Qed.
Lemma zeroExtra_lt n : forall i q j, (j < i)%nat -> qi (zeroExtra i n q) j = qi q j.
Proof. induction n; intros; simpl; auto. rewrite IHn by lia. apply qi_insert_ne. lia. Qed.
Lemma zeroExtra_ge n : forall i q j, (i <= j < i + n)%nat -> (i + n <= length q)%nat -> qi (zeroExtra i n q) j = 0.
Proof.
  induction n; intros i q j Hj Hl; [lia|]. simpl. destruct (decide (j = i)) as [->|].
  - rewrite zeroExtra_lt by lia. apply qi_insert_eq. lia.
  - apply IHn; [lia|]. rewrite insert_length. lia.
Qed.

Section paths.
Context (d : device) (Hd : lawful d).

Lemma index_ge3 : (3 <= indexEcs d)%nat.
Proof. destruct Hd as (H & _). unfold indexEcs. lia. Qed.

Section one.
Context (p : ppath) (Hp : jump_path d p).
Lemma p_zero : p_at d p 0 = p_init p.
Proof. unfold p_at, p_compute. assert (Reqb 0 0 = true) as -> by (apply Reqb_true; auto). reflexivity. Qed.
Lemma p_full u : p_len p <= u -> p_at d p u = p_end p.
Proof.
  intros Hu. destruct Hp as (_ & _ & Hx & Hl & _). unfold p_at, p_compute.
  assert (Reqb u 0 = false) as -> by (apply Reqb_false; lra). assert (Reqb (qi (p_init p) 0) (qi (p_end p) 0) = false) as -> by (apply Reqb_false; auto).
  simpl. assert (Rleb (p_len p) u = true) as -> by (apply Rleb_true; auto). reflexivity.
Qed.
Lemma p_inside u : u <> 0 -> u < p_len p -> p_at d p u = zeroExtra (indexEcs d) (ecs d) (interp d (p_init p) (p_end p) (u / p_len p)).
Proof.
  intros H0 Hu. destruct Hp as (_ & _ & Hx & Hl & _). unfold p_at, p_compute.
  assert (Reqb u 0 = false) as -> by (apply Reqb_false; lra). assert (Reqb (qi (p_init p) 0) (qi (p_end p) 0) = false) as -> by (apply Reqb_false; auto).
  simpl. assert (Rleb (p_len p) u = false) as -> by (apply Rleb_false; auto). reflexivity.
Qed.
Lemma p_length u : length (p_at d p u) = csize d.
Proof.
  destruct Hp as (L1 & L2 & Hx & Hl & _). destruct (Req_dec u 0) as [->|H0]; [rewrite p_zero; auto|].
  destruct (Rle_lt_dec (p_len p) u); [rewrite p_full; auto|]. rewrite p_inside, zeroExtra_length by auto. destruct Hd as (_ & H & _). auto.
Qed.
(** the positions are on the segment between the ends *)
Lemma p_straight u : 0 <= u <= p_len p -> qpos (p_at d p u) = between (qpos (p_init p)) (qpos (p_end p)) (u / p_len p).
Proof.
  intros Hu. pose proof Hp as (L1 & L2 & Hx & Hl & _).
  destruct (Req_dec u 0) as [->|H0].
  { rewrite p_zero. unfold between, vadd, vscale, qpos. simpl. f_equal; field; lra. }
  destruct (Rle_lt_dec (p_len p) u) as [Hle|Hlt].
  { rewrite p_full by auto. assert (u = p_len p) as -> by lra. unfold between, vadd, vscale, qpos. simpl. f_equal; field; lra. }
  rewrite p_inside by auto. pose proof index_ge3 as Hi. destruct Hd as (_ & _ & Hlin & _).
  unfold between, vadd, vscale, qpos. simpl. rewrite !zeroExtra_lt by lia. rewrite !Hlin by (auto; lia). reflexivity.
Qed.
Lemma p_extra u i : 0 < u < p_len p -> (indexEcs d <= i < csize d)%nat -> qi (p_at d p u) i = 0.
Proof.
  intros Hu Hi. pose proof Hp as (L1 & L2 & Hx & Hl & _). rewrite p_inside by lra. destruct Hd as (Hc & Hlen & _).
  unfold indexEcs in *. apply zeroExtra_ge; [lia|]. rewrite Hlen by auto. lia.
Qed.

(** reversal *)
Lemma p_reverse_eq : p_reverse d p = PPath (p_end p) (p_init p) (p_len p) (p_coefs p) (p_Vimp p) (p_V0 p) (p_roms1 p) (p_roms0 p).
Proof. unfold p_reverse. rewrite p_zero, p_full by lra. reflexivity. Qed.
Lemma p_reverse_at u : 0 <= u <= p_len p -> p_at d (p_reverse d p) u = p_at d p (p_len p - u).
Proof.
  intros Hu. rewrite p_reverse_eq. pose proof Hp as (L1 & L2 & Hx & Hl & _).
  destruct (Req_dec u 0) as [->|H0].
  { rewrite Rminus_0_r, p_full by lra. unfold p_at, p_compute. simpl. assert (Reqb 0 0 = true) as -> by (apply Reqb_true; auto). reflexivity. }
  unfold p_at at 1, p_compute. simpl.
  assert (Reqb u 0 = false) as -> by (apply Reqb_false; lra). assert (Reqb (qi (p_end p) 0) (qi (p_init p) 0) = false) as -> by (apply Reqb_false; auto).
  simpl. destruct (Rleb (p_len p) u) eqn:E.
  - apply Rleb_true in E. assert (u = p_len p) as -> by lra. rewrite Rminus_eq_0, p_zero. reflexivity.
  - apply Rleb_false in E. rewrite p_inside by lra. unfold interpolateInto. f_equal.
    destruct Hd as (_ & _ & _ & Hsym). rewrite Hsym by auto. f_equal. field. lra.
Qed.

(** extraction *)
Lemma p_extract_len a b : 0 <= a <= p_len p -> 0 <= b <= p_len p -> p_len (p_extract d p a b) = b - a.
Proof.
  intros Ha Hb. pose proof Hp as (L1 & L2 & Hx & Hl & Hc & Hs). unfold p_extract, p_computeLength. simpl.
  pose proof (p_straight a Ha) as Ea. pose proof (p_straight b Hb) as Eb.
  unfold qpos, between, vadd, vscale in Ea, Eb. injection Ea as Ea0 Ea1 _. injection Eb as Eb0 Eb1 _. simpl in *.
  rewrite Ea0, Ea1, Eb0, Eb1. set (th := k_theta (p_coefs p)) in *. pose proof (sin2cos2 th) as S.
  transitivity ((b - a) / p_len p * ((qi (p_end p) 0 - qi (p_init p) 0) * cos th + (qi (p_end p) 1 - qi (p_init p) 1) * sin th)); [field; lra|].
  rewrite <- Hc, <- Hs. transitivity ((b - a) * (sin th * sin th + cos th * cos th)); [field; lra|]. rewrite S. ring.
Qed.
Lemma p_ne a b : 0 <= a <= p_len p -> 0 <= b <= p_len p -> a <> b -> qi (p_at d p a) 0 <> qi (p_at d p b) 0.
Proof.
  intros Ha Hb Hab. pose proof Hp as (L1 & L2 & Hx & Hl & Hc & Hs).
  pose proof (p_straight a Ha) as Ea. pose proof (p_straight b Hb) as Eb.
  unfold qpos, between, vadd, vscale in Ea, Eb. injection Ea as Ea0 Ea1 _. injection Eb as Eb0 Eb1 _. simpl in *.
  rewrite Ea0, Eb0. intros E.
  assert ((a - b) * / p_len p * (qi (p_end p) 0 - qi (p_init p) 0) = 0).
  { transitivity (((1 - a / p_len p) * qi (p_init p) 0 + a / p_len p * qi (p_end p) 0) - ((1 - b / p_len p) * qi (p_init p) 0 + b / p_len p * qi (p_end p) 0)); [field; lra|lra]. }
  pose proof (Rinv_0_lt_compat _ Hl). apply Rmult_integral in H. destruct H as [H|H]; [|lra]. apply Rmult_integral in H. destruct H; lra.
Qed.
Lemma p_extract_path a b : 0 <= a -> a < b -> b <= p_len p -> jump_path d (p_extract d p a b).
Proof.
  intros Ha Hab Hb. pose proof Hp as (L1 & L2 & Hx & Hl & Hc & Hs).
  pose proof (p_straight a ltac:(lra)) as Ea. pose proof (p_straight b ltac:(lra)) as Eb.
  unfold qpos, between, vadd, vscale in Ea, Eb. injection Ea as Ea0 Ea1 _. injection Eb as Eb0 Eb1 _. simpl in *.
  unfold jump_path. rewrite p_extract_len by lra. simpl.
  split; [apply p_length|]. split; [apply p_length|]. split; [apply p_ne; lra|]. split; [lra|]. 
  rewrite Ea0, Ea1, Eb0, Eb1. split.
  - transitivity ((b - a) / p_len p * (qi (p_end p) 0 - qi (p_init p) 0)); [rewrite <- Hc|]; field; lra.
  - transitivity ((b - a) / p_len p * (qi (p_end p) 1 - qi (p_init p) 1)); [rewrite <- Hs|]; field; lra.
Qed.
End one.

Lemma p_reverse_twice p : jump_path d p -> p_reverse d (p_reverse d p) = p.
Proof.
  intros Hp. pose proof Hp as (L1 & L2 & Hx & Hl & Hc & Hs). unfold p_reverse at 1.
  rewrite !p_reverse_at by (auto; simpl; lra). simpl. rewrite Rminus_eq_0, Rminus_0_r. rewrite p_zero, p_full by (auto; lra).
  destruct p; reflexivity.
Qed.

Lemma p_extract_at p a b u : jump_path d p -> 0 <= a -> a < b -> b <= p_len p -> 0 <= u <= b - a ->
  qpos (p_at d (p_extract d p a b) u) = qpos (p_at d p (a + u)).
Proof.
  intros Hp Ha Hab Hb Hu. pose proof (p_extract_path p Hp a b Ha Hab Hb) as Hq.
  rewrite (p_straight _ Hq) by (rewrite p_extract_len by (auto; lra); lra). rewrite p_extract_len by (auto; lra). cbn [p_init p_end p_extract].
  rewrite !(p_straight _ Hp) by lra. pose proof Hp as (_ & _ & _ & Hl & _).
  apply vec3_eq; unfold between, vadd, vscale, qpos; simpl; field; lra.
Qed.
Lemma p_extract_backwards p a b u : jump_path d p -> 0 <= b -> b < a -> a <= p_len p -> 0 < u ->
  p_len (p_extract d p a b) < 0 /\ p_at d (p_extract d p a b) u = p_at d p b.
Proof.
  intros Hp Hb Hab Ha Hu. pose proof (p_extract_len p Hp a b ltac:(lra) ltac:(lra)) as El. split; [lra|].
  unfold p_at at 1, p_compute. rewrite El. cbn [p_init p_end p_extract].
  assert (Reqb u 0 = false) as -> by (apply Reqb_false; lra).
  assert (Reqb (qi (p_at d p a) 0) (qi (p_at d p b) 0) = false) as -> by (apply Reqb_false, p_ne; auto; lra).
  simpl. assert (Rleb (b - a) u = true) as -> by (apply Rleb_true; lra). reflexivity.
Qed.

(** a jump in a plane x = constant never leaves its first configuration *)
Lemma p_stuck p u : qi (p_init p) 0 = qi (p_end p) 0 -> p_at d p u = p_init p.
Proof. intros H. unfold p_at, p_compute. assert (Reqb (qi (p_init p) 0) (qi (p_end p) 0) = true) as -> by (apply Reqb_true; auto). rewrite orb_true_r. reflexivity. Qed.
End paths.
