(** Concrete services for the hypotheses of the optimizer theorems. *)
From Coq Require Import Reals ZArith Lra Lia.
From Verif Require Import VecProofs.
From Verif Require Export OptProofs2 OptProofs3.
Local Open Scope R_scope.

(** paths on a line: from, to, length *)
Definition xE : Type := R * R * R.
Definition xinit (e : xE) : list R := [fst (fst e)].
Definition xend (e : xE) : list R := [snd (fst e)].
Definition xlen (e : xE) : R := snd e.
Definition xfirst (p : list xE) : R := match p with e :: _ => fst (fst e) | [] => 0 end.
Definition xlast (p : list xE) : R := match last p with Some e => snd (fst e) | None => 0 end.
Definition xpos (p : list xE) (t : R) : R :=
  if Reqb t 0 then xfirst p else if Reqb t (total xlen p) then xlast p
  else xfirst p + (xlast p - xfirst p) * (t / total xlen p).
Definition xeval (p : list xE) (t : R) : option (list R) := Some [xpos p t].
Definition xextract (p : list xE) (a b : R) : option (list xE) := Some [(xpos p a, xpos p b, b - a)].
Definition xsm (q q' : list R) : option xE :=
  match q, q' with [x], [y] => Some (x, y, y - x) | _, _ => None end.
Definition xproj : option (xE -> option xE) := Some (fun e => Some e).

Lemma xfaithful : faithful_extraction xinit xend xlen xeval xextract.
Proof.
  intros p a b p' qi qf Hj Ha Hb [= <-]. split; [cbn; unfold xlen; cbn; lra|].
  destruct p as [|e0 p]; [cbn in Hb; lra|].
  assert (Hpos : forall t q, 0 <= t <= total xlen (e0 :: p) -> 0 < total xlen (e0 :: p) -> at_time xinit xend xlen xeval (e0 :: p) t q -> q = [xpos (e0 :: p) t]).
  { intros t q Ht Ht0 [H|[[-> [b' [H _]]]|[-> [a' H]]]].
    - injection H as <-. reflexivity.
    - unfold xpos. replace (Reqb 0 0) with true by (symmetry; apply Reqb_true; reflexivity). symmetry. exact H.
    - unfold xpos. destruct (Reqb _ 0) eqn:E0; [apply Reqb_true in E0; lra|].
      replace (Reqb _ _) with true by (symmetry; apply Reqb_true; reflexivity).
      unfold xlast. destruct (last (e0 :: p)) as [e1|] eqn:El; [|apply last_None in El; discriminate].
      symmetry. exact (joins_last _ _ _ _ _ H El). }
  intros qa qb Hqa Hqb. rewrite (Hpos a qa), (Hpos b qb) by (first [lra | assumption]).
  cbn. auto.
Qed.
Lemma xext : extraction_succeeds xlen xextract.
Proof. intros p a b _ _. discriminate. Qed.
Lemma xevals : evaluation_succeeds xlen xeval.
Proof. intros p t _. discriminate. Qed.
Lemma xprojk : projector_keeps_ends xinit xend xproj.
Proof. intros f e e' [= <-] [= <-]. auto. Qed.

Definition xpath : list xE := [(0, 1, 10)].
Lemma xpath_joins : joins xinit xend xpath [0] [1].
Proof. cbn. auto. Qed.

Local Ltac rtrue := replace (Rltb _ _) with true by (symmetry; apply Rltb_true; cbn; lra).

Lemma Rltb_t a b : a < b -> Rltb a b = true. Proof. apply Rltb_true. Qed.
Lemma Rltb_f a b : b <= a -> Rltb a b = false. Proof. apply Rltb_false. Qed.
Lemma Rleb_f a b : b < a -> Rleb a b = false. Proof. apply Rleb_false. Qed.
Lemma Rleb_t a b : a <= b -> Rleb a b = true. Proof. apply Rleb_true. Qed.
Lemma Reqb_t a b : a = b -> Reqb a b = true. Proof. apply Reqb_true. Qed.
Lemma Reqb_f a b : a <> b -> Reqb a b = false.
Proof. intros H. destruct (Reqb a b) eqn:He; [|reflexivity]. apply Reqb_true in He. contradiction. Qed.

Lemma ceqb_refl a : ceqb a a = true.
Proof. induction a as [|x a IH]; cbn; [reflexivity|]. rewrite IH, Reqb_t by reflexivity. reflexivity. Qed.

Lemma xsteer x y : 1 / 1000 < y - x ->
  steer xE xinit xend xlen xsm xproj [x] [y] = Some (x, y, y - x).
Proof.
  intros H. unfold steer, xsm, xinit, xend. cbn [fst snd]. rewrite !ceqb_refl. cbn [negb orb].
  rewrite Rleb_f by exact H. reflexivity.
Qed.

Lemma xtest x y t t' v : 1 / 1000 < y - x -> y - x < t' - t -> v = Some (x, y, y - x) ->
  testPart xE xinit xend xlen xextract xsm xproj (fun _ => true) xpath [x] [y] t t' = Ok v.
Proof.
  intros H1 H2 ->. unfold testPart. rewrite xsteer by exact H1. cbn [xextract pvlen foldr].
  unfold xlen. cbn [snd]. rewrite Rltb_t by lra. reflexivity.
Qed.

Lemma xpos_mid t : 0 < t < 10 -> xpos xpath t = t / 10.
Proof.
  intros H. unfold xpos. rewrite Reqb_f by lra. rewrite Reqb_f by (cbn; unfold xlen; cbn; lra).
  unfold xfirst, xlast, xpath. cbn. unfold xlen. cbn. field.
Qed.

Definition xst0 : ost xE := mkOst xE [xpath] 0 None 1 [Some 10] false.
Definition xnew : list xE := [(0, 3 / 10, 3 / 10 - 0); (3 / 10, 7 / 10, 7 / 10 - 3 / 10); (7 / 10, 1, 1 - 7 / 10)].
Definition xst1 : ost xE := mkOst xE [xpath; xnew] 1 (Some 1%nat) 1 [Some (pvlen xE xlen xnew)] true.

Lemma xpathlen : pvlen xE xlen xpath = 10.
Proof. unfold pvlen, xpath, xlen; cbn; lra. Qed.
Lemma xnewlen : pvlen xE xlen xnew = 1.
Proof. unfold pvlen, xnew, xlen; cbn; lra. Qed.

Lemma xround : round xE xinit xend xlen xeval xextract xsm xproj (fun _ => true) 1 [0] [1] 3 7 xst0 = Ok xst1.
Proof.
  unfold round. change (contents xE (hp xE xst0) (cur xE xst0)) with xpath. rewrite xpathlen.
  unfold xeval at 1 2. rewrite !xpos_mid by lra.
  rewrite (xtest 0 (3 / 10) 0 3 (Some (0, 3 / 10, 3 / 10 - 0))) by (try reflexivity; lra). cbn [ubind].
  rewrite (xtest (3 / 10) (7 / 10) 3 7 (Some (3 / 10, 7 / 10, 7 / 10 - 3 / 10))) by (try reflexivity; lra). cbn [ubind].
  rewrite (xtest (7 / 10) 1 7 10 (Some (7 / 10, 1, 1 - 7 / 10))) by (try reflexivity; lra). cbn [ubind].
  change (fold_left _ _ _) with ([xpath; xnew], 1%nat, 1%Z). cbv beta iota zeta.
  change (contents xE [xpath; xnew] 1) with xnew.
  change (lens xE xst0 !! (1 - 1)%nat) with (Some (Some 10)). cbv beta iota.
  unfold inf_sub_le at 1. rewrite xnewlen, Rleb_f.
  2:{ unfold depsilon. assert (/ 2 ^ 52 <= / 2 ^ 4).
      { apply Rinv_le_contravar; [lra|]. apply Rle_pow; [lra|lia]. } lra. }
  change (tail (lens xE xst0)) with (@nil (option R)). cbn [app]. cbn [lookup list_lookup Nat.sub].
  unfold inf_sub_le. rewrite Rleb_t by lra. unfold xst1. rewrite xnewlen. reflexivity.
Qed.

(** one round shortens the path *)
Lemma xrun : shortcut xE xinit xend xlen xeval xextract xsm xproj (fun _ => true) 1 xpath [3 / 4; 1 / 4] =
  (1%nat, Some (Ok (1%nat, [xpath; xnew]))).
Proof.
  assert (Em : Rmin 1 (pvlen xE xlen xpath * (1 / 5)) = 1) by (rewrite xpathlen; apply Rmin_left; lra).
  assert (Es : sample 1 10 [3 / 4; 1 / 4] = Some (3, 7, [])).
  { cbn [sample]. rewrite (Rltb_t (0 + 1 + (10 - 0 - 2 * 1) * (1 / 4))) by lra.
    rewrite !Rltb_f by lra. cbn [orb]. apply (f_equal Some). apply (f_equal2 pair); [|reflexivity]. apply (f_equal2 pair); lra. }
  change (shortcut xE xinit xend xlen xeval xextract xsm xproj (fun _ => true) 1 xpath [3 / 4; 1 / 4])
    with (rounds xE xinit xend xlen xeval xextract xsm xproj (fun _ => true) 2 1
            (Rmin 1 (pvlen xE xlen xpath * (1 / 5))) [0] [1]
            (mkOst xE [xpath] 0 None 1 [Some (pvlen xE xlen xpath)] false) [3 / 4; 1 / 4] 0).
  rewrite Em, xpathlen. fold xst0. cbn [rounds].
  change (fin xE xst0 || (perr xE xst0 =? 0)%Z) with false. cbv iota.
  change (contents xE (hp xE xst0) (cur xE xst0)) with xpath. rewrite xpathlen, Es. cbv iota beta.
  rewrite xround. reflexivity.
Qed.

Lemma xbound : total xlen xpath <= 3 * Rmin 1 (total xlen xpath / 5) * (10001 / 10000) ^ Z.to_nat 24000.
Proof.
  assert (E : total xlen xpath = 10) by (unfold xpath, xlen; cbn; lra). rewrite E.
  rewrite Rmin_left by lra.
  pose proof (poly (Z.to_nat 24000) (1 / 10000) ltac:(lra)) as Hp.
  replace (1 + 1 / 10000) with (10001 / 10000) in Hp by lra.
  replace (INR (Z.to_nat 24000)) with 24000 in Hp by (rewrite INR_IZR_INZ, Z2Nat.id by lia; reflexivity). lra.
Qed.

Lemma xstarts : extraction_keeps_start xinit xextract.
Proof.
  intros q p b p' _ (e & He & Hq) [= <-]. eexists. split; [reflexivity|]. rewrite <- Hq. unfold xinit. cbn. f_equal.
  unfold xpos. rewrite Reqb_t by reflexivity. destruct p as [|e' p]; [discriminate|]. injection He as ->. reflexivity.
Qed.

(** parts starting at 0 cannot be extracted, nothing is steered *)
Definition xfail (p : list xE) (a b : R) : option (list xE) := if Reqb a 0 then None else xextract p a b.
Lemma xfails : extraction_keeps_start xinit xfail.
Proof. intros q p b p' Hb Hs. unfold xfail. rewrite Reqb_t by reflexivity. discriminate. Qed.

Lemma xsample : sample 1 10 [3 / 4; 1 / 4] = Some (3, 7, []).
Proof.
  cbn [sample]. rewrite (Rltb_t (0 + 1 + (10 - 0 - 2 * 1) * (1 / 4))) by lra.
  rewrite !Rltb_f by lra. cbn [orb]. apply (f_equal Some). apply (f_equal2 pair); [|reflexivity]. apply (f_equal2 pair); lra.
Qed.
Definition xbad : list xE := xpath ++ [(3 / 10, 7 / 10, 7 - 3)] ++ [(xpos (xpath ++ [(3 / 10, 7 / 10, 7 - 3)]) 7, xpos (xpath ++ [(3 / 10, 7 / 10, 7 - 3)]) 10, 10 - 7)].
Lemma xbadlen : pvlen xE xlen xbad = 17.
Proof. unfold pvlen, xbad, xpath, xlen; cbn; lra. Qed.
Lemma xround_fail n pe (lens0 : list (option R)) : lens0 !! (n - 1)%nat = Some (Some 10) ->
  round xE xinit xend xlen xeval xfail (fun _ _ => None) None (fun _ => true) n [0] [1] 3 7 (mkOst xE [xpath] 0 None pe lens0 false) =
  Ok (mkOst xE [xbad; []] 0 (Some 0%nat) (pdec (pdec pe)) lens0 false).
Proof.
  intros Hl. unfold round. cbn [hp cur res lens perr fin]. change (contents xE [xpath] 0) with xpath. rewrite xpathlen.
  unfold xeval at 1 2. unfold testPart, steer. cbn [ubind fold_left app]. unfold addPart.
  change (contents xE [xpath; []] 0) with xpath. unfold xfail. rewrite (Reqb_t 0 0), (Reqb_f 3 0), (Reqb_f 7 0) by lra.
  unfold xextract. rewrite !xpos_mid by lra.
  replace (3 / 10) with (3 * / 10) by lra.
  change (appendTo xE [xpath; []] 0 ?x) with [xpath ++ x; []]. change (contents xE [?x; []] 0) with x.
  change (appendTo xE [?y; []] 0 ?x) with [y ++ x; []]. rewrite Hl.
  change (contents xE [?x; []] 0) with x.
  unfold inf_sub_le. rewrite Rleb_t; [|unfold depsilon; pose proof (Rinv_0_lt_compat (2 ^ 52) ltac:(apply pow_lt; lra))].
  - rewrite <- app_assoc. reflexivity.
  - change (pvlen xE xlen _) with (pvlen xE xlen xbad). rewrite xbadlen. lra.
Qed.

Notation xfailing n rs := (shortcut xE xinit xend xlen xeval xfail (fun _ _ => None) None (fun _ => true) n xpath rs).
Lemma xrun_fail : xfailing 2%nat [3 / 4; 1 / 4] = (1%nat, Some (Ok (0%nat, [xbad; []]))).
Proof.
  assert (Em : Rmin 1 (pvlen xE xlen xpath * (1 / 5)) = 1) by (rewrite xpathlen; apply Rmin_left; lra).
  unfold shortcut. cbn [last xpath]. fold xpath. cbn [Nat.eqb length]. rewrite Em, xpathlen.
  match goal with |- context [mkOst _ _ _ _ _ ?l _] => change l with [None; Some 10] end.
  change (xinit (0, 1, 10)) with [0]. change (xend (0, 1, 10)) with [1].
  set (s0 := mkOst xE [xpath] 0 None (Z.of_nat 2) [None; Some 10] false).
  set (s1 := mkOst xE [xbad; []] 0 (Some 0%nat) (pdec (pdec (Z.of_nat 2))) [None; Some 10] false).
  assert (Er : round xE xinit xend xlen xeval xfail (fun _ _ => None) None (fun _ => true) 2 [0] [1] 3 7 s0 = Ok s1)
    by exact (xround_fail 2 (Z.of_nat 2) [None; Some 10] eq_refl).
  cbn [rounds]. change (fin xE s0 || (perr xE s0 =? 0)%Z) with false. cbv iota.
  change (contents xE (hp xE s0) (cur xE s0)) with xpath. rewrite xpathlen, xsample. cbv iota beta.
  rewrite Er. reflexivity.
Qed.
Lemma xbad_joins : ~ exists q, joins xinit xend xbad [0] q.
Proof. intros [q [_ [H _]]]. unfold xinit, xend in H. cbn in H. injection H as H. lra. Qed.
