From Coq Require Import Reals ZArith Lra Lia.
From Verif Require Import SampModel VecProofs ProjProofs2.
From Verif Require Export NodeSpec.
Local Open Scope R_scope.

(** * Finite sums *)
Lemma sumn_ext n f g : (forall k, (k < n)%nat -> f k = g k) -> sumn n f = sumn n g.
Proof. induction n as [|n IH]; intros H; cbn; [reflexivity|]. rewrite IH by (intros; apply H; lia). rewrite H by lia. reflexivity. Qed.
Lemma sumn_plus n f g : sumn n (fun k => f k + g k) = sumn n f + sumn n g.
Proof. induction n as [|n IH]; cbn; [lra|]. rewrite IH. lra. Qed.
Lemma sumn_scale n c f : sumn n (fun k => c * f k) = c * sumn n f.
Proof. induction n as [|n IH]; cbn; [lra|]. rewrite IH. lra. Qed.
Lemma sumn_zero n f : (forall k, (k < n)%nat -> f k = 0) -> sumn n f = 0.
Proof. induction n as [|n IH]; intros H; cbn; [reflexivity|]. rewrite IH by (intros; apply H; lia). rewrite H by lia. lra. Qed.
Lemma sumn_swap n m (f : nat -> nat -> R) : sumn n (fun i => sumn m (f i)) = sumn m (fun j => sumn n (fun i => f i j)).
Proof.
  induction n as [|n IH]; cbn; [symmetry; apply sumn_zero; reflexivity|].
  rewrite IH, <- sumn_plus. reflexivity.
Qed.
Lemma sumn_block b n f : sumn (b * n) f = sumn n (fun p => sumn b (fun r => f (b * p + r)%nat)).
Proof.
  induction n as [|n IH]; [rewrite Nat.mul_0_r; reflexivity|].
  cbn [sumn]. rewrite <- IH. replace (b * S n)%nat with (b * n + b)%nat by lia.
  generalize (b * n)%nat as o. clear. induction b as [|b IHb]; intros o; cbn [sumn].
  - rewrite Nat.add_0_r. lra.
  - rewrite Nat.add_succ_r. cbn [sumn]. rewrite IHb. lra.
Qed.
Lemma sumn_single n p f : (p < n)%nat -> (forall k, (k < n)%nat -> k <> p -> f k = 0) -> sumn n f = f p.
Proof.
  induction n as [|n IH]; intros Hp H; [lia|]. cbn.
  destruct (Nat.eq_dec p n) as [->|Hne].
  - rewrite sumn_zero by (intros k Hk; apply H; lia). lra.
  - rewrite IH by (first [lia | intros k Hk Hkp; apply H; lia]). rewrite (H n) by lia. lra.
Qed.

(** * The matrices *)
Notation point := (vec3 * (nat -> vec3))%type.
Definition minv (x : acc) (L : list point) : Prop :=
  idx x = length L /\ (length L <= np x)%nat /\
  (forall p r p' c, (r < 3)%nat -> (c < 4)%nat ->
     mV x (3 * p + r)%nat (4 * p' + c)%nat =
     match L !! p with Some (_, col) => if Nat.eqb p p' then comp (col c) r else 0 | None => 0 end) /\
  (forall i p r, (i < 6)%nat -> (r < 3)%nat ->
     mIP x i (3 * p + r)%nat =
     match L !! p with
     | Some (pt, _) => if (i <? 3)%nat then identity3 i r else crossMatrix pt (i - 3)%nat r
     | None => 0
     end).

Lemma lookup_snoc {A} (L : list A) y p : (L ++ [y]) !! p = if Nat.eqb p (length L) then Some y else L !! p.
Proof.
  destruct (Nat.eqb_spec p (length L)) as [->|Hne].
  - rewrite lookup_app_r by lia. rewrite Nat.sub_diag. reflexivity.
  - destruct (Nat.lt_ge_cases p (length L)).
    + rewrite lookup_app_l by lia. reflexivity.
    + rewrite lookup_ge_None_2 by (rewrite app_length; cbn; lia). rewrite lookup_ge_None_2 by lia. reflexivity.
Qed.

Lemma putPoint_inv x L p col : minv x L -> (length L < np x)%nat ->
  exists x', putPoint x p col = Ok x' /\ minv x' (L ++ [(p, col)]) /\ np x' = np x.
Proof.
  intros (Hi & Hl & HV & HIP) Hlt. unfold putPoint. rewrite Hi.
  destruct (Nat.ltb_spec (length L) (np x)); [|lia].
  eexists. split; [reflexivity|]. split; [|reflexivity].
  split; [cbn; rewrite app_length; cbn; lia|]. split; [cbn; rewrite app_length; cbn; lia|]. split.
  - intros q r q' c Hr Hc. cbn [mV]. unfold setBlock. rewrite lookup_snoc.
    specialize (HV q r q' c Hr Hc).
    destruct (Nat.eqb_spec q (length L)) as [->|Hq].
    + destruct (Nat.eqb_spec (length L) q') as [<-|Hq'].
      * replace ((3 * length L <=? 3 * length L + r)%nat) with true by (symmetry; apply Nat.leb_le; lia).
        replace ((3 * length L + r <? 3 * length L + 3)%nat) with true by (symmetry; apply Nat.ltb_lt; lia).
        replace ((4 * length L <=? 4 * length L + c)%nat) with true by (symmetry; apply Nat.leb_le; lia).
        replace ((4 * length L + c <? 4 * length L + 4)%nat) with true by (symmetry; apply Nat.ltb_lt; lia).
        cbn [andb]. replace (4 * length L + c - 4 * length L)%nat with c by lia.
        replace (3 * length L + r - 3 * length L)%nat with r by lia. rewrite ?Nat.eqb_refl. reflexivity.
      * rewrite (lookup_ge_None_2 L (length L)) in HV by lia. rewrite ?Nat.eqb_refl.
        destruct (Nat.leb_spec (4 * length L) (4 * q' + c)); destruct (Nat.ltb_spec (4 * q' + c) (4 * length L + 4));
          rewrite ?andb_false_r; cbn [andb]; try exact HV. lia.
    + destruct (Nat.leb_spec (3 * length L) (3 * q + r)); destruct (Nat.ltb_spec (3 * q + r) (3 * length L + 3));
        cbn [andb]; try exact HV. lia.
  - intros i q r Hi6 Hr. cbn [mIP]. unfold setBlock. rewrite lookup_snoc.
    specialize (HIP i q r Hi6 Hr).
    destruct (Nat.eqb_spec q (length L)) as [->|Hq].
    + replace ((3 * length L <=? 3 * length L + r)%nat) with true by (symmetry; apply Nat.leb_le; lia).
      replace ((3 * length L + r <? 3 * length L + 3)%nat) with true by (symmetry; apply Nat.ltb_lt; lia).
      rewrite !andb_true_r.
      destruct (Nat.ltb_spec i 3) as [Hi3|Hi3].
      * replace ((3 <=? i)%nat) with false by (symmetry; apply Nat.leb_gt; lia).
        cbn [andb Nat.leb]. replace ((i <? 0 + 3)%nat) with true by (symmetry; apply Nat.ltb_lt; lia).
        f_equal; lia.
      * replace ((3 <=? i)%nat) with true by (symmetry; apply Nat.leb_le; lia).
        replace ((i <? 3 + 3)%nat) with true by (symmetry; apply Nat.ltb_lt; lia). cbn [andb].
        f_equal; lia.
    + destruct (Nat.leb_spec (3 * length L) (3 * q + r)); destruct (Nat.ltb_spec (3 * q + r) (3 * length L + 3));
        rewrite ?andb_false_r; cbn [andb]; try exact HIP. lia.
Qed.

Definition contact_point_of (mu : R) (c : contact) : vec3 * (nat -> vec3) :=
  (cpos c, rays mu (cnormal c) (ctan1 c) (ctan2 c)).

Definition model_contacts (rect : bool) (sx sy : R) (tq n p : vec3) : list contact :=
  let t1 := tangent1 n tq in let t2 := vcross n t1 in
  map (fun x => Contact x n t1 t2)
    (if rect then [vadd (vadd p (vscale sx t2)) (vscale sy t1); vsub (vadd p (vscale sx t2)) (vscale sy t1);
                   vadd (vsub p (vscale sx t2)) (vscale sy t1); vsub (vsub p (vscale sx t2)) (vscale sy t1)]
     else [p]).

Lemma onePoint_inv x L n p sx sy (rect : bool) mu tq : minv x L -> (length L + (if rect then 4 else 1) <= np x)%nat ->
  exists x', onePoint n p sx sy rect mu tq x = Ok x' /\
    minv x' (L ++ map (contact_point_of mu) (model_contacts rect sx sy tq n p)) /\ np x' = np x.
Proof.
  intros Hx Hl. unfold onePoint. destruct rect.
  - cbn [model_contacts map]. unfold contact_point_of. cbn [cpos cnormal ctan1 ctan2].
    set (col := rays mu n (tangent1 n tq) (vcross n (tangent1 n tq))).
    set (sX := vscale sx (vcross n (tangent1 n tq))). set (sY := vscale sy (tangent1 n tq)).
    change (corner p sX sY 0) with (vadd (vadd p sX) sY). change (corner p sX sY 1) with (vsub (vadd p sX) sY).
    change (corner p sX sY 2) with (vadd (vsub p sX) sY). change (corner p sX sY 3) with (vsub (vsub p sX) sY).
    destruct (putPoint_inv x L (vadd (vadd p sX) sY) col Hx ltac:(lia)) as (x1 & -> & H1 & E1). cbn [nbind].
    assert (L1 : forall l : list point, (length (l ++ [(vadd (vadd p sX) sY, col)]) = S (length l))%nat) by (intros; rewrite app_length; cbn; lia).
    edestruct (putPoint_inv x1 _ (vsub (vadd p sX) sY) col H1) as (x2 & -> & H2 & E2); [rewrite app_length; cbn; lia|]. cbn [nbind].
    edestruct (putPoint_inv x2 _ (vadd (vsub p sX) sY) col H2) as (x3 & -> & H3 & E3); [rewrite !app_length; cbn; lia|]. cbn [nbind].
    edestruct (putPoint_inv x3 _ (vsub (vsub p sX) sY) col H3) as (x4 & -> & H4 & E4); [rewrite !app_length; cbn; lia|].
    exists x4. split; [reflexivity|]. split; [|congruence].
    rewrite <- !app_assoc in H4. exact H4.
  - destruct (putPoint_inv x L p (rays mu n (tangent1 n tq) (vcross n (tangent1 n tq))) Hx ltac:(lia)) as (x1 & E & H1 & E1).
    exists x1. split; [exact E|]. split; [exact H1|exact E1].
Qed.

Section Fill.
Context (approx : string -> bool * vec3 * vec3).

Definition all_contacts (rect : bool) (sx sy : R) (tq : vec3) (roms : list string) : list contact :=
  concat (map (fun r => model_contacts rect sx sy tq (snd (fst (approx r))) (snd (approx r))) roms).

Lemma model_contacts_length (rect : bool) sx sy tq n p : length (model_contacts rect sx sy tq n p) = (if rect then 4 else 1)%nat.
Proof. destruct rect; reflexivity. Qed.
Lemma all_contacts_length (rect : bool) sx sy tq roms :
  length (all_contacts rect sx sy tq roms) = (length roms + 3 * (if rect then 1 else 0) * length roms)%nat.
Proof.
  unfold all_contacts. induction roms as [|r roms IH]; [cbn; destruct rect; reflexivity|].
  cbn [map concat]. rewrite app_length, IH, model_contacts_length. destruct rect; cbn; lia.
Qed.

Lemma allPoints_inv roms sx sy (rect : bool) mu tq : forall x L, minv x L ->
  (length L + length (all_contacts rect sx sy tq roms) <= np x)%nat ->
  exists x', allPoints approx roms sx sy rect mu tq x = Ok x' /\
    minv x' (L ++ map (contact_point_of mu) (all_contacts rect sx sy tq roms)) /\ np x' = np x.
Proof.
  induction roms as [|r roms IH]; intros x L Hx Hl.
  - exists x. split; [reflexivity|]. split; [|reflexivity]. cbn. rewrite app_nil_r. exact Hx.
  - cbn [allPoints]. unfold all_contacts in *. cbn [map concat] in *. destruct (approx r) as [[b n] p] eqn:Ea. cbn [fst snd] in *.
    rewrite app_length, model_contacts_length in Hl.
    destruct (onePoint_inv x L n p sx sy rect mu tq Hx ltac:(destruct rect; lia)) as (x1 & -> & H1 & E1).
    cbn [nbind]. destruct (IH x1 _ H1) as (x2 & -> & H2 & E2).
    { rewrite app_length, map_length, model_contacts_length. destruct rect; lia. }
    exists x2. split; [reflexivity|]. split; [|congruence].
    rewrite map_app, app_assoc. exact H2.
Qed.
End Fill.

(** * What [G f] is *)
Section Prod.
Context (n : nat) (L : list point) (x : acc) (Hx : minv x L) (HL : length L = n) (f : nat -> R).

(** the force at point [p] *)
Definition force_at (col : nat -> vec3) (p : nat) : vec3 :=
  vadd (vadd (vscale (f (4 * p + 0)%nat) (col 0%nat)) (vscale (f (4 * p + 1)%nat) (col 1%nat)))
       (vadd (vscale (f (4 * p + 2)%nat) (col 2%nat)) (vscale (f (4 * p + 3)%nat) (col 3%nat))).

Lemma V_times p r col pt : (r < 3)%nat -> L !! p = Some (pt, col) ->
  sumn (4 * n) (fun j => mV x (3 * p + r)%nat j * f j) = comp (force_at col p) r.
Proof.
  intros Hr Hp. destruct Hx as (_ & _ & HV & _).
  assert (Hpn : (p < n)%nat) by (apply lookup_lt_Some in Hp; lia).
  rewrite sumn_block, (sumn_single n p); [|exact Hpn|].
  - cbn [sumn]. rewrite !HV by lia. rewrite Hp, Nat.eqb_refl.
    unfold force_at. destruct r as [|[|[|r]]]; [| | |lia]; cbn; ring.
  - intros q Hq Hne. apply sumn_zero. intros c Hc. rewrite HV by lia. rewrite Hp.
    destruct (Nat.eqb_spec p q); [congruence|]. ring.
Qed.

Definition Gm : matx := fun i j => sumn (3 * n) (fun k => mIP x i k * mV x k j).

Lemma G_times i : (i < 6)%nat -> sumn (4 * n) (fun j => Gm i j * f j) =
  sumn n (fun p => match L !! p with
    | Some (pt, col) => if (i <? 3)%nat then comp (force_at col p) i else comp (vcross pt (force_at col p)) (i - 3)
    | None => 0 end).
Proof.
  intros Hi. unfold Gm.
  transitivity (sumn (3 * n) (fun k => mIP x i k * sumn (4 * n) (fun j => mV x k j * f j))).
  { transitivity (sumn (4 * n) (fun j => sumn (3 * n) (fun k => mIP x i k * (mV x k j * f j)))).
    - apply sumn_ext. intros j _. rewrite Rmult_comm, <- sumn_scale. apply sumn_ext. intros k _. ring.
    - rewrite sumn_swap. apply sumn_ext. intros k _. rewrite <- sumn_scale. reflexivity. }
  rewrite sumn_block. apply sumn_ext. intros p Hp.
  destruct (lookup_lt_is_Some_2 L p ltac:(lia)) as [[pt col] Hpc]. rewrite Hpc.
  pose proof Hx as (_ & _ & _ & HIP).
  cbn [sumn]. rewrite !(V_times p _ col pt) by (first [lia | exact Hpc]). rewrite !HIP by lia. rewrite Hpc.
  destruct i as [|[|[|[|[|[|i]]]]]]; [| | | | | |lia]; cbn; unfold identity3, crossMatrix; cbn; ring.
Qed.
End Prod.

(** * Rays and pyramid *)
Lemma dot_cross_self n t : vdot n (vcross n t) = 0.
Proof. unfold vdot, vcross. cbn. ring. Qed.

Lemma ray_nonzero n t s mu : vnorm2 n = 1 -> vdot n t = 0 -> (s = mu \/ s = - mu) -> vadd n (vscale s t) <> vzero.
Proof.
  intros Hn Ht _ E. assert (H : vdot n (vadd n (vscale s t)) = 0) by (rewrite E; unfold vdot, vzero; cbn; ring).
  replace (vdot n (vadd n (vscale s t))) with (vnorm2 n + s * vdot n t) in H by (unfold vnorm2, vdot, vadd, vscale; cbn; ring).
  rewrite Hn, Ht in H. lra.
Qed.

Lemma vsub_scale n t mu : vsub n (vscale mu t) = vadd n (vscale (- mu) t).
Proof. unfold vsub, vadd, vscale. cbn. apply (f_equal3 V3); ring. Qed.

Definition ray_dir (mu : R) (n t1 t2 : vec3) (j : nat) : vec3 :=
  match j with O => vadd n (vscale mu t1) | S O => vadd n (vscale (- mu) t1) | S (S O) => vadd n (vscale mu t2) | _ => vadd n (vscale (- mu) t2) end.

Lemma ray_scale mu n t1 t2 j : vnorm2 n = 1 -> vdot n t1 = 0 -> vdot n t2 = 0 ->
  exists k, 0 < k /\ rays mu n t1 t2 j = vscale k (ray_dir mu n t1 t2 j).
Proof.
  intros Hn H1 H2. unfold rays, ray_dir.
  destruct j as [|[|[|j]]]; rewrite ?vsub_scale; apply vnormalize_scale; eapply ray_nonzero with (mu := mu); eauto.
Qed.

Lemma pyramid_of_coeffs mu c f p : vnorm2 (cnormal c) = 1 -> vdot (cnormal c) (ctan1 c) = 0 -> vdot (cnormal c) (ctan2 c) = 0 -> 0 <= mu ->
  (forall j, (j < 4)%nat -> 0 <= f (4 * p + j)%nat) ->
  in_pyramid mu c (force_at f (rays mu (cnormal c) (ctan1 c) (ctan2 c)) p).
Proof.
  intros Hn H1 H2 Hmu Hf. destruct c as [cp n t1 t2]. cbn [cpos cnormal ctan1 ctan2] in *.
  destruct (ray_scale mu n t1 t2 0 Hn H1 H2) as (k0 & P0 & E0). destruct (ray_scale mu n t1 t2 1 Hn H1 H2) as (k1 & P1 & E1).
  destruct (ray_scale mu n t1 t2 2 Hn H1 H2) as (k2 & P2 & E2). destruct (ray_scale mu n t1 t2 3 Hn H1 H2) as (k3 & P3 & E3).
  unfold force_at. rewrite E0, E1, E2, E3. cbn [ray_dir].
  set (l0 := f (4 * p + 0)%nat * k0). set (l1 := f (4 * p + 1)%nat * k1). set (l2 := f (4 * p + 2)%nat * k2). set (l3 := f (4 * p + 3)%nat * k3).
  assert (0 <= l0) by (apply Rmult_le_pos; [apply Hf; lia|lra]). assert (0 <= l1) by (apply Rmult_le_pos; [apply Hf; lia|lra]).
  assert (0 <= l2) by (apply Rmult_le_pos; [apply Hf; lia|lra]). assert (0 <= l3) by (apply Rmult_le_pos; [apply Hf; lia|lra]).
  exists (l0 + l1 + l2 + l3), (mu * (l0 - l1)), (mu * (l2 - l3)). cbn [cnormal ctan1 ctan2]. split.
  { unfold l0, l1, l2, l3, vadd, vscale. cbn. apply (f_equal3 V3); ring. }
  split; [lra|]. rewrite !Rabs_mult, !(Rabs_right mu) by lra.
  assert (Rabs (l0 - l1) <= l0 + l1) by (apply Rabs_le; lra). assert (Rabs (l2 - l3) <= l2 + l3) by (apply Rabs_le; lra).
  nra.
Qed.

Lemma coeffs_of_pyramid mu c F : vnorm2 (cnormal c) = 1 -> vdot (cnormal c) (ctan1 c) = 0 -> vdot (cnormal c) (ctan2 c) = 0 -> 0 <= mu ->
  in_pyramid mu c F -> exists g : nat -> R, (forall j, 0 <= g j) /\
    F = vadd (vadd (vscale (g 0%nat) (rays mu (cnormal c) (ctan1 c) (ctan2 c) 0)) (vscale (g 1%nat) (rays mu (cnormal c) (ctan1 c) (ctan2 c) 1)))
       (vadd (vscale (g 2%nat) (rays mu (cnormal c) (ctan1 c) (ctan2 c) 2)) (vscale (g 3%nat) (rays mu (cnormal c) (ctan1 c) (ctan2 c) 3))).
Proof.
  intros Hn H1 H2 Hmu (al & be & ga & -> & Ha & Hbg). destruct c as [cp n t1 t2]. cbn [cpos cnormal ctan1 ctan2] in *.
  destruct (ray_scale mu n t1 t2 0 Hn H1 H2) as (k0 & P0 & E0). destruct (ray_scale mu n t1 t2 1 Hn H1 H2) as (k1 & P1 & E1).
  destruct (ray_scale mu n t1 t2 2 Hn H1 H2) as (k2 & P2 & E2). destruct (ray_scale mu n t1 t2 3 Hn H1 H2) as (k3 & P3 & E3).
  rewrite E0, E1, E2, E3. cbn [ray_dir].
  (* coefficients of the rays before normalisation *)
  assert (Hl : exists l0 l1 l2 l3, 0 <= l0 /\ 0 <= l1 /\ 0 <= l2 /\ 0 <= l3 /\
      l0 + l1 + l2 + l3 = al /\ mu * (l0 - l1) = be /\ mu * (l2 - l3) = ga).
  { destruct (Req_dec mu 0) as [->|Hm].
    - assert (be = 0 /\ ga = 0).
      { pose proof (Rabs_pos be). pose proof (Rabs_pos ga). split.
        - destruct (Req_dec be 0) as [|Hb]; [assumption|]. apply Rabs_pos_lt in Hb. lra.
        - destruct (Req_dec ga 0) as [|Hb]; [assumption|]. apply Rabs_pos_lt in Hb. lra. }
      exists al, 0, 0, 0. repeat split; lra.
    - assert (Hmp : 0 < mu) by lra.
      set (b := be / mu). set (g := ga / mu).
      assert (Hb : mu * b = be) by (unfold b; field; lra). assert (Hg : mu * g = ga) by (unfold g; field; lra).
      assert (Hs : Rabs b + Rabs g <= al).
      { apply Rmult_le_reg_l with mu; [exact Hmp|]. rewrite Rmult_plus_distr_l.
        rewrite <- (Rabs_right mu) at 1 2 by lra. rewrite <- !Rabs_mult, Hb, Hg. exact Hbg. }
      exists ((al - Rabs b - Rabs g) / 2 + (Rabs b + b) / 2), ((al - Rabs b - Rabs g) / 2 + (Rabs b - b) / 2),
        ((Rabs g + g) / 2), ((Rabs g - g) / 2).
      pose proof (Rle_abs b). pose proof (Rle_abs (- b)). rewrite Rabs_Ropp in *.
      pose proof (Rle_abs g). pose proof (Rle_abs (- g)). rewrite Rabs_Ropp in *.
      repeat split; lra. }
  destruct Hl as (l0 & l1 & l2 & l3 & Q0 & Q1 & Q2 & Q3 & Es & Eb & Eg).
  exists (fun j => match j with O => l0 / k0 | S O => l1 / k1 | S (S O) => l2 / k2 | _ => l3 / k3 end). split.
  { intros [|[|[|j]]]; (apply Rmult_le_pos; [assumption|left; apply Rinv_0_lt_compat; assumption]). }
  subst al be ga. unfold vadd, vscale. cbn. apply (f_equal3 V3); field; lra.
Qed.

Lemma finite_choice {A} (d : A) n (P : nat -> A -> Prop) : (forall p, (p < n)%nat -> exists a, P p a) ->
  exists g, forall p, (p < n)%nat -> P p (g p).
Proof.
  induction n as [|n IH]; intros H; [exists (fun _ => d); lia|].
  destruct IH as [g Hg]; [intros; apply H; lia|]. destruct (H n ltac:(lia)) as [a Ha].
  exists (fun p => if Nat.eqb p n then a else g p). intros p Hp.
  destruct (Nat.eqb_spec p n) as [->|]; [exact Ha|]. apply Hg. lia.
Qed.

(** * The sums over the contacts *)
Lemma vsum_sumn Fs i : (i < 3)%nat -> comp (vsum Fs) i = sumn (length Fs) (fun p => comp (nth p Fs vzero) i).
Proof.
  intros Hi. induction Fs as [|F Fs IH] using rev_ind.
  - cbn. destruct i as [|[|[|i]]]; reflexivity.
  - rewrite app_length. cbn [length]. rewrite Nat.add_1_r. cbn [sumn].
    rewrite app_nth2, Nat.sub_diag by lia. cbn [nth].
    assert (E : comp (vsum (Fs ++ [F])) i = comp (vsum Fs) i + comp F i).
    { clear. unfold vsum. rewrite foldr_app. cbn [foldr].
      replace (vadd F vzero) with F by (destruct F; unfold vadd, vzero; cbn; apply (f_equal3 V3); ring).
      induction Fs as [|G Fs IH]; cbn [foldr].
      - destruct i as [|[|i]]; cbn; ring.
      - destruct i as [|[|i]]; cbn in *; rewrite IH; ring. }
    rewrite E, IH. f_equal. apply sumn_ext. intros k Hk. rewrite app_nth1 by lia. reflexivity.
Qed.

Lemma moments_vsum cs Fs : length cs = length Fs ->
  moments cs Fs = vsum (map (fun p => vcross (cpos (fst p)) (snd p)) (zip cs Fs)).
Proof.
  revert Fs. induction cs as [|c cs IH]; intros [|F Fs]; cbn; try reflexivity; try discriminate.
  intros H. rewrite IH by lia. reflexivity.
Qed.

Lemma comp_ext a b : (forall i, (i < 3)%nat -> comp a i = comp b i) -> a = b.
Proof. intros H. apply vec3_ext; [apply (H 0%nat)|apply (H 1%nat)|apply (H 2%nat)]; lia. Qed.
