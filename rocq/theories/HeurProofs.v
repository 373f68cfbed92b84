(** Proofs about the contact tools of the heuristics. *)
From Coq Require Import Psatz.
From Verif Require Import Maps MapsProofs Vec VecProofs GeomModel GeomSpec GeomProofs3 HeurModel HeurSpec.
Local Open Scope R_scope.

(** ** removeNonGroundContacts *)
Lemma min_fold (l : list (string * vec3)) : forall m0,
  let m := fold_left (fun m (kv : string * vec3) => if Rltb (vz kv.2) m then vz kv.2 else m) l m0 in
  m <= m0 /\ (forall kv, kv ∈ l -> m <= vz kv.2) /\ (m = m0 \/ exists kv, kv ∈ l /\ m = vz kv.2).
Proof.
  induction l as [|kv l IH]; intros m0; cbn [fold_left]; cbn zeta.
  - split; [lra|]. split; [intros kv H; by apply elem_of_nil in H|by left].
  - specialize (IH (if Rltb (vz kv.2) m0 then vz kv.2 else m0)). cbn zeta in IH. destruct IH as (H1 & H2 & H3).
    set (m := fold_left _ l _) in *.
    destruct (Rltb (vz kv.2) m0) eqn:E; [apply Rltb_true in E|apply Rltb_false in E].
    + split; [lra|]. split.
      * intros kv' Hin. apply elem_of_cons in Hin as [->|Hin]; [done|by apply H2].
      * right. destruct H3 as [H3|(kv' & Hin & H3)]; [exists kv; split; [apply elem_of_list_here|done]|exists kv'; split; [by apply elem_of_list_further|done]].
    + split; [done|]. split.
      * intros kv' Hin. apply elem_of_cons in Hin as [->|Hin]; [lra|by apply H2].
      * destruct H3 as [H3|(kv' & Hin & H3)]; [by left|right; exists kv'; split; [by apply elem_of_list_further|done]].
Qed.
Lemma delete_fold {V} (out : list string) : forall (m : gmap string V) k v,
  fold_left (fun m k => delete k m) out m !! k = Some v <-> m !! k = Some v /\ k ∉ out.
Proof.
  induction out as [|x out IH]; intros m k v; cbn [fold_left].
  - split; [intros H; split; [done|apply not_elem_of_nil]|tauto].
  - rewrite IH, lookup_delete_Some, not_elem_of_cons. split; [intros [[? ?] ?]; done|intros [? [? ?]]; done].
Qed.
Theorem ground_contacts contacts threshold : contacts <> ∅ ->
  exists kept kmin cmin, removeNonGroundContacts contacts threshold = Ok kept /\
    contacts !! kmin = Some cmin /\ (forall k c, contacts !! k = Some c -> vz cmin <= vz c) /\
    (forall k c, kept !! k = Some c <-> contacts !! k = Some c /\ vz c - vz cmin <= Rabs threshold).
Proof.
  intros Hne. unfold removeNonGroundContacts.
  destruct (sitems contacts) as [|[k0 c0] rest] eqn:Es.
  { exfalso. apply Hne. apply map_empty. intros k. destruct (contacts !! k) as [c|] eqn:E; [|done].
    apply elem_of_sitems in E. rewrite Es in E. by apply elem_of_nil in E. }
  rewrite <- Es. cbn zeta. pose proof (min_fold (sitems contacts) (vz c0)) as Hm. cbn zeta in Hm.
  set (m := fold_left _ (sitems contacts) (vz c0)) in *. destruct Hm as (H1 & H2 & H3).
  assert (Hmin : exists kmin cmin, contacts !! kmin = Some cmin /\ m = vz cmin).
  { destruct H3 as [H3|([k c] & Hin & H3)].
    - exists k0, c0. split; [|done]. apply elem_of_sitems. rewrite Es. apply elem_of_list_here.
    - exists k, c. split; [by apply elem_of_sitems|done]. }
  destruct Hmin as (kmin & cmin & Hk & Hmz). eexists _, kmin, cmin. split; [done|]. split; [done|].
  assert (Hle : forall k c, contacts !! k = Some c -> vz cmin <= vz c).
  { intros k c Hc. rewrite <- Hmz. apply (H2 (k, c)). by apply elem_of_sitems. }
  split; [done|]. intros k c. rewrite delete_fold. rewrite Hmz. split.
  - intros [Hc Hout]. split; [done|]. specialize (Hle k c Hc). destruct (Rle_dec (vz c - vz cmin) (Rabs threshold)) as [|Hn]; [done|exfalso].
    apply Hout. apply elem_of_list_omap. exists (k, c). split; [by apply elem_of_sitems|]. cbn [fst snd].
    assert (Rltb (Rabs threshold) (Rabs (vz c - vz cmin)) = true) as ->; [|done]. apply Rltb_true. rewrite (Rabs_right (vz c - vz cmin)) by lra. lra.
  - intros [Hc Hz]. split; [done|]. intros Hout. apply elem_of_list_omap in Hout as ([k' c'] & Hin & Hf). cbn [fst snd] in Hf.
    destruct (Rltb _ _) eqn:E; [|done]. injection Hf as ->. apply elem_of_sitems in Hin. rewrite Hc in Hin. injection Hin as <-.
    apply Rltb_true in E. specialize (Hle k c Hc). rewrite (Rabs_right (vz c - vz cmin)) in E by lra. lra.
Qed.
Theorem ground_contacts_empty threshold : removeNonGroundContacts ∅ threshold = Ub.
Proof. done. Qed.

(** ** the support polygon *)
Theorem support_polygon contacts : computeSupportPolygon contacts = map (fun kv : string * vec3 => V3 (vx kv.2) (vy kv.2) 0) (sitems contacts).
Proof.
  unfold computeSupportPolygon, orthogonalProjection. apply map_ext. intros [k c]. cbn [snd vx vy vz]. f_equal; ring.
Qed.
Theorem orthogonal_projection p a b c d : a * a + b * b + c * c <> 0 ->
  let q := orthogonalProjection p a b c d in
  a * vx q + b * vy q + c * vz q + d = 0 /\ exists k, vsub p q = vscale k (V3 a b c).
Proof.
  intros Hn q. unfold q, orthogonalProjection. cbn zeta. cbn [vx vy vz]. split; [field; done|].
  exists ((a * vx p + b * vy p + c * vz p + d) / (a * a + b * b + c * c)). unfold vsub, vscale. cbn [vx vy vz]. f_equal; ring.
Qed.

(** ** sorting *)
Lemma minIndex_ok l : forall best bi i, exists j m, minIndex best bi i l = (j, m) /\
  ((j = bi /\ m = best) \/ exists k, j = (i + k)%nat /\ l !! k = Some m) /\
  vx m <= vx best /\ (forall p, p ∈ l -> vx m <= vx p).
Proof.
  induction l as [|p l IH]; intros best bi i; cbn [minIndex].
  - exists bi, best. split; [done|]. split; [by left|]. split; [lra|]. intros p Hp. by apply elem_of_nil in Hp.
  - destruct (Rltb (vx p) (vx best)) eqn:E; [apply Rltb_true in E|apply Rltb_false in E].
    + destruct (IH p i (S i)) as (j & m & -> & Hj & Hle & Hall). exists j, m. split; [done|]. split; [|split; [lra|]].
      * right. destruct Hj as [[-> ->]|(k & -> & Hk)]; [exists 0%nat; split; [lia|done]|exists (S k); split; [lia|done]].
      * intros q Hq. apply elem_of_cons in Hq as [->|Hq]; [done|by apply Hall].
    + destruct (IH best bi (S i)) as (j & m & -> & Hj & Hle & Hall). exists j, m. split; [done|]. split; [|split; [done|]].
      * destruct Hj as [?|(k & -> & Hk)]; [by left|right]. exists (S k). split; [lia|done].
      * intros q Hq. apply elem_of_cons in Hq as [->|Hq]; [lra|by apply Hall].
Qed.
Definition xsorted (l : list vec3) : Prop := forall i j p q, (i < j)%nat -> l !! i = Some p -> l !! j = Some q -> vx p <= vx q.
Lemma selectionSort_ok n : forall l, length l = n -> selectionSort n l ≡ₚ l /\ xsorted (selectionSort n l).
Proof.
  induction n as [|n IH]; intros l Hl.
  - destruct l; [|done]. split; [done|]. intros i j p q _ H. by destruct i.
  - destruct l as [|p l0]; [done|]. cbn [selectionSort].
    destruct (minIndex_ok (p :: l0) p 0 0) as (j & m & -> & Hj & Hle & Hall). set (l := p :: l0) in *.
    assert (Hlk : l !! j = Some m). { destruct Hj as [[-> ->]|(k & -> & Hk)]; done. }
    destruct (IH (take j l ++ drop (S j) l)) as [Hp Hs].
    { pose proof (lookup_lt_Some _ _ _ Hlk). rewrite app_length, take_length, drop_length. lia. }
    assert (Hperm : m :: selectionSort n (take j l ++ drop (S j) l) ≡ₚ l).
    { rewrite Hp. rewrite <- (take_drop_middle l j m Hlk) at 3. by rewrite Permutation_middle. }
    split; [done|]. intros i k a b Hik Ha Hb. destruct k as [|k]; [lia|]. destruct i as [|i].
    + simpl in Ha. injection Ha as <-. apply Hall. rewrite <- Hperm. apply elem_of_list_further. simpl in Hb. by eapply elem_of_list_lookup_2.
    + simpl in Ha, Hb. apply (Hs i k); [lia|done|done].
Qed.
