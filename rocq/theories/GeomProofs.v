(** Proofs about convexHull. *)
From Verif Require Import Maps Vec VecProofs GeomModel GeomSpec GeomInt.
Local Open Scope R_scope.

Lemma Rltb_true a b : Rltb a b = true <-> a < b.
Proof. unfold Rltb. destruct (Rlt_dec a b); split; done. Qed.
Lemma Rltb_false a b : Rltb a b = false <-> b <= a.
Proof. unfold Rltb. destruct (Rlt_dec a b); split; try done; intros; lra. Qed.
Lemma Rleb_true a b : Rleb a b = true <-> a <= b.
Proof. unfold Rleb. destruct (Rle_dec a b); split; done. Qed.
Lemma Rleb_false a b : Rleb a b = false <-> b < a.
Proof. unfold Rleb. destruct (Rle_dec a b); split; try done; intros; lra. Qed.
Lemma Reqb_true a b : Reqb a b = true <-> a = b.
Proof. unfold Reqb. destruct (Req_EM_T a b); split; done. Qed.
Lemma Reqb_false a b : Reqb a b = false <-> a <> b.
Proof. unfold Reqb. destruct (Req_EM_T a b); split; done. Qed.
Lemma veqb_true a b : veqb a b = true <-> a = b.
Proof. apply bool_decide_eq_true. Qed.
Lemma veqb_false a b : veqb a b = false <-> a <> b.
Proof. apply bool_decide_eq_false. Qed.
Lemma inList_true a l : inList a l = true <-> a ∈ l.
Proof. apply bool_decide_eq_true. Qed.
Lemma inList_false a l : inList a l = false <-> a ∉ l.
Proof. apply bool_decide_eq_false. Qed.

Lemma isLeft_same1 a b : isLeft a b a = 0.
Proof. unfold isLeft. lra. Qed.
Lemma isLeft_same2 a b : isLeft a b b = 0.
Proof. unfold isLeft. lra. Qed.
Lemma isLeft_same3 a b : isLeft a a b = 0.
Proof. unfold isLeft. lra. Qed.
Lemma isLeft_cycle a b c : isLeft a b c = isLeft b c a.
Proof. unfold isLeft. lra. Qed.
Lemma isLeft_swap a b c : isLeft a b c = - isLeft b a c.
Proof. unfold isLeft. lra. Qed.

(** ** leftMost *)
Lemma leftMostFrom_ok l : forall r, (leftMostFrom r l = r \/ leftMostFrom r l ∈ l) /\
  vx (leftMostFrom r l) <= vx r /\ forall p, p ∈ l -> vx (leftMostFrom r l) <= vx p.
Proof.
  induction l as [|p l IH]; intros r; cbn [leftMostFrom].
  - split_and!; [by left|lra|]. intros p Hp. by apply elem_of_nil in Hp.
  - destruct (Rltb (vx p) (vx r)) eqn:E.
    + apply Rltb_true in E. destruct (IH p) as (H1 & H2 & H3). split_and!.
      * right. apply elem_of_cons. destruct H1 as [-> |H1]; [by left|by right].
      * lra.
      * intros p' Hp'. apply elem_of_cons in Hp' as [->|Hp']; [done|by apply H3].
    + apply Rltb_false in E. destruct (IH r) as (H1 & H2 & H3). split_and!.
      * destruct H1 as [-> |H1]; [by left|right; apply elem_of_cons; by right].
      * lra.
      * intros p' Hp'. apply elem_of_cons in Hp' as [->|Hp']; [lra|by apply H3].
Qed.
Lemma leftMost_in p0 l : leftMostFrom p0 l ∈ p0 :: l.
Proof. destruct (leftMostFrom_ok l p0) as ([H|H] & _); apply elem_of_cons; [by left|by right]. Qed.
Lemma leftMost_least p0 l p : p ∈ p0 :: l -> vx (leftMostFrom p0 l) <= vx p.
Proof.
  destruct (leftMostFrom_ok l p0) as (_ & H2 & H3). intros Hp.
  apply elem_of_cons in Hp as [->|Hp]; [done|by apply H3].
Qed.

(** ** one scan *)
Lemma pick_cases h res last cur : pick h res last cur = last \/
  (pick h res last cur = cur /\ (cur ∉ res \/ cur = front res)).
Proof.
  unfold pick. destruct (_ || _); [|by left].
  destruct (negb (inList cur res)) eqn:E1; cbn [orb].
  - right. split; [done|]. left. apply negb_true_iff, inList_false in E1. done.
  - destruct (veqb cur (front res)) eqn:E2; [|by left]. right. split; [done|]. right. by apply veqb_true.
Qed.
Lemma scan_cases h res l : forall p0, scan h res p0 l = p0 \/
  (scan h res p0 l ∈ l /\ (scan h res p0 l ∉ res \/ scan h res p0 l = front res)).
Proof.
  induction l as [|c l IH]; intros p0; cbn [scan fold_left]; [by left|]. fold (scan h res (pick h res p0 c) l).
  destruct (IH (pick h res p0 c)) as [H|[H1 H2]].
  - rewrite H. destruct (pick_cases h res p0 c) as [->|[-> Hc]]; [by left|]. right. split; [|done].
    apply elem_of_cons. by left.
  - right. split; [|done]. apply elem_of_cons. by right.
Qed.
(** once different from [h] it stays so *)
Lemma scan_not_back h res l : forall p0, p0 <> h -> scan h res p0 l <> h.
Proof.
  induction l as [|c l IH]; intros p0 Hne; cbn [scan fold_left]; [done|]. apply IH.
  unfold pick. destruct (veqb p0 h) eqn:E; [by apply veqb_true in E|]. cbn [orb].
  destruct (Rltb 0 (isLeft h p0 c)) eqn:E2; [|done].
  apply Rltb_true in E2. destruct (_ || _); [|done]. intros ->. rewrite isLeft_same1 in E2. lra.
Qed.
Lemma scan_leaves h res l : forall p0, front res ∈ l -> front res <> h -> scan h res p0 l <> h.
Proof.
  induction l as [|c l IH]; intros p0 Hin Hne; cbn [scan fold_left]; [by apply elem_of_nil in Hin|].
  fold (scan h res (pick h res p0 c) l).
  apply elem_of_cons in Hin as [<-|Hin]; [|by apply IH].
  apply scan_not_back. unfold pick. destruct (veqb p0 h) eqn:E.
  - cbn [orb]. assert (veqb (front res) (front res) = true) as -> by by apply veqb_true.
    by rewrite orb_true_r.
  - apply veqb_false in E. cbn [orb]. destruct (Rltb 0 _); [|done]. destruct (_ || _); done.
Qed.

(** ** termination, for any points *)
Definition unvisited (P res : list vec3) : nat := length (filter (fun p => p ∉ res) P).
Lemma unvisited_mono P res h : (unvisited P (res ++ [h]) <= unvisited P res)%nat.
Proof.
  unfold unvisited. induction P as [|p P IH]; [done|]. rewrite !filter_cons.
  destruct (decide (p ∉ res)) as [H|H], (decide (p ∉ res ++ [h])) as [H'|H']; simpl; try lia.
  exfalso. rewrite elem_of_app in H'. tauto.
Qed.
Lemma unvisited_app P res h : h ∈ P -> h ∉ res -> (unvisited P (res ++ [h]) < unvisited P res)%nat.
Proof.
  intros Hin Hn. induction P as [|p P IH]; [by apply elem_of_nil in Hin|].
  pose proof (unvisited_mono P res h) as Hle. unfold unvisited in *. rewrite !filter_cons.
  destruct (decide (p = h)) as [->|Hne].
  - rewrite (decide_False (P := h ∉ res ++ [h])); [|rewrite elem_of_app, elem_of_list_singleton; tauto].
    rewrite decide_True by done. simpl. lia.
  - apply elem_of_cons in Hin as [->|Hin]; [done|]. specialize (IH Hin).
    destruct (decide (p ∉ res)) as [H|H], (decide (p ∉ res ++ [h])) as [H'|H']; simpl; try lia.
    exfalso. rewrite elem_of_app in H'. tauto.
Qed.

Lemma front_app res (h : vec3) : res <> [] -> front (res ++ [h]) = front res.
Proof. destruct res; done. Qed.
Lemma front_in res : res <> [] -> front res ∈ res.
Proof. destruct res; [done|]. intros _. apply elem_of_cons. by left. Qed.

(** the weight of a state of the loop *)
Definition weight (P res : list vec3) (h : vec3) : nat :=
  (2 * unvisited P res + if decide (h ∈ res) then 1 else 0)%nat.

Definition closed_in (P hull : list vec3) : Prop :=
  exists m, hull = front hull :: m ++ [front hull] /\ forall p, p ∈ hull -> p ∈ P.

Lemma hullLoop_terminates n : forall fuel p0 l res h,
  (weight (p0 :: l) res h < n)%nat -> (n <= fuel)%nat ->
  h ∈ p0 :: l -> (forall p, p ∈ res -> p ∈ p0 :: l) ->
  (h ∈ res -> h = p0) -> (res <> [] -> h <> front res) ->
  exists m, hullLoop fuel p0 l res h = Some (res ++ h :: m ++ [front (res ++ [h])]) /\ (length m < n)%nat /\
    forall p, p ∈ m -> p ∈ p0 :: l.
Proof.
  induction n as [|n IH]; intros fuel p0 l res h Hw Hf Hh Hres Hp0 Hfr; [lia|].
  destruct fuel as [|fuel]; [lia|]. cbn [hullLoop].
  set (last := scan h res p0 l). destruct (veqb last (front (res ++ [h]))) eqn:E.
  - apply veqb_true in E. exists []. split; [|split; [simpl; lia|intros p Hp; by apply elem_of_nil in Hp]].
    rewrite E. rewrite <- app_assoc. done.
  - apply veqb_false in E.
    assert (Hlast : last ∈ p0 :: l).
    { destruct (scan_cases h res l p0) as [H|[H _]]; apply elem_of_cons; [by left|by right]. }
    assert (Hsel : last = p0 \/ last ∉ res).
    { destruct (scan_cases h res l p0) as [H|[_ [H|H]]]; [by left|by right|].
      destruct res as [|r res]; [right; apply not_elem_of_nil|]. exfalso. apply E. unfold last. by rewrite H. }
    destruct (IH fuel p0 l (res ++ [h]) last) as (m & Heq & Hlen & Hm).
    + (* the weight decreases *)
      unfold weight in *. destruct (decide (h ∈ res)) as [Hin|Hin].
      * (* h = p0 again: the next one is new *)
        assert (h = p0) as -> by by apply Hp0.
        assert (Hne : res <> []) by (intros ->; by apply elem_of_nil in Hin).
        assert (Hfin : front res ∈ l).
        { specialize (Hres _ (front_in _ Hne)). apply elem_of_cons in Hres as [H|H]; [|done].
          exfalso. by apply (Hfr Hne). }
        assert (Hlp : last <> p0).
        { apply scan_leaves; [done|]. intros H. by apply (Hfr Hne). }
        rewrite decide_False; [pose proof (unvisited_mono (p0 :: l) res p0); lia|].
        rewrite elem_of_app, elem_of_list_singleton. destruct Hsel as [H|H]; [done|]. tauto.
      * pose proof (unvisited_app (p0 :: l) res h Hh Hin). destruct (decide (last ∈ _)); lia.
    + lia.
    + done.
    + intros p Hp. apply elem_of_app in Hp as [Hp|Hp]; [by apply Hres|]. apply elem_of_list_singleton in Hp. by subst.
    + rewrite elem_of_app, elem_of_list_singleton. intros [H|H].
      * destruct Hsel as [Hs|Hs]; [done|]. by apply Hs in H.
      * destruct Hsel as [Hs|Hs]; [done|].
        (* last = h *)
        destruct (scan_cases h res l p0) as [Hc|_]; [done|].
        destruct (decide (p0 = h)) as [->|Hne]; [done|].
        exfalso. by apply (scan_not_back h res l p0 Hne).
    + intros _. done.
    + exists (last :: m). split; [|split].
      * unfold last in *. rewrite Heq. rewrite front_app by (destruct res; done). rewrite <- app_assoc. done.
      * simpl. lia.
      * intros p Hp. apply elem_of_cons in Hp as [->|Hp]; [done|by apply Hm].
Qed.

Theorem convexHull_terminates l : l <> [] ->
  exists n, forall fuel, (n <= fuel)%nat -> exists first m,
    convexHull fuel l = Some (first :: m ++ [first]) /\ first ∈ l /\ (forall p, p ∈ m -> p ∈ l) /\
    (forall p, p ∈ l -> vx first <= vx p).
Proof.
  destruct l as [|p0 l]; [done|]. intros _. set (h := leftMostFrom p0 l).
  exists (S (weight (p0 :: l) [] h)). intros fuel Hf.
  destruct (hullLoop_terminates (S (weight (p0 :: l) [] h)) fuel p0 l [] h) as (m & Heq & _ & Hm).
  - lia.
  - done.
  - apply leftMost_in.
  - intros p Hp. by apply elem_of_nil in Hp.
  - intros Hp. by apply elem_of_nil in Hp.
  - done.
  - exists h, m. simpl in Heq. split_and!; [exact Heq|apply leftMost_in|done|apply leftMost_least].
Qed.
