(** The best state of a repositioning: specification and proofs. *)
From Coq Require Import Reals ZArith Lra Lia.
From Verif Require Import Maps MapsProofs Vec VecProofs CombModel StateModel SampModel ToolModel ToolSpec ProjModel SeqModel BestModel.
From Verif Require Import StateModel ToolSpec ProjModel.
Local Open Scope R_scope.

Section spec.
Variable B : fullbody.
Variable evaluate : plimb -> list R -> vec3 -> vec3 -> option R.
(** the limb [l] of the state [s] is evaluated to [x], going in direction [d] *)
Definition evaluated (d : vec3) (s : PSt) (l : string) (x : option R) : Prop :=
  exists lb n, limbsOf B !! l = Some lb /\ normals s !! l = Some n /\ x = evaluate lb (configuration s) d n.
(** the score of a state: the sum of its limbs', if they are all numbers *)
Definition scored (d : vec3) (s : PSt) (limbs : list string) (v : option R) : Prop :=
  exists xs, Forall2 (evaluated d s) limbs xs /\
    match v with Some r => exists rs, xs = map Some rs /\ r = fold_right Rplus 0 rs | None => None ∈ xs end.
(** the move of the root from the first candidate to the last *)
Definition root_move (candidates : list sframe) (d : vec3) : Prop :=
  exists f b x y z qx x' y' z' qx', head candidates = Some f /\ last candidates = Some b /\
    configuration (snd b) = x :: y :: z :: qx /\ configuration (snd f) = x' :: y' :: z' :: qx' /\ d = V3 (x - x') (y - y') (z - z').
End spec.

Section proofs.
Variable B : fullbody.
Variable evaluate : plimb -> list R -> vec3 -> vec3 -> option R.
Notation evaluated := (evaluated B evaluate).
Notation scored := (scored B evaluate).
Lemma scored_fun d s limbs v v' : scored d s limbs v -> scored d s limbs v' -> v = v'.
Proof.
  intros (xs & H & Hv) (xs' & H' & Hv').
  assert (xs' = xs) as ->.
  { clear Hv Hv'. revert xs' H'. induction H as [|l x ls xs (lb & n & E1 & E2 & ->) _ IH]; intros xs' H'; inversion H' as [|? ? ? ? (lb' & n' & E1' & E2' & ->) H2]; subst; [done|].
    rewrite E1 in E1'. rewrite E2 in E2'. injection E1' as <-. injection E2' as <-. f_equal. by apply IH. }
  destruct v as [r|], v' as [r'|]; [| | |done].
  - destruct Hv as (rs & -> & ->), Hv' as (rs' & E & ->). assert (rs' = rs) as ->; [|done]. clear - E. revert rs' E. induction rs as [|a rs IH]; intros [|b rs'] E; try done. cbn in E. injection E as -> E. f_equal. by apply IH.
  - destruct Hv as (rs & -> & _). apply elem_of_list_fmap in Hv' as (? & ? & _). done.
  - destruct Hv' as (rs & -> & _). apply elem_of_list_fmap in Hv as (? & ? & _). done.
Qed.
Lemma score_spec d s limbs a : match scoreOf B evaluate d s limbs a with
  | Ok v => exists w, scored d s limbs w /\ v = sadd a w
  | Throw => exists l, l ∈ limbs /\ (limbsOf B !! l = None \/ normals s !! l = None)
  | Ub => False
  end.
Proof.
  revert a. induction limbs as [|l limbs IH]; intros a; simpl.
  - exists (Some 0). split; [exists []; split; [constructor|]; by exists []|]. destruct a; simpl; [f_equal; lra|done].
  - destruct (limbsOf B !! l) as [lb|] eqn:El; [|exists l; split; [left|by left]].
    destruct (normals s !! l) as [n|] eqn:En; [|exists l; split; [left|by right]].
    specialize (IH (sadd a (evaluate lb (configuration s) d n))). destruct (scoreOf _ _ _ _ _ _) as [v| |]; [| |done].
    + destruct IH as (w & (xs & Hxs & Hw) & ->). exists (sadd (evaluate lb (configuration s) d n) w). split.
      * exists (evaluate lb (configuration s) d n :: xs). split; [constructor; [by exists lb, n|done]|].
        destruct (evaluate lb (configuration s) d n) as [x|]; destruct w as [r|]; simpl.
        -- destruct Hw as (rs & -> & ->). by exists (x :: rs).
        -- by right.
        -- left.
        -- left.
      * destruct a, (evaluate lb (configuration s) d n), w; simpl; try done. f_equal. lra.
    + destruct IH as (l' & Hl' & H). exists l'. split; [by right|done].
Qed.
(** how good a frame already seen is: [seen] in order, [best] the best of them *)
Definition best_of d limbs (seen : list sframe) (b0 f : sframe) (score : option R) : Prop :=
  match score with
  | Some r => exists l1 l2, seen = l1 ++ f :: l2 /\ scored d (snd f) limbs (Some r) /\
      (forall c r', c ∈ l1 -> scored d (snd c) limbs (Some r') -> r' < r) /\ (forall c r', c ∈ l2 -> scored d (snd c) limbs (Some r') -> r' <= r)
  | None => f = b0 /\ forall c, c ∈ seen -> scored d (snd c) limbs None
  end.
Lemma loop_spec d limbs b0 cs seen best score : best_of d limbs seen b0 best score ->
  match bestLoop B evaluate d limbs cs best score with
  | Ok f => (forall c, c ∈ cs -> exists v, scored d (snd c) limbs v) /\ exists v, best_of d limbs (seen ++ cs) b0 f v
  | Throw => exists c l, c ∈ cs /\ l ∈ limbs /\ (limbsOf B !! l = None \/ normals (snd c) !! l = None)
  | Ub => False
  end.
Proof.
  revert seen best score. induction cs as [|c cs IH]; intros seen best score Hb; cbn [bestLoop].
  - split; [by intros c ?%elem_of_nil|]. exists score. by rewrite app_nil_r.
  - pose proof (score_spec d (snd c) limbs (Some 0)) as Hs. destruct (scoreOf B evaluate d (snd c) limbs (Some 0)) as [v| |]; [| |done].
    2:{ destruct Hs as (l & Hl & H). exists c, l. split; [left|done]. }
    destruct Hs as (w & Hw & ->). assert (Ew : sadd (Some 0) w = w) by (destruct w; simpl; [f_equal; lra|done]). rewrite Ew.
    assert (Hgo : forall f s, best_of d limbs (seen ++ [c]) b0 f s ->
      match bestLoop B evaluate d limbs cs f s with
      | Ok f => (forall c0, c0 ∈ c :: cs -> exists v, scored d (snd c0) limbs v) /\ exists v, best_of d limbs (seen ++ c :: cs) b0 f v
      | Throw => exists c0 l, c0 ∈ c :: cs /\ l ∈ limbs /\ (limbsOf B !! l = None \/ normals (snd c0) !! l = None)
      | Ub => False
      end).
    { intros f s Hf. specialize (IH _ _ _ Hf). destruct (bestLoop B evaluate d limbs cs f s); [| |done].
      - destruct IH as [H1 H2]. split.
        + intros c0 [->|Hc]%elem_of_cons; [by exists w|by apply H1].
        + by rewrite <- app_assoc in H2.
      - destruct IH as (c0 & l & Hc & H). exists c0, l. split; [by right|done]. }
    destruct (above_score w score) eqn:Ea; apply Hgo.
    + destruct w as [r|]; [|by destruct score]. exists seen, []. split; [done|]. split; [done|]. split; [|by intros ? ? ?%elem_of_nil].
      intros c' r' Hc' Hr'. destruct score as [r0|]; simpl in Ea.
      * apply Rltb_true in Ea. destruct Hb as (l1 & l2 & -> & Hb & H1 & H2). rewrite elem_of_app, elem_of_cons in Hc'. destruct Hc' as [Hc'|[->|Hc']].
        -- specialize (H1 _ _ Hc' Hr'). lra.
        -- pose proof (scored_fun _ _ _ _ _ Hb Hr') as [= ->]. lra.
        -- specialize (H2 _ _ Hc' Hr'). lra.
      * destruct Hb as [_ Hb]. pose proof (scored_fun _ _ _ _ _ (Hb _ Hc') Hr'). done.
    + destruct score as [r0|].
      * destruct Hb as (l1 & l2 & -> & Hb & H1 & H2). exists l1, (l2 ++ [c]). split; [by rewrite <- app_assoc|]. split; [done|]. split; [done|].
        intros c' r' [Hc'|Hc']%elem_of_app Hr'; [by eapply H2|]. apply elem_of_list_singleton in Hc' as ->.
        pose proof (scored_fun _ _ _ _ _ Hw Hr') as ->. simpl in Ea. by apply Rltb_false in Ea.
      * destruct w as [r|]; [done|]. destruct Hb as [-> Hb]. split; [done|]. intros c' [Hc'|Hc']%elem_of_app; [by apply Hb|]. by apply elem_of_list_singleton in Hc' as ->.
Qed.
Lemma root3_spec q : match root3 q with Some v => exists x y z q', q = x :: y :: z :: q' /\ v = V3 x y z | None => (length q < 3)%nat end.
Proof. destruct q as [|x [|y [|z q']]]; simpl; try lia. by exists x, y, z, q'. Qed.
Lemma best_state candidates limbs : match findBestRepositionState B evaluate candidates limbs with
  | Ok f => exists d, root_move candidates d /\ (forall c, c ∈ candidates -> exists v, scored d (snd c) limbs v) /\
      ((exists l1 l2 r, candidates = l1 ++ f :: l2 /\ scored d (snd f) limbs (Some r) /\
          (forall c r', c ∈ l1 -> scored d (snd c) limbs (Some r') -> r' < r) /\ (forall c r', c ∈ l2 -> scored d (snd c) limbs (Some r') -> r' <= r)) \/
       (last candidates = Some f /\ forall c, c ∈ candidates -> scored d (snd c) limbs None))
  | Throw => exists c l, c ∈ candidates /\ l ∈ limbs /\ (limbsOf B !! l = None \/ normals (snd c) !! l = None)
  | Ub => candidates = [] \/ exists c, (head candidates = Some c \/ last candidates = Some c) /\ (length (configuration (snd c)) < 3)%nat
  end.
Proof.
  unfold findBestRepositionState. destruct (head candidates) as [f|] eqn:Ef; [|left; by destruct candidates].
  destruct (last candidates) as [b|] eqn:El; [|left; by apply last_None].
  pose proof (root3_spec (configuration (snd b))) as Hb. destruct (root3 (configuration (snd b))) as [pb|]; [|right; exists b; by split; [right|]].
  pose proof (root3_spec (configuration (snd f))) as Hf. destruct (root3 (configuration (snd f))) as [pf|]; [|right; exists f; by split; [left|]].
  destruct Hb as (x & y & z & qx & Ex & ->), Hf as (x' & y' & z' & qx' & Ex' & ->).
  set (d := vsub _ _). pose proof (loop_spec d limbs b candidates [] b None) as H. destruct (bestLoop _ _ _ _ _ _ _) as [g| |].
  - destruct H as [H1 (v & H2)]; [split; [done|by intros c ?%elem_of_nil]|]. exists d. split; [by exists f, b, x, y, z, qx, x', y', z', qx'|]. split; [done|]. simpl in H2.
    destruct v as [r|]; [left|right].
    + destruct H2 as (l1 & l2 & H2). by exists l1, l2, r.
    + destruct H2 as [-> H2]. by split.
  - exact (H (conj eq_refl (fun c Hc => False_ind _ (proj1 (elem_of_nil c) Hc)))).
  - exfalso. exact (H (conj eq_refl (fun c Hc => False_ind _ (proj1 (elem_of_nil c) Hc)))).
Qed.
Lemma evaluated_throws d s limbs l v : l ∈ limbs -> (limbsOf B !! l = None \/ normals s !! l = None) -> ~ scored d s limbs v.
Proof.
  intros Hl Hn (xs & H & _). apply elem_of_list_lookup in Hl as [i Hi]. destruct (Forall2_lookup_l _ _ _ _ _ H Hi) as (x & _ & lb & n & E1 & E2 & _).
  destruct Hn; congruence.
Qed.
(** with limbs of the robot that all candidates have in contact, there is a best state *)
Lemma best_exists candidates limbs : candidates <> [] ->
  (forall c, c ∈ candidates -> (3 <= length (configuration (snd c)))%nat) ->
  (forall l, l ∈ limbs -> is_Some (limbsOf B !! l)) ->
  (forall c l, c ∈ candidates -> l ∈ limbs -> is_Some (normals (snd c) !! l)) ->
  exists f, findBestRepositionState B evaluate candidates limbs = Ok f /\ f ∈ candidates.
Proof.
  intros Hne Hlen Hl Hc. pose proof (best_state candidates limbs) as H. destruct (findBestRepositionState B evaluate candidates limbs) as [f| |].
  - exists f. split; [done|]. destruct H as (d & _ & _ & [(l1 & l2 & r & -> & _)|[Hlast _]]); [set_solver|]. by apply last_Some_elem_of.
  - destruct H as (c & l & H1 & H2 & [H3|H3]); [destruct (Hl _ H2)|destruct (Hc _ _ H1 H2)]; congruence.
  - destruct H as [->|(c & Hc' & Hlt)]; [done|]. assert (Hin : c ∈ candidates).
    { destruct Hc' as [Hh|Hh]; [destruct candidates; [done|injection Hh as ->; left]|by apply last_Some_elem_of]. }
    specialize (Hlen _ Hin). lia.
Qed.
End proofs.
