From Verif Require Import Maps MapsProofs BodyModel BodySpec.

Lemma insert_new_lookup {A} k (v : A) m k' :
  insert_new k v m !! k' =
  if decide (k' = k) then Some (default v (m !! k)) else m !! k'.
Proof.
  unfold insert_new, has. destruct (m !! k) eqn:E; case_decide as Hd; subst; simpl.
  - by rewrite E.
  - done.
  - by rewrite lookup_insert.
  - by rewrite lookup_insert_ne.
Qed.

Lemma add_to_group_lookup name id g k :
  add_to_group name id g !! k = if decide (k = name) then Some (default [] (g !! name) ++ [id]) else g !! k.
Proof.
  unfold add_to_group. destruct (g !! name) eqn:E; case_decide as Hd; subst; simpl;
    by rewrite ?lookup_insert, ?lookup_insert_ne by done.
Qed.

Section proofs.
Context {D V H : Type}.
Notation Body := (body D V H).

Lemma rejected_unchanged (o : body_op D V H) (b b' : Body) :
  body_call o b = (b', Throw) -> b' = b.
Proof.
  destruct o; simpl; unfold AddLimb, AddNonContactingLimb, toggleNonContactingLimb, AddHeuristic.
  - destruct (checkLimbData _ _ _ _); [destruct made as [[]|]|]; congruence.
  - destruct (checkLimbData _ _ _ _); [destruct made as [[]|]|]; congruence.
  - destruct (limbs b !! name); [done|]. by destruct (nonContactingLimbs b !! name).
  - by destruct (has _ _).
Qed.

Lemma AddLimb_throws id name heur made (b : Body) :
  snd (AddLimb id name heur made b) = Throw <->
  is_Some (limbs b !! id) \/ heuristics b !! heur = None \/ made = None.
Proof.
  unfold AddLimb, checkLimbData, has.
  destruct (limbs b !! id) eqn:E1, (heuristics b !! heur) eqn:E2, made as [[]|]; simpl;
    split; try done; try naive_solver; intros [[]|[]]; done.
Qed.

Lemma AddNonContacting_throws id name made (b : Body) :
  snd (AddNonContactingLimb id name made b) = Throw <->
  is_Some (nonContactingLimbs b !! id) \/ heuristics b !! "static"%string = None \/ made = None.
Proof.
  unfold AddNonContactingLimb, checkLimbData, has.
  destruct (nonContactingLimbs b !! id) eqn:E1, (heuristics b !! "static"%string) eqn:E2, made as [[]|]; simpl;
    split; try done; try naive_solver; intros [[]|[]]; done.
Qed.

(** heuristics are never removed nor replaced *)
Lemma heuristics_kept ops (b : Body) k f :
  heuristics b !! k = Some f -> heuristics (body_run ops b) !! k = Some f.
Proof.
  revert b. induction ops as [|o ops IH]; intros b Hk; simpl; [done|]. apply IH.
  destruct o; simpl; unfold AddLimb, AddNonContactingLimb, toggleNonContactingLimb, AddHeuristic.
  - destruct (checkLimbData _ _ _ _); [destruct made as [[]|]|]; done.
  - destruct (checkLimbData _ _ _ _); [destruct made as [[]|]|]; done.
  - destruct (limbs b !! name); [done|]. by destruct (nonContactingLimbs b !! name).
  - unfold has. destruct (heuristics b !! name) eqn:E; [done|]. simpl.
    rewrite lookup_insert_ne; [done|]. intros ->. congruence.
Qed.

(** what always holds *)
Record loosely_registered (b : Body) : Prop := {
  lr_listed : forall id l, names_limb b id l -> listed b (joint l) id;
  lr_groups : forall g id, listed b g id -> registered b id;
  lr_validation : forall id, registered b id <-> is_Some (validations b !! id)
}.

Lemma listed_add (b b' : Body) name id g x :
  groups b' = add_to_group name id (groups b) ->
  listed b' g x <-> listed b g x \/ (g = name /\ x = id).
Proof.
  intros Hg. unfold listed. rewrite Hg. rewrite add_to_group_lookup. case_decide as Hd.
  - subst. split.
    + intros (l & [= <-] & Hx). apply elem_of_app in Hx as [Hx|Hx%elem_of_list_singleton]; [|by right].
      left. destruct (groups b !! name) eqn:E; [|by apply elem_of_nil in Hx]. eauto.
    + intros [(l & E & Hx)|[_ ->]].
      * eexists. split; [done|]. rewrite E. simpl. set_solver.
      * eexists. split; [done|]. set_solver.
  - naive_solver.
Qed.

Lemma AddLimbPrivate_names (l : Limb D) (v : V) id name (non : bool) (b : Body) x y :
  (if non then nonContactingLimbs b !! id else limbs b !! id) = None ->
  names_limb (AddLimbPrivate l v id name non b) x y <-> names_limb b x y \/ (x = id /\ y = l).
Proof.
  intros Hnone. unfold names_limb, AddLimbPrivate. simpl. destruct non; rewrite insert_new_lookup, Hnone; simpl;
    case_decide as Hd; subst; rewrite ?Hnone; naive_solver.
Qed.

Lemma add_loose (l : Limb D) (v : V) id name (non : bool) (b : Body) :
  joint l = name -> (if non then nonContactingLimbs b !! id else limbs b !! id) = None ->
  loosely_registered b -> loosely_registered (AddLimbPrivate l v id name non b).
Proof.
  intros Hj Hnone [H1 H2 H3].
  assert (Hreg : forall x, registered (AddLimbPrivate l v id name non b) x <-> registered b x \/ x = id).
  { intros x. unfold registered. setoid_rewrite (AddLimbPrivate_names l v id name non b x); [|done].
    split; [naive_solver|]. intros [[y Hy]| ->]; eauto. }
  split.
  - intros x y Hn. apply AddLimbPrivate_names in Hn; [|done].
    rewrite (listed_add b _ name id); [|done]. destruct Hn as [Hn|[-> ->]]; [left; by apply H1|by right].
  - intros g x Hl. rewrite (listed_add b _ name id) in Hl; [|done]. apply Hreg.
    destruct Hl as [Hl|[-> ->]]; [left; by eapply H2|by right].
  - intros x. rewrite Hreg. simpl. rewrite insert_new_lookup. rewrite H3. case_decide; [|naive_solver].
    subst. split; [by eexists|]. by right.
Qed.

Lemma toggle_registered name (b : Body) x :
  registered (fst (toggleNonContactingLimb name b)) x <-> registered b x.
Proof.
  unfold toggleNonContactingLimb, registered, names_limb.
  destruct (limbs b !! name) as [l|] eqn:E1; simpl.
  - rewrite insert_new_lookup. destruct (decide (x = name)) as [->|Hne].
    + rewrite lookup_delete, E1. split; eauto.
    + by rewrite lookup_delete_ne.
  - destruct (nonContactingLimbs b !! name) as [l|] eqn:E2; simpl; [|done].
    rewrite insert_new_lookup. destruct (decide (x = name)) as [->|Hne].
    + rewrite lookup_delete, E2. split; eauto.
    + by rewrite lookup_delete_ne.
Qed.

Lemma toggle_names name (b : Body) x y :
  names_limb (fst (toggleNonContactingLimb name b)) x y -> names_limb b x y.
Proof.
  unfold toggleNonContactingLimb, names_limb.
  destruct (limbs b !! name) as [l|] eqn:E1; simpl.
  - rewrite insert_new_lookup. destruct (decide (x = name)) as [->|Hne].
    + rewrite lookup_delete, E1. intros [|Hx]; [done|]. destruct (nonContactingLimbs b !! name); naive_solver.
    + by rewrite lookup_delete_ne.
  - destruct (nonContactingLimbs b !! name) as [l|] eqn:E2; simpl; [|done].
    rewrite insert_new_lookup. destruct (decide (x = name)) as [->|Hne].
    + rewrite lookup_delete, E2, E1. naive_solver.
    + by rewrite lookup_delete_ne.
Qed.

Lemma toggle_both name (b : Body) l l' :
  limbs b !! name = Some l -> nonContactingLimbs b !! name = Some l' ->
  let b' := fst (toggleNonContactingLimb name b) in
  snd (toggleNonContactingLimb name b) = Ok true /\
  limbs b' = delete name (limbs b) /\ nonContactingLimbs b' = nonContactingLimbs b /\
  groups b' = groups b /\ validations b' = validations b /\ heuristics b' = heuristics b.
Proof.
  intros H1 H2. unfold toggleNonContactingLimb. rewrite H1. simpl. split_and!; try done.
  unfold insert_new, has. by rewrite H2.
Qed.

Lemma toggle_rest name (b : Body) : let b' := fst (toggleNonContactingLimb name b) in
  groups b' = groups b /\ validations b' = validations b /\ heuristics b' = heuristics b.
Proof.
  unfold toggleNonContactingLimb. destruct (limbs b !! name); [done|].
  by destruct (nonContactingLimbs b !! name).
Qed.

Lemma step_loose o (b : Body) : loosely_registered b -> loosely_registered (fst (body_call o b)).
Proof.
  intros Hb. destruct o; simpl.
  - unfold AddLimb, checkLimbData, has. destruct (limbs b !! id) eqn:E; simpl; [done|].
    destruct (heuristics b !! heuristic); [|done]. destruct made as [[d v]|]; [|done]. simpl.
    by apply add_loose.
  - unfold AddNonContactingLimb, checkLimbData, has. destruct (nonContactingLimbs b !! id) eqn:E; simpl; [done|].
    destruct (heuristics b !! "static"%string); [|done]. destruct made as [[d v]|]; [|done]. simpl.
    by apply add_loose.
  - destruct Hb as [H1 H2 H3]. pose proof (toggle_rest name b) as (Hg & Hv & _).
    split; unfold listed; rewrite ?Hg, ?Hv.
    + intros id l Hn%toggle_names. by apply H1.
    + intros g id Hl. apply toggle_registered. by eapply H2.
    + intros id. rewrite toggle_registered. done.
  - unfold AddHeuristic. destruct (has _ _); [done|]. destruct Hb as [H1 H2 H3]. by split.
Qed.

Lemma loose_new builtin : loosely_registered (new_body builtin : Body).
Proof.
  split.
  - intros id l [Hn|Hn]; simpl in Hn; by rewrite lookup_empty in Hn.
  - intros g id (l & Hl & _). simpl in Hl. by rewrite lookup_empty in Hl.
  - intros id. split; [|intros [? Hs]; simpl in Hs; by rewrite lookup_empty in Hs].
    intros (l & [Hn|Hn]); simpl in Hn; by rewrite lookup_empty in Hn.
Qed.

Lemma loose_history ops builtin : loosely_registered (body_run ops (new_body builtin : Body)).
Proof.
  enough (Hr : forall b : Body, loosely_registered b -> loosely_registered (body_run ops b)) by apply Hr, loose_new.
  induction ops as [|o ops IH]; intros b Hb; simpl; [done|]. by apply IH, step_loose.
Qed.

(** with no reuse of ids *)
Definition strict (b : Body) : Prop :=
  (forall id, limbs b !! id = None \/ nonContactingLimbs b !! id = None) /\
  (forall id l g, names_limb b id l -> listed b g id -> g = joint l) /\
  (forall g l, groups b !! g = Some l -> NoDup l).

Lemma add_strict (l : Limb D) (v : V) id name (non : bool) (b : Body) :
  joint l = name -> limbs b !! id = None -> nonContactingLimbs b !! id = None ->
  loosely_registered b -> strict b -> strict (AddLimbPrivate l v id name non b).
Proof.
  intros Hj Hn1 Hn2 Hl (S1 & S2 & S3).
  assert (Hnone : (if non then nonContactingLimbs b !! id else limbs b !! id) = None) by (by destruct non).
  assert (Hnr : forall g, ~ listed b g id).
  { intros g Hg. destruct (lr_groups _ Hl _ _ Hg) as (y & [Hy|Hy]); congruence. }
  split_and!.
  - intros x. unfold AddLimbPrivate. simpl. destruct (S1 x) as [Hx|Hx], non;
      rewrite ?insert_new_lookup; try case_decide; subst; rewrite ?Hn1, ?Hn2; auto.
  - intros x y g Hn Hg. apply AddLimbPrivate_names in Hn; [|done].
    rewrite (listed_add b _ name id) in Hg; [|done].
    destruct Hn as [Hn|[-> ->]], Hg as [Hg|[Hg1 Hg2]]; subst.
    + by eapply S2.
    + destruct Hn; congruence.
    + by apply Hnr in Hg.
    + done.
  - intros g q. simpl. rewrite add_to_group_lookup. case_decide as Hd; [|apply S3]. intros [= <-]. subst.
    apply NoDup_app. split_and!; [destruct (groups b !! joint l) eqn:E; simpl; [by eapply S3|constructor]| |apply NoDup_singleton].
    intros x Hx ->%elem_of_list_singleton. destruct (groups b !! joint l) eqn:E; [|by apply elem_of_nil in Hx].
    apply (Hnr (joint l)). by eexists.
Qed.

Lemma step_strict o (b : Body) ops : no_reuse (o :: ops) b -> loosely_registered b -> strict b ->
  strict (fst (body_call o b)).
Proof.
  intros [Hre _] Hb Hs. destruct o; simpl in *.
  - unfold AddLimb, checkLimbData, has. destruct (limbs b !! id) eqn:E; simpl; [done|].
    destruct (heuristics b !! heuristic); [|done]. destruct made as [[d v]|]; [|done]. simpl.
    by apply add_strict.
  - unfold AddNonContactingLimb, checkLimbData, has. destruct (nonContactingLimbs b !! id) eqn:E; simpl; [done|].
    destruct (heuristics b !! "static"%string); [|done]. destruct made as [[d v]|]; [|done]. simpl.
    by apply add_strict.
  - destruct Hs as (S1 & S2 & S3). pose proof (toggle_rest name b) as (Hg & Hv & _).
    split_and!; unfold listed; rewrite ?Hg.
    + intros x. unfold toggleNonContactingLimb.
      destruct (limbs b !! name) as [l|] eqn:E1; simpl.
      * rewrite insert_new_lookup. destruct (decide (x = name)) as [->|Hne].
        -- left. by rewrite lookup_delete.
        -- rewrite lookup_delete_ne by done. apply S1.
      * destruct (nonContactingLimbs b !! name) as [l|] eqn:E2; simpl; [|apply S1].
        rewrite insert_new_lookup. destruct (decide (x = name)) as [->|Hne].
        -- right. by rewrite lookup_delete.
        -- rewrite lookup_delete_ne by done. apply S1.
    + intros id l g Hn%toggle_names. by apply S2.
    + done.
  - unfold AddHeuristic. by destruct (has _ _).
Qed.

Lemma well_registered_history ops builtin :
  no_reuse ops (new_body builtin : Body) -> well_registered (body_run ops (new_body builtin)).
Proof.
  intros Hre.
  enough (Hr : forall b : Body, no_reuse ops b -> loosely_registered b -> strict b ->
            loosely_registered (body_run ops b) /\ strict (body_run ops b)).
  { destruct (Hr _ Hre (loose_new builtin)) as [[H1 H2 H3] (S1 & S2 & S3)].
    - split_and!; simpl.
      + intros id. left. by rewrite lookup_empty.
      + intros id l g [Hn|Hn]; simpl in Hn; by rewrite lookup_empty in Hn.
      + intros g l. by rewrite lookup_empty.
    - split; try done. intros id l Hn g. split; [by apply S2|]. intros ->. by apply H1. }
  clear Hre. induction ops as [|o ops IH]; intros b Hre Hl Hs; [done|].
  simpl. apply IH; [by destruct Hre|by apply step_loose|by eapply step_strict].
Qed.

(** ** C26 *)
Lemma toggle_twice name (b : Body) :
  (limbs b !! name = None \/ nonContactingLimbs b !! name = None) ->
  fst (toggleNonContactingLimb name (fst (toggleNonContactingLimb name b))) = b.
Proof.
  destruct b as [L N W G F]. unfold toggleNonContactingLimb. simpl. intros Hd.
  destruct (L !! name) as [l|] eqn:E1; simpl.
  - destruct Hd as [|E2]; [done|]. rewrite lookup_delete. unfold insert_new, has. rewrite E2. simpl.
    rewrite lookup_insert. simpl. rewrite lookup_delete. f_equal; [by apply insert_delete|by apply delete_insert].
  - destruct (N !! name) as [l|] eqn:E2; simpl.
    + unfold insert_new, has. rewrite E1. simpl. rewrite lookup_insert. simpl. rewrite lookup_delete.
      f_equal; [by apply delete_insert|by apply insert_delete].
    + by rewrite E1, E2.
Qed.

Lemma GetLimb_exact name only (b : Body) l :
  GetLimb name only b = Ok l <->
  limbs b !! name = Some l \/ (only = false /\ limbs b !! name = None /\ nonContactingLimbs b !! name = Some l).
Proof. unfold GetLimb. destruct (limbs b !! name); destruct only; destruct (nonContactingLimbs b !! name); naive_solver. Qed.
Lemma GetLimb_throws name only (b : Body) :
  (GetLimb name only b = Throw <-> limbs b !! name = None /\ (only = true \/ nonContactingLimbs b !! name = None)) /\
  GetLimb name only b <> Ub.
Proof. unfold GetLimb. destruct (limbs b !! name); destruct only; destruct (nonContactingLimbs b !! name); naive_solver. Qed.
Lemma toggle_moves name (b b' : Body) r :
  (limbs b !! name = None \/ nonContactingLimbs b !! name = None) ->
  toggleNonContactingLimb name b = (b', r) ->
  (r = Ok true <-> registered b name) /\ (r = Ok false <-> ~ registered b name /\ b' = b) /\
  limbs b' !! name = nonContactingLimbs b !! name /\ nonContactingLimbs b' !! name = limbs b !! name /\
  (forall k, k <> name -> limbs b' !! k = limbs b !! k /\ nonContactingLimbs b' !! k = nonContactingLimbs b !! k) /\
  groups b' = groups b /\ validations b' = validations b /\ heuristics b' = heuristics b /\
  (forall x, GetLimb x false b' = GetLimb x false b).
Proof.
  intros Hd. unfold toggleNonContactingLimb, registered, names_limb, GetLimb.
  destruct (limbs b !! name) as [l|] eqn:E1.
  - destruct Hd as [|E2]; [done|]. intros [= <- <-]. simpl.
    split_and!; try done; [naive_solver|naive_solver|by rewrite lookup_delete, E2|by rewrite insert_new_lookup, decide_True, E2| |].
    + intros k Hk. by rewrite lookup_delete_ne, insert_new_lookup, decide_False.
    + intros x. rewrite insert_new_lookup. destruct (decide (x = name)) as [->|Hne].
      * by rewrite lookup_delete, E1, E2.
      * by rewrite lookup_delete_ne.
  - destruct (nonContactingLimbs b !! name) as [l|] eqn:E2; intros [= <- <-]; simpl.
    + split_and!; try done; [naive_solver|naive_solver|by rewrite insert_new_lookup, decide_True, E1|by rewrite lookup_delete| |].
      * intros k Hk. by rewrite lookup_delete_ne, insert_new_lookup, decide_False.
      * intros x. rewrite insert_new_lookup. destruct (decide (x = name)) as [->|Hne].
        -- by rewrite E1, E2.
        -- by rewrite lookup_delete_ne.
    + rewrite E1, E2. split_and!; try done; naive_solver.
Qed.
End proofs.

(** ** C27 *)
Section traj.
Context {T : Type}.
Notation store := (gmap nat (gmap string (list T))).

Definition entry (p : nat) (e : string) (s : store) : option (list T) :=
  match s !! p with None => None | Some m => m !! e end.

Lemma entry_update (s : store) p e l p' e' :
  entry p' e' (<[p := <[e := l]> (default ∅ (s !! p))]> s) =
  if decide (p = p' /\ e = e') then Some l else entry p' e' s.
Proof.
  unfold entry. destruct (decide (p = p')) as [->|Hp].
  - rewrite lookup_insert. destruct (decide (e = e')) as [->|He].
    + rewrite lookup_insert. by rewrite decide_True.
    + rewrite lookup_insert_ne by done. rewrite decide_False by naive_solver. by destruct (s !! p').
  - rewrite lookup_insert_ne by done. by rewrite decide_False by naive_solver.
Qed.

Lemma traj_call_eq (o : traj_op T) (s : store) :
  traj_call o s =
  match o with
  | OSet p e l => match entry p e s with
                  | None => (<[p := <[e := l]> (default ∅ (s !! p))]> s, true)
                  | Some _ => (s, false)
                  end
  | OAppend p e t => (<[p := <[e := default [] (entry p e s) ++ [t]]> (default ∅ (s !! p))]> s, true)
  end.
Proof.
  destruct o as [p e l|p e t]; simpl; unfold addEffectorTrajectories, addEffectorTrajectory, entry;
    destruct (s !! p) as [m|] eqn:E; simpl; try done; by destruct (m !! e).
Qed.

Lemma traj_run_entry (ops : list (traj_op T)) (s : store) p e :
  entry p e (fold_left (fun s o => fst (traj_call o s)) ops s) = registered_list p e ops (entry p e s).
Proof.
  revert s. induction ops as [|o ops IH]; intros s; simpl; [done|]. rewrite IH, traj_call_eq. clear IH.
  destruct o as [p' e' l|p' e' t].
  - f_equal. destruct (entry p' e' s) as [l0|] eqn:E; simpl.
    + case_decide as Hd; [|done]. destruct Hd as [-> ->]. by rewrite E.
    + rewrite entry_update. case_decide as Hd; [|done]. destruct Hd as [-> ->]. by rewrite E.
  - f_equal. simpl. rewrite entry_update. case_decide as Hd; [|done]. by destruct Hd as [-> ->].
Qed.

Lemma C27_lemma (ops : list (traj_op T)) p e result :
  getEffectorTrajectory p e result (traj_run ops) =
  match registered_list p e ops None with Some l => (true, l) | None => (false, result) end.
Proof.
  pose proof (traj_run_entry ops (∅ : store) p e) as Hr. unfold entry in Hr at 2. rewrite lookup_empty in Hr.
  rewrite <- Hr. unfold getEffectorTrajectory, entry, traj_run.
  destruct (_ !! p) as [m|]; [|done]. by destruct (m !! e).
Qed.

Lemma C27_answer (ops : list (traj_op T)) o :
  snd (traj_call o (traj_run ops)) =
  match o with
  | OSet p e _ => match registered_list p e ops None with None => true | Some _ => false end
  | OAppend _ _ _ => true
  end.
Proof.
  rewrite traj_call_eq. destruct o as [p e l|p e t]; [|done].
  pose proof (traj_run_entry ops (∅ : store) p e) as Hr. unfold entry in Hr at 2. rewrite lookup_empty in Hr.
  unfold traj_run. rewrite Hr. by destruct (registered_list p e ops None).
Qed.

Lemma C27_map (ops : list (traj_op T)) p result ok m :
  getEffectorsTrajectories p result (traj_run ops) = (ok, m) ->
  if (ok : bool) then forall e, m !! e = registered_list p e ops None
  else m = result /\ forall e, registered_list p e ops None = None.
Proof.
  assert (Hr : forall e, entry p e (traj_run ops) = registered_list p e ops None).
  { intros e. pose proof (traj_run_entry ops (∅ : store) p e) as Hr. unfold entry in Hr at 2.
    by rewrite lookup_empty in Hr. }
  unfold getEffectorsTrajectories, entry in *. destruct (traj_run ops !! p) as [m'|]; intros [= <- <-].
  - done.
  - done.
Qed.
End traj.

(** what an accepted addition does *)
Section accepted.
Context {D V H : Type}.
Lemma heuristic_added name (f : H) (b : body D V H) b' r : AddHeuristic name f b = (b', r) ->
  (r = Ok true <-> heuristics b !! name = None) /\ (r = Ok false <-> is_Some (heuristics b !! name)) /\
  heuristics b' !! name = Some (default f (heuristics b !! name)) /\ (forall k, k <> name -> heuristics b' !! k = heuristics b !! k) /\
  limbs b' = limbs b /\ nonContactingLimbs b' = nonContactingLimbs b /\ validations b' = validations b /\ groups b' = groups b.
Proof.
  unfold AddHeuristic, has. destruct (heuristics b !! name) as [g|] eqn:E; intros [= <- <-]; cbn.
  - rewrite E. split; [split; intros; discriminate|]. split; [split; [eauto|reflexivity]|]. split_and!; done.
  - rewrite lookup_insert. split; [split; reflexivity|]. split; [split; [discriminate|intros [? [=]]]|]. split; [done|]. split_and!; try done.
    intros k Hk. by rewrite lookup_insert_ne.
Qed.
Lemma private_added (non : bool) l v id name (b : body D V H) : (if non then nonContactingLimbs b else limbs b) !! id = None ->
  let b' := AddLimbPrivate l v id name non b in
  (if non then nonContactingLimbs b' else limbs b') = <[id := l]> (if non then nonContactingLimbs b else limbs b) /\
  (if non then limbs b' else nonContactingLimbs b') = (if non then limbs b else nonContactingLimbs b) /\
  validations b' = <[id := default v (validations b !! id)]> (validations b) /\
  groups b' = <[name := default [] (groups b !! name) ++ [id]]> (groups b) /\ heuristics b' = heuristics b.
Proof.
  intros Hn. unfold AddLimbPrivate, insert_new, add_to_group, has. destruct non; cbn; rewrite Hn; split_and!; try done;
    try (destruct (validations b !! id) as [w|] eqn:E; cbn; [by rewrite insert_id|done]); by destruct (groups b !! name).
Qed.
Lemma limb_added id name heur d v (b b' : body D V H) x : AddLimb id name heur (Some (d, v)) b = (b', Ok x) ->
  x = true /\ limbs b' = <[id := mkLimb name d]> (limbs b) /\ nonContactingLimbs b' = nonContactingLimbs b /\
  validations b' = <[id := default v (validations b !! id)]> (validations b) /\
  groups b' = <[name := default [] (groups b !! name) ++ [id]]> (groups b) /\ heuristics b' = heuristics b.
Proof.
  unfold AddLimb, checkLimbData, has. destruct (limbs b !! id) as [l|] eqn:E; [done|]. cbn [negb andb]. destruct (heuristics b !! heur); [|done].
  intros [= <- <-]. split; [done|]. exact (private_added false (mkLimb name d) v id name b E).
Qed.
Lemma non_contacting_added id name d v (b b' : body D V H) x : AddNonContactingLimb id name (Some (d, v)) b = (b', Ok x) ->
  x = true /\ nonContactingLimbs b' = <[id := mkLimb name d]> (nonContactingLimbs b) /\ limbs b' = limbs b /\
  validations b' = <[id := default v (validations b !! id)]> (validations b) /\
  groups b' = <[name := default [] (groups b !! name) ++ [id]]> (groups b) /\ heuristics b' = heuristics b.
Proof.
  unfold AddNonContactingLimb, checkLimbData, has. destruct (nonContactingLimbs b !! id) as [l|] eqn:E; [done|]. cbn [negb andb]. destruct (heuristics b !! _); [|done].
  intros [= <- <-]. split; [done|]. exact (private_added true (mkLimb name d) v id name b E).
Qed.
End accepted.
