(** Concrete cases for the contacts that hold. *)
From Coq Require Import Reals ZArith Lra Lia.
From Verif Require Import Maps MapsProofs CombModel GenModel GenSpec GenProofs13 StateModel StateSpec StateReal StateProofs Vec VecProofs SampModel ToolModel ToolSpec
  ProjModel ProjSpec ProjProofs ProjProofs2 ProjExamples SeqModel SeqSpec SeqProofs2 SeqProofs3 SeqProofs7 SeqExamples HoldSpec HoldProofs HoldRobot HoldProofs2 HoldProofs3.
From Verif Require Import StateModel ToolSpec ProjModel.

(** ** Numbers: a configuration gives the places of two effectors *)
Section numbers.
Local Open Scope string_scope.
Local Open Scope nat_scope.
Definition ntwo (e : string) (c : nat * nat) : nat := if bool_decide (e = "leg") then fst c else snd c.
Definition nset (e : string) (v : nat) (c : nat * nat) : nat * nat := if bool_decide (e = "leg") then (v, snd c) else (fst c, v).
(** the contacts of [s] are where the effectors are at [c] *)
Definition nfits (s : State (nat * nat) nat nat Z) (c : nat * nat) : bool :=
  forallb (fun e => match positions s !! e with Some p => Nat.eqb p (ntwo e c) | None => true end) ["arm"; "leg"].
Definition nserv : services (nat * nat) nat nat nat (string * nat) :=
  mkServices (nat * nat) nat nat nat (string * nat) (fun _ _ _ => [3; 5]) (fun _ e x c _ => (Nat.leb 4 x, nset e x c)) (fun x => x) ntwo (fun _ _ => 0)
    (fun _ => 9%Z) (fun _ _ => true) (fun _ _ => true) (fun _ _ => true) (fun e => [(e, 7)]) (fun s c => nset (fst s) (snd s) c)
    (fun c s => (nfits s c, c)) (fun _ => true) ["arm"; "leg"] [] (fun l => [l]) (fun a _ => a) (0, 0) 0 0 0%Z (-1)%Z.
Definition nnear (e : string) (p r p' r' : nat) : Prop := p' = p.
Lemma nset_other e e' v c : e ∈ ["arm"; "leg"] -> e' ∈ ["arm"; "leg"] -> e' <> e -> ntwo e' (nset e v c) = ntwo e' c.
Proof.
  intros H1 H2 Hn. rewrite !elem_of_cons, elem_of_nil in H1, H2. destruct H1 as [->|[->|[]]], H2 as [->|[->|[]]]; try done; destruct c; reflexivity.
Qed.
Lemma nserv_kinematics : kinematics nserv nnear (fun e c c' => forall e', e' ∈ ["arm"; "leg"] -> e' <> e -> ntwo e' c = ntwo e' c').
Proof.
  split.
  - done.
  - intros conf cur c [= Hf <-] e He p r Hp Hr. unfold nnear. simpl in *. unfold nfits in Hf. rewrite forallb_forall in Hf.
    specialize (Hf e ltac:(by apply elem_of_list_In)). rewrite Hp in Hf. by apply Nat.eqb_eq in Hf.
  - intros limb x c cur Hl H e' He' Hne. simpl. rewrite nset_other by done. by apply H.
  - done.
  - intros limb c c' Hl H e He Hne. split; [|done]. by apply H.
  - intros limb smp c [Hl|Hl%elem_of_nil] Hs e He Hne; [|done]. apply elem_of_list_singleton in Hs as ->. simpl. split; [|done].
    by rewrite nset_other.
  - done.
Qed.
Lemma nserv_separate : separate_limbs nserv.
Proof. split; simpl; [apply (bool_decide_unpack _); by vm_compute|by intros x _ ?%elem_of_nil|done]. Qed.
(** the leg is in contact at 1; the robot is asked to go to (1, 2) and makes contact with the arm at 5 *)
Definition nstart : State (nat * nat) nat nat Z := fold_left state_step [OpAdd "leg" (1, 2) 1 0 0] (state_default (1, 2) 0%Z).
Lemma nstart_ok : consistent nstart /\ (forall x, x ∈ order nstart -> x ∈ limbNames nserv) /\ held nserv nnear nstart.
Proof.
  split; [apply consistent_history|]. split.
  - intros x Hx. change (order nstart) with ["leg"] in Hx. apply elem_of_list_singleton in Hx as ->. simpl. set_solver.
  - intros e He p r. simpl in He. rewrite !elem_of_cons, elem_of_nil in He. destruct He as [->|[->|[]]]; [by vm_compute|].
    intros [= <-] _. reflexivity.
Qed.
Lemma nstep : exists cr h, ComputeContacts_next nserv (fun a b => negb (Nat.eqb a b)) 10 nstart (1, 2) 3 false true false = Some (cr, h) /\
  success (cr_rep cr) = true /\ order (result (cr_rep cr)) = ["leg"; "arm"] /\ configuration (result (cr_rep cr)) = (1, 5).
Proof. eexists _, _. split; [vm_compute; reflexivity|]. split_and!; reflexivity. Qed.
(** the robot goes to (8, 2): the leg cannot stay, it is put elsewhere *)
Lemma nstep_reposition : exists cr h, ComputeContacts_next nserv (fun a b => negb (Nat.eqb a b)) 10 nstart (8, 2) 3 false true false = Some (cr, h) /\
  positions (result (cr_rep cr)) !! "leg" = Some 5 /\ configuration (result (cr_rep cr)) <> (8, 2).
Proof. eexists _, _. split; [vm_compute; reflexivity|]. split; [reflexivity|done]. Qed.
Lemma nfirst : exists r, ComputeContacts_initial nserv (1, 2) 3 false = (r, false) /\ configuration r = (5, 5) /\ length (order r) = 2.
Proof. eexists. split; [vm_compute; reflexivity|]. split; reflexivity. Qed.
End numbers.

Local Open Scope R_scope.
(** ** The services made of the projections of a robot *)
Section made.
Variable solve : projector -> list R -> bool * list R.
Variable axis : vec3 -> vec3 -> vec3.
Variable B : fullbody.
Variable oct : string -> list (sample R * vec3 * (vec3 * vec3 * vec3)).
Variable stab : State (list R) vec3 mat3 Z -> Z.
Variable smps : string -> list (sample R).
Definition limb_frame (e : string) : option frame :=
  match limbsOf B !! e with Some l => frames (dev B) !! effName l | None => None end.
Definition made_ik (limb : string) (x : sample R * vec3 * (vec3 * vec3 * vec3)) (q : list R) (cur : State (list R) vec3 mat3 Z) : bool * list R :=
  let '(smp, n, (v1, v2, v3)) := x in
  match limbsOf B !! limb with
  | None => (false, q)
  | Some l =>
    match projectSampleToObstacle solve B axis (configuration cur) limb l smp n v1 v2 v3 (fun _ => true) q (with_rob 0 cur) with
    | Ok rep => if psuccess rep then (true, configuration (presult rep)) else (false, q)
    | _ => (false, q)
    end
  end.
Definition made_root (conf : list R) (cur : State (list R) vec3 mat3 Z) : bool * list R :=
  match projectToRootConfiguration solve B conf (with_rob 0 cur) vzero with
  | Ok rep => (psuccess rep, configuration (presult rep))
  | _ => (false, conf)
  end.
Definition made : services (list R) vec3 mat3 (sample R * vec3 * (vec3 * vec3 * vec3)) (sample R) :=
  mkServices _ _ _ _ _ (fun e _ _ => oct e) (fun _ => made_ik) (fun x => vnormalize (snd (fst x)))
    (fun e c => match limb_frame e with Some f => tra (fpose (dev B) c f) | None => vzero end)
    (fun e c => match limb_frame e with Some f => rot (fpose (dev B) c f) | None => mid end)
    stab (fun _ _ => true) (fun _ _ => true) (fun _ c => wholeValid B c) smps
    (fun x c => match Load (content x) c with Ok c' => c' | _ => c end)
    made_root (wholeValid B) ((map_to_list (limbsOf B)).*1) [] (fun l => [l]) (fun a _ => a) [] vzero mid 0%Z (-1)%Z.
Lemma made_names e : e ∈ limbNames made <-> is_Some (limbsOf B !! e).
Proof.
  simpl. rewrite elem_of_list_fmap. split.
  - intros ([k l] & -> & H%elem_of_map_to_list). by exists l.
  - intros [l H]. exists (e, l). split; [done|]. by apply elem_of_map_to_list.
Qed.
Lemma made_separate : separate_limbs made.
Proof. split; simpl; [apply NoDup_fst_map_to_list|by intros x _ ?%elem_of_nil|done]. Qed.
(** [made] is made of the robot's projections when effectors are on their own limbs only *)
Lemma made_services :
  (forall e l, limbsOf B !! e = Some l -> is_Some (frames (dev B) !! effName l)) ->
  (forall e le fe x l, limbsOf B !! e = Some le -> frames (dev B) !! effName le = Some fe -> limbsOf B !! x = Some l -> e <> x ->
    forall j, above (dev B) (fjoint fe) j -> jname j <> limbJoint l) ->
  (forall limb x e le fe, is_Some (limbsOf B !! limb) -> x ∈ smps limb -> limbsOf B !! e = Some le -> frames (dev B) !! effName le = Some fe -> e <> limb ->
    forall j i, above (dev B) (fjoint fe) j -> entry_of j i -> ~ sets x i) ->
  robot_services solve axis B made.
Proof.
  intros Hfr Hap Hsm. split.
  - exact made_names.
  - intros e l Hl. destruct (Hfr e l Hl) as [f Hf]. exists f. split; [done|]. intros c. simpl. unfold limb_frame. by rewrite Hl, Hf.
  - exact Hap.
  - intros conf cur c. simpl. unfold made_root. destruct (projectToRootConfiguration _ _ _ _ _) as [rep| |] eqn:E; try done.
    intros [= Hs Hc]. exists (with_rob 0 cur), rep. split; [done|]. done.
  - intros limb l x q cur ok c Hl He. simpl. unfold made_ik. destruct x as [[smp n] [[v1 v2] v3]]. rewrite Hl.
    destruct (projectSampleToObstacle _ _ _ _ _ _ _ _ _ _ _ _ _ _) as [rep| |] eqn:E; [destruct (psuccess rep) eqn:Es|..]; intros [= <- <-]; split; try done.
    intros _. exists (configuration cur), smp, n, v1, v2, v3, (with_rob 0 cur), rep. split; [by intros j _|]. done.
  - done.
  - intros limb x e le fe [Hl|Hl%elem_of_nil]; [|done]. apply Hsm. by apply made_names.
  - done.
Qed.
End made.

(** ** A robot with a leg and an arm *)
Definition htree : jnt := Jnt "root_joint" 0 7 true [Jnt "hip" 7 1 true []; Jnt "shoulder" 8 1 true []].
Definition hpose (q : list R) (n : string) : se3 :=
  SE3 mid (if bool_decide (n = "hip"%string) then vadd (head3 q) (V3 0 0 (nth 7 q 0))
    else if bool_decide (n = "shoulder"%string) then vadd (head3 q) (V3 (nth 8 q 0) 0 0)
    else if bool_decide (n = "root_joint"%string) then head3 q else vzero).
Definition hrobot : robot :=
  mkRobot hpose head3 htree (<["foot" := mkFrame "hip" se3id]> (<["hand" := mkFrame "shoulder" se3id]> ∅))%string 8 (fun m => V3 (angle m) 0 0) (fun _ _ _ => 0).
Definition hleg : plimb := mkPlimb "hip" None "foot" vzero (V3 0 0 1) _3_DOF [].
Definition harm : plimb := mkPlimb "shoulder" None "hand" vzero (V3 0 0 1) _6_DOF [].
Definition hq (x : R) : list R := [x; 0; 0; 0; 0; 0; 1; 0; 0].
Definition hbody : fullbody := mkFullbody hrobot (<["leg" := hleg]> (<["arm" := harm]> ∅))%string (hq 0) [] false (fun _ => true) ∅ 0.
Definition hsample (r : nat) (v : R) : sample R := mkSample 0 0 (mkContent r 1 [v] (0, 0, 0) (0, 0, 0) (mkMat 0 0 []) (mkMat 0 0 [])).
Definition hsamples (e : string) : list (sample R) := if bool_decide (e = "leg"%string) then [hsample 7 (1/2); hsample 7 1] else [hsample 8 (1/2)].
Definition hcheck (p : projector) (q : list R) : bool * list R := (forallb (satb hrobot (thr p) q) (cs p ++ cs1 p), q).
Lemma hcheck_sound : sound_solver hrobot hcheck.
Proof.
  intros p q q' H c Hc. unfold hcheck in H. injection H as H <-. apply satb_spec.
  rewrite forallb_forall in H. apply H. apply elem_of_list_In, elem_of_app. destruct Hc as [Hc|[_ Hc]]; auto.
Qed.
Lemma hrobot_lawful : lawful_robot hrobot.
Proof.
  split.
  - intros q j. apply rotation_mid.
  - intros n f. cbn. rewrite !lookup_insert_Some, lookup_empty. intros [[_ <-]|[_ [[_ <-]|[_ H]]]]; [apply rotation_mid..|discriminate].
  - intros m _. cbn [log3 hrobot]. unfold vnorm, vnorm2, vdot. cbn [vx vy vz].
    replace (angle m * angle m + 0 * 0 + 0 * 0) with (angle m * angle m) by ring. apply sqrt_square, angle_nonneg.
Qed.

Lemma hin_tree j : in_tree htree j -> j = htree \/ j = Jnt "hip" 7 1 true [] \/ j = Jnt "shoulder" 8 1 true [].
Proof.
  intros H. inversion H as [|? k ? Hk Hj]; subst; [by left|]. right. simpl in Hk. rewrite !elem_of_cons, elem_of_nil in Hk.
  destruct Hk as [->|[->|[]]]; (inversion Hj as [|? k' ? Hk' ?]; subst; [auto|by apply elem_of_nil in Hk']).
Qed.
Lemma hup : above hrobot "hip" htree /\ above hrobot "shoulder" htree /\ above hrobot "hip" (Jnt "hip" 7 1 true []) /\ above hrobot "shoulder" (Jnt "shoulder" 8 1 true []).
Proof.
  assert (H1 : in_tree htree (Jnt "hip" 7 1 true [])) by (eapply in_down; [|constructor]; simpl; set_solver).
  assert (H2 : in_tree htree (Jnt "shoulder" 8 1 true [])) by (eapply in_down; [|constructor]; simpl; set_solver).
  split_and!; (split; [first [exact H1|exact H2|apply in_here]|]).
  - exists (Jnt "hip" 7 1 true []). split; [exact H1|reflexivity].
  - exists (Jnt "shoulder" 8 1 true []). split; [exact H2|reflexivity].
  - exists (Jnt "hip" 7 1 true []). split; [apply in_here|reflexivity].
  - exists (Jnt "shoulder" 8 1 true []). split; [apply in_here|reflexivity].
Qed.
Lemma habove n j : above hrobot n j -> j = htree \/ jname j = n.
Proof.
  intros [Hj (k & Hk & <-)]. apply hin_tree in Hj as [->|[->| ->]]; [by left|..]; right;
    (inversion Hk as [|? k' ? Hk' ?]; subst; [done|by apply elem_of_nil in Hk']).
Qed.
Lemma hhead q q' : lockOf q htree = lockOf q' htree -> head3 q = head3 q'.
Proof.
  intros H. injection H as H.
  assert (E : forall i, (i < 7)%nat -> nth i q 0 = nth i q' 0).
  { intros i Hi. rewrite !nth_lookup. f_equal. rewrite <- (lookup_take q 7 i Hi), <- (lookup_take q' 7 i Hi). exact (f_equal (fun l => l !! i) H). }
  unfold head3. by rewrite !E by lia.
Qed.
Lemma hjoint n r q q' : lockOf q (Jnt n r 1 true []) = lockOf q' (Jnt n r 1 true []) -> nth r q 0 = nth r q' 0.
Proof.
  intros H. injection H as H. rewrite !nth_lookup. f_equal.
  pose proof (f_equal (fun l => l !! 0%nat) H) as E. cbv beta in E. rewrite !lookup_take, !lookup_drop, !Nat.add_0_r in E by lia. done.
Qed.
Lemma hchain : chain_law hrobot.
Proof.
  intros n q q' H. destruct hup as (U1 & U2 & U3 & U4). cbn [jpose hrobot]. unfold hpose. f_equal.
  destruct (bool_decide (n = "hip"%string)) eqn:E1.
  { apply bool_decide_eq_true in E1 as ->. rewrite (hhead q q') by (by apply H). by rewrite (hjoint "hip" 7 q q') by (by apply H). }
  destruct (bool_decide (n = "shoulder"%string)) eqn:E2.
  { apply bool_decide_eq_true in E2 as ->. rewrite (hhead q q') by (by apply H). by rewrite (hjoint "shoulder" 8 q q') by (by apply H). }
  destruct (bool_decide (n = "root_joint"%string)) eqn:E3; [|done]. apply bool_decide_eq_true in E3 as ->.
  apply hhead, H. split; [constructor|]. exists htree. split; [constructor|done].
Qed.
Lemma hlimbs e l : limbsOf hbody !! e = Some l -> (e = "leg"%string /\ l = hleg) \/ (e = "arm"%string /\ l = harm).
Proof. cbn. rewrite !lookup_insert_Some, lookup_empty. naive_solver. Qed.
Lemma hframe_leg f : frames (dev hbody) !! effName hleg = Some f -> f = mkFrame "hip" se3id.
Proof. vm_compute. congruence. Qed.
Lemma hframe_arm f : frames (dev hbody) !! effName harm = Some f -> f = mkFrame "shoulder" se3id.
Proof. vm_compute. congruence. Qed.
Lemma hservices oct stab : robot_services hcheck (fun a _ => a) hbody (made hcheck (fun a _ => a) hbody oct stab hsamples).
Proof.
  apply made_services.
  - intros e l [[_ ->]|[_ ->]]%hlimbs; by eexists.
  - intros e le fe x l [[-> ->]|[-> ->]]%hlimbs Hf [[-> ->]|[-> ->]]%hlimbs Hne j Hj; try done.
    + apply hframe_leg in Hf as ->. apply habove in Hj as [->|Hj]; [done|]. rewrite Hj. done.
    + apply hframe_arm in Hf as ->. apply habove in Hj as [->|Hj]; [done|]. rewrite Hj. done.
  - intros limb x e le fe [l [[-> ->]|[-> ->]]%hlimbs] Hx [[-> ->]|[-> ->]]%hlimbs Hf Hne j i Hj Hi Hs; try done.
    + apply hframe_arm in Hf as ->. destruct Hj as [Hj Hk]. pose proof (habove "shoulder" j (conj Hj Hk)) as Hn.
      unfold hsamples in Hx. simpl in Hx. rewrite !elem_of_cons, elem_of_nil in Hx.
      apply hin_tree in Hj as [->|[->| ->]]; cbn in Hi, Hn; destruct Hx as [->|[->|[]]]; unfold sets in Hs; cbn in Hs; try lia; naive_solver.
    + apply hframe_leg in Hf as ->. destruct Hj as [Hj Hk]. pose proof (habove "hip" j (conj Hj Hk)) as Hn.
      unfold hsamples in Hx. simpl in Hx. apply elem_of_list_singleton in Hx as ->.
      apply hin_tree in Hj as [->|[->| ->]]; cbn in Hi, Hn; unfold sets in Hs; cbn in Hs; try lia; naive_solver.
Qed.
(** states whose contacts hold *)
Definition hfoot (q : list R) : vec3 := tra (fpose hrobot q (mkFrame "hip" se3id)).
Definition hhand (q : list R) : vec3 := tra (fpose hrobot q (mkFrame "shoulder" se3id)).
Lemma hpose_id q n : rot (fpose hrobot q (mkFrame n se3id)) = mid.
Proof. unfold fpose, se3mul, mid, mmul, mapp, vdot. cbn. f_equal; f_equal; ring. Qed.
Lemma sst_holds q leg arm : (leg = None \/ leg = Some (hfoot q)) -> (arm = None \/ arm = Some (hhand q)) -> holds hbody (sst q leg arm).
Proof.
  intros H1 H2 e l f p Hl Hf Hp. rewrite sst_positions in Hp. change (configuration (sst q leg arm)) with q.
  apply hlimbs in Hl as [[-> ->]|[-> ->]]; simpl in Hp.
  - apply hframe_leg in Hf as ->. destruct H1 as [->|E]; [done|]. rewrite Hp in E. injection E as ->. split; [unfold hfoot; cbn [dev hbody]; rewrite dist3_self; lra|done].
  - apply hframe_arm in Hf as ->. destruct H2 as [->|E]; [done|]. rewrite Hp in E. injection E as ->. split; [unfold hhand; cbn [dev hbody]; rewrite dist3_self; lra|].
    intros _ r Hr Hrr. cbn [dev hbody]. rewrite hpose_id. assert (r = mid) as ->; [|rewrite angle_self by apply rotation_mid; lra].
    destruct leg, arm; cbn in Hr; rewrite ?lookup_insert_Some, ?lookup_empty in Hr; naive_solver.
Qed.
(** the start of the robot, for the generator *)
Definition hstart : PSt := fold_left state_step [OpAdd "leg"%string (hq 0) (hfoot (hq 0)) (V3 0 0 1) mid] (state_default (hq 0) 0).
Lemma hstart_good (limbs : list string) : "leg"%string ∈ limbs -> consistent hstart /\ (forall x, x ∈ order hstart -> x ∈ limbs) /\ holds hbody hstart.
Proof.
  intros Hl. split; [|split].
  - apply consistent_history.
  - intros x Hx. apply elem_of_list_singleton in Hx as ->. done.
  - intros e l f p Hlb Hf Hp. change (positions hstart) with (<["leg"%string := hfoot (hq 0)]> (∅ : gmap string vec3)) in Hp. rewrite lookup_insert_Some, lookup_empty in Hp. destruct Hp as [[<- <-]|[_ ?]]; [|done]. change (configuration hstart) with (hq 0).
    apply hlimbs in Hlb as [[_ ->]|[? _]]; [|done]. apply hframe_leg in Hf as ->. split; [cbn [dev hbody]; rewrite dist3_self; lra|done].
Qed.
(** a sequence: the foot follows, the hand is put at the goal *)
Definition hcomp (k : nat) (prev : PSt) (c : list R) (d a : vec3) (t : R) : creport :=
  mkCrep true true false true false (sst (hq (INR (S k))) (Some (hfoot (hq (INR (S k))))) None).
Definition hbegin : PSt := sst (hq 0) (Some (hfoot (hq 0))) None.
Definition hend : PSt := sst (hq 2) (Some (hfoot (hq 2))) (Some (hhand (hq 2))).
Lemma hcomp_reliable : reliable hcomp (holds hbody).
Proof.
  intros k prev c d a t _. cbn. split; [by intros [?|?]|]. intros s (E1 & _ & _ & E3 & E4 & _).
  eapply (holds_same hbody _ s E1 E3 E4). apply sst_holds; [by right|by left].
Qed.
Lemma hcomp_loop : interpLoop hcomp 9 0 [hq 0; hq 1; hq 2] 1 10 (initial 0 hbegin) =
  Some (Ok (true, [(0, hbegin); (0, recount (sst (hq (INR 1)) (Some (hfoot (hq (INR 1)))) None));
    (0 + 1, recount (sst (hq (INR 2)) (Some (hfoot (hq (INR 2)))) None))])).
Proof. reflexivity. Qed.
Lemma hcomp_run : holds hbody hbegin /\ holds hbody hend /\ exists r,
  InterpolateConfigs hcomp 9 0 false (fun _ _ => false) hcheck (fun a _ => a) hbody hbegin hend 10 None [hq 0; hq 1; hq 2] 1 0 false = Some (Ok r) /\
  r !! 0%nat = Some (0, hbegin) /\ last r = Some (0 + 1, hend).
Proof.
  split; [apply sst_holds; [by right|by left]|]. split; [apply sst_holds; by right|].
  unfold InterpolateConfigs. rewrite hcomp_loop. cbn [length Nat.ltb Nat.leb].
  rewrite (goal_one hcheck hbody hend None _ (0 + 1) (recount (sst (hq (INR 2)) (Some (hfoot (hq (INR 2)))) None)) "arm"); [|reflexivity|].
  - cbn [fst]. match goal with |- context [FilterStates _ _ _ _ _ _ ?l false] => destruct (FS_ends false (fun _ _ => false) hcheck (fun a _ => a) hbody l false) as (o & Ho & Hr) end.
    unfold FilterStates in *. cbn [length Nat.leb app] in *. specialize (Ho 10%nat ltac:(lia)). injection Ho as <-. eexists. split; [reflexivity|].
    destruct (Hr _ eq_refl) as [H1 H2]. split; [exact H1|]. exact H2.
  - intros e. unfold differs, hend.
    change (new_or_moved (recount (sst (hq (INR 2)) (Some (hfoot (hq (INR 2)))) None))) with (gained (sst (hq (INR 2)) (Some (hfoot (hq (INR 2)))) None)).
    change (new_or_moved (sst (hq 2) (Some (hfoot (hq 2))) (Some (hhand (hq 2)))) (recount (sst (hq (INR 2)) (Some (hfoot (hq (INR 2)))) None)))
      with (gained (sst (hq 2) (Some (hfoot (hq 2))) (Some (hhand (hq 2)))) (sst (hq (INR 2)) (Some (hfoot (hq (INR 2)))) None)).
    replace (INR 2) with 2 by (simpl; lra). rewrite !sst_gained, !moved_some. pose proof (near_self (hfoot (hq 2))). pose proof (moved_new (hhand (hq 2))). pose proof (moved_none (Some (hhand (hq 2)))). naive_solver.
Qed.
