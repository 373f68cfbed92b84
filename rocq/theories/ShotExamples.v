(** A robot with one foot above the floor of ShootExamples: object 0 is the floor, object 1 a step
    that is not a mesh. *)
From Verif Require Import Maps MapsProofs Vec VecProofs GeomModel GeomSpec ShootModel ShootSpec ShootProofs ShootExamples ValidModel ValidSpec ShotModel ShotSpec ShotProofs.
Local Open Scope R_scope.
Definition ssurf (o : nat) : surface := if (o =? 0)%nat then ShootExamples.floor else mkSurface (fun v => v) None.
(** one pair for each object; the trunk touches the floor below 1/100; the foot touches it below 1 *)
Definition sself : list nat := [].
Definition spairs (o : nat) : list nat := [o].
Definition sobj (p : nat) : nat := p.
Definition strunk (q : conf unit) (p : nat) : option (nat * R) :=
  if (p =? 0)%nat then if Rltb (1 / 100) (vz (trans q)) then None else Some (0%nat, 0) else None.
Definition srom (q : conf unit) (r : string) (o : nat) : bool := (o =? 0)%nat && Rltb (vz (trans q)) 1.
Definition sbounds (q : conf unit) : bool := true.
Definition snames : gmap string unit := {[ "foot"%string := tt ]}.
Definition saff : gmap string (list nat) := {[ "Support"%string := [0%nat] ]}.
Definition sfilt : gmap string (list string) := {[ "foot"%string := ["Support"%string] ]}.
Definition sroot (i : nat) : option (R * R) := if (i =? 2)%nat then None else Some (-10, 10).
Lemma ex_contacts : contacts_ok sobj ssurf strunk.
Proof.
  intros q p i d ts. unfold strunk, sobj, ssurf. destruct (p =? 0)%nat; [|done]. destruct (Rltb _ _); [done|]. intros [= <- <-] [= <-]. cbn. lia.
Qed.
Lemma ex_root : root_ok 10 sroot.
Proof. split; [lra|]. intros i l u. unfold sroot. destruct (i =? 2)%nat; [done|]. intros [= <- <-]. lra. Qed.
Definition sshot : shotter nat nat :=
  mkShotter floorShooter (create tt snames ["foot"%string] sfilt saff) [0%nat; 0%nat] ["foot"%string] [].
Lemma ex_construct : construct ssurf sself spairs snames [0%nat] saff ["foot"%string] sfilt = Ok sshot.
Proof. reflexivity. Qed.
Lemma shot_report_low q : vz (trans q) = 0 -> shotReport ssurf sobj strunk srom sbounds (BoundSO3 yaw sshot) q = mkVrep false true (Some (V3 0 0 1, 0)).
Proof.
  intros Hz. unfold shotReport. cbn [trunkPairs BoundSO3 sshot firstTrunkHit]. unfold strunk. cbn [Nat.eqb]. rewrite Hz.
  assert (Rltb (1 / 100) 0 = false) as -> by (apply Rltb_false; lra). cbn [negb].
  assert (Hn : normalFromTriangleContact 0 (ssurf (sobj 0)) = Some (V3 0 0 1)).
  { cbn. f_equal. unfold TriangleNormal, placed, small, ShootExamples.floor. cbn [fst snd place]. unfold normalize, vcross, vsub, vnorm2, vdot. cbn [vx vy vz].
    assert (Rltb 0 _ = true) as -> by (apply Rltb_true; lra). unfold vnorm, vnorm2, vdot. cbn [vx vy vz].
    replace (_ * _ + _ * _ + _ * _) with 1 by ring. rewrite sqrt_1. unfold vscale. cbn. f_equal; field. }
  rewrite Hn, Rabs_R0. f_equal.
  unfold validate, validateRoms. cbn [roms validator sshot BoundSO3 filter_].
  change (sitems (roms (create tt snames ["foot"%string] sfilt saff))) with [("foot"%string, createRom tt ["foot"%string] sfilt saff "foot"%string)].
  destruct (romsLoop _ _ _ _ _ _) as [[[m rs] [rep|]]| |]; cbn; try done. by rewrite andb_false_r.
Qed.
Lemma shot_report_high q : vz (trans q) = 3 / 100 -> accepted (shotReport ssurf sobj strunk srom sbounds (BoundSO3 yaw sshot) q) = true.
Proof.
  intros Hz. apply (shot_accepted ssurf sself spairs sobj strunk srom sbounds snames [0%nat] saff ["foot"%string] sfilt sshot ex_construct yaw [] (validator sshot) eq_refl q).
  split; [apply NoDup_singleton|]. assert (Rltb (1 / 100) (3 / 100) = true) as H1 by (apply Rltb_true; lra). assert (Rltb (3 / 100) 1 = true) as H2 by (apply Rltb_true; lra).
  split.
  - split; [intros p Hp; by apply elem_of_nil in Hp|]. intros g p [->|Hg]%elem_of_cons Hp; [|by apply elem_of_nil in Hg].
    apply elem_of_list_singleton in Hp as ->. unfold strunk. rewrite Hz. cbn. by rewrite H1.
  - done.
  - intros r ->%elem_of_list_singleton. split; [by eexists|]. exists ["Support"%string], "Support"%string, [0%nat], 0%nat. split_and!; try done; try left. unfold srom. by rewrite Hz, H2.
Qed.
(** lifted out of the floor, the foot touches it: found at the second validation *)
Lemma ex_shot : exists q w', shoot ShootExamples.half first uni ssurf sobj strunk srom sbounds 10 sroot (3 / 10) 1 5 (BoundSO3 yaw sshot) 0%nat = Ok (true, q, w', 2%nat) /\ vz (trans q) = 3 / 100.
Proof.
  unfold shoot, impl_shoot, uni. cbn [shootLoop]. unfold pickTriangle, ShootExamples.half. cbn [floorShooter triangles length surfaces BoundSO3 sshot eulerSo3_].
  assert (Rltb (3 / 10) (1 / 2) = true) as -> by (apply Rltb_true; lra). cbn [Nat.eqb first lookup list_lookup].
  unfold randConfigAtPos, SampleRotation, yaw. cbn [trans rest SetConfigTranslation orientation]. cbn [moveLoop].
  set (P := pointInTriangle _ _ _).
  assert (Hz : vz P = 0). { unfold P, pointInTriangle, small. cbn [vadd vscale vz]. ring. }
  assert (Hb : ShootModel.bound (-10) 10 (vz P) = 0). { rewrite Hz. apply bound_id. lra. }
  set (Q0 := bound3 _ P). assert (HQ0 : vz Q0 = 0) by exact Hb.
  fold yaw. change (mkShotter floorShooter (validator sshot) (trunkPairs sshot) (filter_ sshot) yaw) with (BoundSO3 yaw sshot).
  rewrite (shot_report_low (mkConf Q0 _ _)) by done. cbn [accepted trunkInCollision firstContact].
  unfold Translate. cbn [trans orientation rest]. set (Q := bound3 _ (vadd Q0 _)).
  assert (HQ : vz Q = 3 / 100).
  { change (ShootModel.bound (-10) 10 (vz Q0 + (0 + 3 / 100) * 1) = 3 / 100). rewrite HQ0, bound_id; lra. }
  rewrite (shot_report_high (mkConf Q _ _)) by done. eexists _, _. split; [done|]. done.
Qed.
(** a filter naming the foot twice is hopeless *)
Lemma ex_hopeless : hopeless snames saff ["foot"%string; "foot"%string] sfilt.
Proof. left. intros H. apply NoDup_cons in H as [H _]. apply H. left. Qed.
