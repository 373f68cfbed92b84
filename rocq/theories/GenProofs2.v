From Coq Require Import ZArith.
From Verif Require Import Maps MapsProofs StateModel StateSpec StateProofs CombModel CombProofs GenModel GenSpec GenProofs.

(** Arguments of the section-defined record [search] *)
Section proofs.
Context {Cfg Pos Rot Cand Smp : Type}.
Notation St := (State Cfg Pos Rot Z).
Notation Rep := (report Cfg Pos Rot).
Notation Hlp := (helper Cfg Pos Rot).
Notation srch := (@search Cfg Pos Rot).
Variable S : services Cfg Pos Rot Cand Smp.

Section pass.
Variable h : Hlp.
Variable post : bool.
Variable limb : string.
Variable cur : St.

Definition proj_state (x : Cand) (cfg : Cfg) : St :=
  mkState cfg (<[limb := true]> (contacts cur)) (<[limb := candNormal S x]> (normals cur))
    (<[limb := fkPos S limb cfg]> (positions cur)) (<[limb := fkRot S limb cfg]> (rotations cur))
    (order cur ++ [limb]) ((nbContacts cur + 1) mod 2 ^ 64)%Z (stable cur) (junkRob S).

Definition projf (cfg : Cfg) (x : Cand) : option St :=
  let '(ok, cfg') := ik S post limb x cfg cur in
  if ok && limbValid S limb cfg' then Some (proj_state x cfg') else None.

Notation after l := (cfg_after S post limb cur l (configuration cur)).
Notation P := (projects S post limb cur).

Lemma after_snoc l x : after (l ++ [x]) = snd (ik S post limb x (after l) cur).
Proof. unfold cfg_after. by rewrite fold_left_app. Qed.

Lemma projects_iff a x p : P a x p <-> projf (after a) x = Some p.
Proof.
  unfold projects, projf. split.
  - intros (cfg & -> & -> & ->). done.
  - destruct (ik S post limb x (after a) cur) as [[] cfg] eqn:E; simpl; [|done].
    destruct (limbValid S limb cfg) eqn:Ev; [|done]. intros [= <-]. by exists cfg.
Qed.

Lemma projf_cfg cfg x p : projf cfg x = Some p ->
  configuration p = snd (ik S post limb x cfg cur) /\ p = proj_state x (configuration p).
Proof.
  unfold projf. destruct (ik S post limb x cfg cur) as [[] c]; simpl; [|done].
  destruct (limbValid S limb c); [|done]. by intros [= <-].
Qed.

Definition place_of (p : St) : Pos * Pos * Rot :=
  (default (junkPos S) (positions p !! limb), default (junkPos S) (normals p !! limb),
   default (junkRot S) (rotations p !! limb)).

Definition nocheck : bool :=
  negb (checkGen h) || ((((nbContacts cur + 1) mod 2 ^ 64) =? 1)%Z && negb (stableForOne h)).

Lemma try_candidate_eq (s : srch) x :
  try_candidate S h post limb cur s x =
  if found_sample s then s else
  let cfg := snd (ik S post limb x (sCfg s) cur) in
  match projf (sCfg s) x with
  | None => mkSearch false (found_stable s) (unstableContact s) cfg (moreRobust s)
              (bestUnreachable s) (maxRob s) (place s)
  | Some p =>
    if nocheck then mkSearch true (found_stable s) (unstableContact s) cfg (moreRobust s)
                      (bestUnreachable s) (maxRob s) (place_of p)
    else if (thr h <=? isStable S p)%Z then
      if reachable S h cur p then
        mkSearch true (found_stable s) (unstableContact s) cfg (moreRobust s) (bestUnreachable s)
          (maxRob s) (place_of p)
      else if found_stable s then
        mkSearch false true (unstableContact s) cfg (moreRobust s) (bestUnreachable s)
          (maxRob s) (place s)
      else
        mkSearch false true (unstableContact s) cfg (moreRobust s) cfg
          (Z.max (isStable S p) (maxRob s)) (place_of p)
    else if (maxRob s <? isStable S p)%Z && contactIfFails h then
      mkSearch false (found_stable s) true cfg cfg (bestUnreachable s) (isStable S p) (place_of p)
    else
      mkSearch false (found_stable s) (unstableContact s) cfg (moreRobust s) (bestUnreachable s)
        (maxRob s) (place s)
  end.
Proof.
  unfold try_candidate. destruct (found_sample s); [done|].
  unfold projectSampleToObstacle, projf. destruct (ik S post limb x (sCfg s) cur) as [ok cfg].
  simpl. destruct (ok && limbValid S limb cfg); simpl; done.
Qed.

Lemma fold_found l (s : srch) :
  found_sample s = true -> fold_left (try_candidate S h post limb cur) l s = s.
Proof.
  intros Hf. induction l as [|x l IH]; simpl; [done|]. rewrite try_candidate_eq, Hf. apply IH.
Qed.

(** no candidate of [l] has a projection satisfying [Q] *)
Definition none_in (Q : St -> Prop) (l : list Cand) : Prop :=
  forall a x b p, l = a ++ x :: b -> P a x p -> ~ Q p.

Lemma none_in_nil Q : none_in Q [].
Proof. intros a x b p E. by destruct a. Qed.
Lemma none_in_snoc Q l y : none_in Q l -> (forall p, P l y p -> ~ Q p) -> none_in Q (l ++ [y]).
Proof.
  intros Hl Hy a x b p E Hp. destruct b as [|z b _] using rev_ind.
  - apply app_inj_tail in E as [<- <-]. by apply Hy.
  - rewrite app_comm_cons, app_assoc in E. apply app_inj_tail in E as [E _]. eapply Hl; eauto.
Qed.

Definition s_init (f2 f3 : bool) : srch :=
  mkSearch false f2 f3 (configuration cur) (emptyCfg S) (emptyCfg S) (minRob S)
    (junkPos S, junkPos S, junkRot S).

(** Case A: stability not looked at *)
Lemma fold_nocheck l f2 f3 :
  nocheck = true ->
  let s := fold_left (try_candidate S h post limb cur) l (s_init f2 f3) in
  (found_sample s = false /\ found_stable s = f2 /\ unstableContact s = f3 /\
     sCfg s = after l /\ none_in (fun _ => True) l /\
     moreRobust s = emptyCfg S /\ bestUnreachable s = emptyCfg S) \/
  (found_sample s = true /\ exists a x b p, l = a ++ x :: b /\ P a x p /\
     none_in (fun _ => True) a /\ sCfg s = configuration p /\ place s = place_of p).
Proof.
  intros Hn. induction l as [|y l IH] using rev_ind; simpl.
  { left. split_and!; try done. apply none_in_nil. }
  rewrite fold_left_app. simpl. set (s := fold_left _ l _) in *. simpl in IH.
  rewrite try_candidate_eq. destruct IH as [(Hf & H2 & H3 & Hc & Hno & Hm & Hb)|(Hf & a & x & b & p & -> & Hp & Hno & Hc & Hpl)].
  - rewrite Hf, Hn. simpl. rewrite Hc. destruct (projf (after l) y) as [p|] eqn:E.
    + right. split; [done|]. exists l, y, [], p. split_and!; try done.
      * by apply projects_iff.
      * simpl. symmetry. by apply projf_cfg.
    + left. simpl. split_and!; try done; [by rewrite after_snoc|].
      apply none_in_snoc; [done|]. intros p Hp. apply projects_iff in Hp. congruence.
  - rewrite Hf. right. split; [done|]. exists a, x, (b ++ [y]), p. rewrite <- app_assoc. done.
Qed.

(** Case B: stability looked at, flags initially false *)
Notation stab p := (thr h <= isStable S p)%Z.
Notation reach p := (reachable S h cur p = true).

Lemma fold_check l :
  nocheck = false ->
  let s := fold_left (try_candidate S h post limb cur) l (s_init false false) in
  (found_sample s = false /\ none_in (fun p => stab p /\ reach p) l /\ sCfg s = after l /\
     ((found_stable s = true /\ (exists a x b p, l = a ++ x :: b /\ P a x p /\ stab p /\
          none_in (fun p => stab p) a /\ bestUnreachable s = configuration p /\ place s = place_of p /\
          (isStable S p <= maxRob s)%Z)) \/
      (found_stable s = false /\ none_in (fun p => stab p) l /\
        ((unstableContact s = true /\ contactIfFails h = true /\
           exists a x b p, l = a ++ x :: b /\ P a x p /\ (minRob S < isStable S p)%Z /\
             none_in (fun q => (isStable S p <= isStable S q)%Z) a /\
             none_in (fun q => (isStable S p < isStable S q)%Z) l /\
             moreRobust s = configuration p /\ place s = place_of p /\ maxRob s = isStable S p) \/
         (unstableContact s = false /\ maxRob s = minRob S /\
           (contactIfFails h = true -> none_in (fun q => (minRob S < isStable S q)%Z) l)))))) \/
  (found_sample s = true /\ exists a x b p, l = a ++ x :: b /\ P a x p /\ stab p /\ reach p /\
     none_in (fun p => stab p /\ reach p) a /\ sCfg s = configuration p /\ place s = place_of p).
Proof.
  intros Hn. induction l as [|y l IH] using rev_ind; simpl.
  { left. split_and!; [done|apply none_in_nil|done|]. right. split_and!; [done|apply none_in_nil|].
    right. split_and!; [done..|]. intros _. apply none_in_nil. }
  rewrite fold_left_app. simpl. set (s := fold_left _ l _) in *. simpl in IH.
  rewrite try_candidate_eq.
  destruct IH as [(Hf & Hno & Hc & IH)|(Hf & a & x & b & p & -> & Hp & Hs & Hr & Hno & Hc & Hpl)].
  2:{ rewrite Hf. right. split; [done|]. exists a, x, (b ++ [y]), p. rewrite <- app_assoc. done. }
  rewrite Hf, Hn. simpl. rewrite Hc. destruct (projf (after l) y) as [p|] eqn:E.
  2:{ (* projection fails *)
    assert (Hnp' : forall p, ~ P l y p).
    { intros p Hp. apply projects_iff in Hp. congruence. }
    assert (Hsn : forall Q, none_in Q l -> none_in Q (l ++ [y])).
    { intros Q HQ. apply none_in_snoc; [done|]. intros p Hp. by destruct (Hnp' p). }
    left. simpl. split_and!; [done|by apply Hsn|by rewrite after_snoc|].
    destruct IH as [(H1 & a & x & b & p & -> & Hp & Hs & Hna & Hb & Hpl & Hm)|(H1 & Hns & IH)].
    - left. split; [done|]. exists a, x, (b ++ [y]), p. rewrite <- app_assoc. done.
    - right. split_and!; [done|by apply Hsn|].
      destruct IH as [(H2 & Hi & a & x & b & p & -> & Hp & Hmin & Hna & Hnl & Hb & Hpl & Hm)|(H2 & Hm & Hnn)].
      + left. split_and!; [done..|]. exists a, x, (b ++ [y]), p. split_and!; try done.
        { by rewrite <- app_assoc. }
        apply Hsn; auto.
      + right. split_and!; [done..|]. intros Hi. apply Hsn; auto. }
  destruct (projf_cfg _ _ _ E) as [Hcp Hps]. pose proof (proj2 (projects_iff l y p) E) as HP.
  assert (Hdet : forall q, P l y q -> q = p).
  { intros q Hq. apply projects_iff in Hq. congruence. }
  destruct (Z.leb_spec (thr h) (isStable S p)) as [Hle|Hlt].
  - destruct (reachable S h cur p) eqn:Er.
    + right. split; [done|]. exists l, y, [], p. simpl. split_and!; try done.
    + assert (Hno' : none_in (fun p => stab p /\ reach p) (l ++ [y])).
      { apply none_in_snoc; [done|]. intros q Hq [_ ?]. apply Hdet in Hq. congruence. }
      destruct IH as [(H1 & a & x & b & p' & -> & Hp & Hs & Hna & Hb & Hpl & Hm)|(H1 & Hns & IH)]; rewrite H1; simpl.
      * left. split_and!; [done|done|by rewrite after_snoc|]. left. split; [done|].
        exists a, x, (b ++ [y]), p'. rewrite <- app_assoc. done.
      * left. split_and!; [done|done|by rewrite after_snoc|]. left. split; [done|].
        exists l, y, [], p. split_and!; try done. lia.
  - assert (Hno' : none_in (fun p => stab p /\ reach p) (l ++ [y])).
    { apply none_in_snoc; [done|]. intros q Hq [? _]. apply Hdet in Hq. subst q. lia. }
    destruct IH as [(H1 & a & x & b & p' & -> & Hp & Hs & Hna & Hb & Hpl & Hm)|(H1 & Hns & IH)].
    + destruct ((maxRob s <? isStable S p)%Z && contactIfFails h) eqn:Em.
      { apply andb_prop in Em as [Em _]. apply Z.ltb_lt in Em. lia. }
      left. simpl. split_and!; [done|done|by rewrite after_snoc|]. left. split; [done|].
      exists a, x, (b ++ [y]), p'. rewrite <- app_assoc. done.
    + assert (Hns' : none_in (fun p => stab p) (l ++ [y])).
      { apply none_in_snoc; [done|]. intros q Hq ?. apply Hdet in Hq. subst q. lia. }
      destruct ((maxRob s <? isStable S p)%Z && contactIfFails h) eqn:Em.
      * apply andb_prop in Em as [Em Hi]. apply Z.ltb_lt in Em.
        left. simpl. split_and!; [done|done|by rewrite after_snoc|]. right. split_and!; [done..|].
        left. split_and!; [done..|]. exists l, y, [], p.
        destruct IH as [(H2 & _ & a & x & b & p' & El & Hp & Hmin & Hna & Hnl & Hb & Hpl & Hm)|(H2 & Hm & Hnn)].
        -- split_and!; try done; [lia| |].
           ++ intros a' x' b' q' E' Hq' Hge. apply (Hnl a' x' b' q' E' Hq'). lia.
           ++ apply none_in_snoc.
              { intros a' x' b' q' E' Hq' Hge. apply (Hnl a' x' b' q' E' Hq'). lia. }
              intros q Hq. apply Hdet in Hq as ->. lia.
        -- split_and!; try done; [lia| |].
           ++ intros a' x' b' q' E' Hq' Hge. apply (Hnn Hi a' x' b' q' E' Hq'). lia.
           ++ apply none_in_snoc.
              { intros a' x' b' q' E' Hq' Hge. apply (Hnn Hi a' x' b' q' E' Hq'). lia. }
              intros q Hq. apply Hdet in Hq as ->. lia.
      * left. simpl. split_and!; [done|done|by rewrite after_snoc|]. right. split_and!; [done..|].
        destruct IH as [(H2 & Hi & a & x & b & p' & El & Hp & Hmin & Hna & Hnl & Hb & Hpl & Hm)|(H2 & Hm & Hnn)].
        -- left. split_and!; [done..|]. rewrite Hi, andb_true_r in Em. apply Z.ltb_ge in Em.
           exists a, x, (b ++ [y]), p'. split_and!; try done.
           { by rewrite El, <- app_assoc. }
           apply none_in_snoc; [done|]. intros q Hq ?. apply Hdet in Hq as ->. lia.
        -- right. split_and!; [done..|]. intros Hi. rewrite Hi, andb_true_r in Em. apply Z.ltb_ge in Em.
           apply none_in_snoc; [by auto|]. intros q Hq ?. apply Hdet in Hq as ->. lia.
Qed.
End pass.
End proofs.
