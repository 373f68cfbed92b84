(** C104-C108: the path optimizers. *)
From Coq Require Import Reals ZArith Lra Lia.
From Verif Require Import OptExamples.
Local Open Scope R_scope.

(** C104.  The path returned goes from the first to the last configuration of the path
    given; it is the path given, or another one that is shorter; the object given as
    argument still has the elements it had. *)
Theorem C104_shorter_or_same E einit eend elen evalAt extract sm projector validate n (path : list E) rs q0 q3 k a h :
  faithful_extraction einit eend elen evalAt extract -> extraction_succeeds elen extract ->
  projector_keeps_ends einit eend projector -> joins einit eend path q0 q3 -> 0 < total elen path ->
  shortcut E einit eend elen evalAt extract sm projector validate n path rs = (k, Some (Ok (a, h))) ->
  exists r, h !! a = Some r /\ joins einit eend r q0 q3 /\ h !! 0%nat = Some path /\
    (a = 0%nat \/ total elen r < total elen path - 10 / 2 ^ 52).
Proof. exact (shortcut_result n path rs q0 q3 k a h). Qed.
Print Assumptions C104_shorter_or_same.

Example C104_case : faithful_extraction xinit xend xlen xeval xextract /\ extraction_succeeds xlen xextract /\
  projector_keeps_ends xinit xend xproj /\ joins xinit xend xpath [0] [1] /\ 0 < total xlen xpath /\
  shortcut xE xinit xend xlen xeval xextract xsm xproj (fun _ => true) 1 xpath [3 / 4; 1 / 4] =
    (1%nat, Some (Ok (1%nat, [xpath; xnew]))) /\ total xlen xnew = 1.
Proof.
  split; [exact xfaithful|]. split; [exact xext|]. split; [exact xprojk|]. split; [exact xpath_joins|].
  split; [rewrite <- pvlen_total, xpathlen; lra|]. split; [exact xrun|]. rewrite <- pvlen_total. exact xnewlen.
Qed.

(** Whatever cannot be computed or extracted, the path returned starts where the path given
    does. *)
Theorem C104_starts E einit eend elen evalAt extract sm projector validate q0 n (path : list E) rs k a h r :
  extraction_keeps_start einit extract -> projector_keeps_ends einit eend projector ->
  0 < total elen path -> starts_at einit q0 path ->
  shortcut E einit eend elen evalAt extract sm projector validate n path rs = (k, Some (Ok (a, h))) ->
  h !! a = Some r -> starts_at einit q0 r.
Proof. intros Hx Hp. exact (shortcut_starts Hx Hp q0 n path rs k a h r). Qed.
Print Assumptions C104_starts.

(** but after a part that could not be extracted, the following ones are appended to the path
    given, which is returned: it is longer and jumps *)
Example C104_failure : extraction_keeps_start xinit xfail /\ starts_at xinit [0] xpath /\
  xfailing 2%nat [3 / 4; 1 / 4] = (1%nat, Some (Ok (0%nat, [xbad; []]))) /\
  total xlen xpath < total xlen xbad /\ ~ exists q, joins xinit xend xbad [0] q.
Proof.
  split; [exact xfails|]. split; [exists (0, 1, 10); split; reflexivity|]. split; [exact xrun_fail|].
  split; [rewrite <- (pvlen_total xpath), <- (pvlen_total xbad), xpathlen, xbadlen; lra|exact xbad_joins].
Qed.

(** C105.  Every element of the path returned was accepted by the path validation or comes,
    by successive extractions, from the elements of the path given: any property that the
    validation ensures and that extraction preserves is kept, even when extractions
    fail. *)
Theorem C105_elements_validated E einit eend elen evalAt extract sm projector validate (good : E -> Prop) n path rs k a h r :
  (forall e, validate e = true -> good e) ->
  (forall p a b p', Forall good p -> extract p a b = Some p' -> Forall good p') ->
  Forall good path ->
  shortcut E einit eend elen evalAt extract sm projector validate n path rs = (k, Some (Ok (a, h))) ->
  h !! a = Some r -> Forall good r.
Proof. intros Hv Hx. exact (shortcut_good good Hv Hx n path rs k a h r). Qed.
Print Assumptions C105_elements_validated.

Example C105_case : let good e := 0 <= xlen e in
  (forall e, Rleb 0 (xlen e) = true -> good e) /\
  (forall p a b p', Forall good p -> (if Rleb a b then xextract p a b else None) = Some p' -> Forall good p') /\
  Forall good xpath.
Proof.
  split; [intros e H; apply VecProofs.Rleb_true; exact H|]. split.
  - intros p a b p' _. destruct (Rleb a b) eqn:H; [|discriminate]. apply VecProofs.Rleb_true in H. intros [= <-]. constructor; [unfold xlen; cbn; lra|constructor].
  - constructor; [unfold xlen; cbn; lra|constructor].
Qed.

(** C106.  When no configuration and no extraction fails, and at least one loop is asked
    for, no error occurs: the function returns a path, or still draws times. *)
Theorem C106_no_error E einit eend elen evalAt extract sm projector validate n (path : list E) rs q0 q3 :
  faithful_extraction einit eend elen evalAt extract -> extraction_succeeds elen extract ->
  projector_keeps_ends einit eend projector -> evaluation_succeeds elen evalAt ->
  joins einit eend path q0 q3 -> 0 < total elen path -> (0 < n)%nat ->
  let r := snd (shortcut E einit eend elen evalAt extract sm projector validate n path rs) in
  r <> Some Throw /\ r <> Some Ub.
Proof. exact (shortcut_noerr n path rs q0 q3). Qed.
Print Assumptions C106_no_error.

Example C106_case : evaluation_succeeds xlen xeval.
Proof. exact xevals. Qed.

(** C107.  The number of rounds is bounded, whatever is drawn: by [n ((n - 1) K + 1)], where
    [1.0001 ^ K] is at least the length of the path divided by three times the least
    distance between the sampled times. *)
Theorem C107_rounds_bounded E einit eend elen evalAt extract sm projector validate n (path : list E) rs q0 q3 K :
  faithful_extraction einit eend elen evalAt extract -> extraction_succeeds elen extract ->
  projector_keeps_ends einit eend projector -> joins einit eend path q0 q3 -> 0 < total elen path ->
  (Z.of_nat n < 2 ^ 64)%Z -> (1 <= K)%nat ->
  total elen path <= 3 * Rmin 1 (total elen path / 5) * (10001 / 10000) ^ K ->
  (fst (shortcut E einit eend elen evalAt extract sm projector validate n path rs) <= n * ((n - 1) * K + 1))%nat.
Proof. exact (shortcut_bounded n path rs q0 q3 K). Qed.
Print Assumptions C107_rounds_bounded.

Theorem C107_rounds_bounded_all E einit eend elen evalAt extract sm projector validate n (path : list E) q0 q3 :
  faithful_extraction einit eend elen evalAt extract -> extraction_succeeds elen extract ->
  projector_keeps_ends einit eend projector -> joins einit eend path q0 q3 -> 0 < total elen path ->
  (Z.of_nat n < 2 ^ 64)%Z ->
  exists N, forall rs, (fst (shortcut E einit eend elen evalAt extract sm projector validate n path rs) <= N)%nat.
Proof. exact (shortcut_bounded_all n path q0 q3). Qed.
Print Assumptions C107_rounds_bounded_all.

(** The times drawn are at that distance of one another and of the ends; two draws that give
    such times are accepted at once. *)
Theorem C107_draws m t3 rs t1 t2 rs' : sample m t3 rs = Some (t1, t2, rs') -> m <= t1 /\ t1 + m <= t2 /\ t2 + m <= t3.
Proof. exact (sample_spec m t3 rs t1 t2 rs'). Qed.
Print Assumptions C107_draws.
Theorem C107_draws_accepted m t3 r1 r2 rs : 0 <= m -> 2 * m <= t3 -> 0 <= r1 <= 1 -> 0 <= r2 <= 1 ->
  m <= (t3 - 2 * m) * Rabs (r2 - r1) ->
  sample m t3 (r2 :: r1 :: rs) = Some (m + (t3 - 2 * m) * Rmin r1 r2, m + (t3 - 2 * m) * Rmax r1 r2, rs).
Proof. exact (sample_accepts m t3 r1 r2 rs). Qed.
Print Assumptions C107_draws_accepted.
Example C107_draws_case : sample 1 10 [3 / 4; 1 / 4] = Some (3, 7, []) /\ 1 <= (10 - 2 * 1) * Rabs (3 / 4 - 1 / 4).
Proof. split; [exact xsample|]. rewrite Rabs_right by lra. lra. Qed.
(** a part that cannot be extracted counts for two failures: the number of failures left can
    pass 0 and wrap *)
Example C107_wraps : exists s', round xE xinit xend xlen xeval xfail (fun _ _ => None) None (fun _ => true) 1 [0] [1] 3 7
    (mkOst xE [xpath] 0 None 1 [Some 10] false) = Ok s' /\ perr xE s' = (2 ^ 64 - 1)%Z /\ fin xE s' = false.
Proof. eexists. split; [exact (xround_fail 1 1 [Some 10] eq_refl)|]. split; reflexivity. Qed.

Example C107_case : total xlen xpath <= 3 * Rmin 1 (total xlen xpath / 5) * (10001 / 10000) ^ Z.to_nat 24000.
Proof. exact xbound. Qed.

(** C108.  The orientation optimizer ends without error on every path made of kinodynamic
    elements, and the path it returns has the elements of the path given. *)
Theorem C108_oriented_same P kino orient withEnd withInit valid (path : list P) :
  Forall (fun e => kino e = true) path ->
  orientedOptimize P kino orient withEnd withInit valid path = Ok path.
Proof. exact (oriented_same kino orient withEnd withInit valid path). Qed.
Print Assumptions C108_oriented_same.

Example C108_case : orientedOptimize nat (fun _ => true) (fun e => Some (e + 100)%nat) (fun e _ => Some e)
  (fun e _ => Some e) (fun _ => true) [1; 2; 3]%nat = Ok [1; 2; 3]%nat.
Proof. vm_compute. reflexivity. Qed.
