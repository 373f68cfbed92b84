(** Examples for the best state of a repositioning. *)
From Coq Require Import Reals ZArith Lra Lia.
From Verif Require Import Maps MapsProofs Vec VecProofs CombModel StateModel SampModel ToolModel ToolSpec ProjModel SeqModel SeqExamples HoldExamples BestModel BestProofs.
From Verif Require Import StateModel ToolSpec ProjModel.
Local Open Scope R_scope.

(** the best place of the root is 1; a candidate far behind has no score *)
Definition bev (l : plimb) (q : list R) (d n : vec3) : option R := if Rltb (nth 0 q 0) (-5) then None else Some (nth 0 q 0 * (vx d - nth 0 q 0)).
Definition bst (x : R) : PSt := sst (hq x) (Some vzero) None.
Definition bcands : list sframe := [(0, bst 0); (1, bst 1); (2, bst (-9)); (3, bst 2)].
Lemma bscore x : -5 <= x -> scoreOf hbody bev (V3 2 0 0) (bst x) ["leg"%string] (Some 0) = Ok (Some (0 + x * (2 - x))).
Proof. intros H. cbn. unfold bev. cbn. by rewrite (proj2 (Rltb_false _ _) H). Qed.
Lemma bfar : scoreOf hbody bev (V3 2 0 0) (bst (-9)) ["leg"%string] (Some 0) = Ok None.
Proof. cbn. unfold bev. cbn. rewrite (proj2 (Rltb_true (-9) (-5))) by lra. reflexivity. Qed.
Lemma bbest : findBestRepositionState hbody bev bcands ["leg"%string] = Ok (1, bst 1).
Proof.
  unfold findBestRepositionState, bcands. cbn [head last snd]. change (configuration (bst 2)) with (hq 2). change (configuration (bst 0)) with (hq 0).
  unfold hq. cbn [root3]. replace (vsub _ _) with (V3 2 0 0) by (unfold vsub; cbn; f_equal; ring).
  cbn [bestLoop snd]. rewrite (bscore 0), (bscore 1), bfar, (bscore 2) by lra. cbn [above_score bestLoop].
  rewrite (proj2 (Rltb_true _ _)) by lra. rewrite (proj2 (Rltb_false _ _)) by lra. reflexivity.
Qed.
Lemma bmissing : findBestRepositionState hbody bev bcands ["arm"%string] = Throw /\ findBestRepositionState hbody bev [] ["leg"%string] = Ub.
Proof. split; reflexivity. Qed.
Lemma bexists_case : bcands <> [] /\ (forall c, c ∈ bcands -> (3 <= length (configuration (snd c)))%nat) /\
  (forall l, l ∈ ["leg"%string] -> is_Some (limbsOf hbody !! l)) /\ (forall c l, c ∈ bcands -> l ∈ ["leg"%string] -> is_Some (normals (snd c) !! l)).
Proof.
  split_and!; [done| | |].
  - intros c Hc. unfold bcands in Hc. rewrite !elem_of_cons, elem_of_nil in Hc. destruct Hc as [->|[->|[->|[->|[]]]]]; cbn; lia.
  - intros l ->%elem_of_list_singleton. by eexists.
  - intros c l Hc ->%elem_of_list_singleton. unfold bcands in Hc. rewrite !elem_of_cons, elem_of_nil in Hc. destruct Hc as [->|[->|[->|[->|[]]]]]; by eexists.
Qed.
