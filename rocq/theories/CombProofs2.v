From Coq Require Import ZArith Lia.
From Verif Require Import Maps MapsProofs StateModel StateSpec StateProofs CombModel CombSpec CombProofs.

(** * sortLimbs *)
Lemma insertIfNew_snd r l : snd (insertIfNew r l) = if inb l r then r else r ++ [l].
Proof. unfold insertIfNew. by destruct (inb l r). Qed.

(** first occurrences, in order *)
Lemma sortLimbs_res1 ord fl r :
  NoDup r ->
  let r' := fold_left (fun r l => if inb l fl then snd (insertIfNew r l) else r) ord r in
  NoDup r' /\ (forall x, x ∈ r' <-> x ∈ r \/ (x ∈ ord /\ x ∈ fl)) /\
  (NoDup ord -> (forall x, x ∈ ord -> x ∉ r) -> r' = r ++ filter (fun l => l ∈ fl) ord).
Proof.
  revert r. induction ord as [|l ord IH]; intros r Hr; simpl.
  - split_and!; [done|set_solver|]. intros _ _. by rewrite app_nil_r.
  - rewrite insertIfNew_snd. destruct (inb l fl) eqn:Hfl.
    + apply inb_true in Hfl. destruct (inb l r) eqn:Hlr.
      * apply inb_true in Hlr. destruct (IH r Hr) as (H1 & H2 & H3). split_and!; [done| |].
        -- intros x. rewrite H2. set_solver.
        -- intros _ Hno. exfalso. apply (Hno l); [left|done].
      * apply inb_false in Hlr. destruct (IH (r ++ [l])) as (H1 & H2 & H3).
        { apply NoDup_app. split_and!; [done|set_solver|apply NoDup_singleton]. }
        split_and!; [done| |].
        -- intros x. rewrite H2. set_solver.
        -- intros Hn Hno. apply NoDup_cons in Hn as [Hl Hn]. rewrite H3; [|done|].
           ++ rewrite filter_cons. destruct (decide (l ∈ fl)); [|done]. by rewrite <- app_assoc.
           ++ intros x Hx. set_solver.
    + apply inb_false in Hfl. destruct (IH r Hr) as (H1 & H2 & H3). split_and!; [done| |].
      * intros x. rewrite H2. set_solver.
      * intros Hn Hno. apply NoDup_cons in Hn as [Hl Hn]. rewrite H3; [|done|set_solver].
        rewrite filter_cons. destruct (decide (l ∈ fl)); done.
Qed.

Lemma sortLimbs_correct ord fl :
  NoDup fl ->
  sortLimbs ord fl ≡ₚ fl /\
  (NoDup ord ->
   sortLimbs ord fl = filter (fun l => l ∉ ord) fl ++ filter (fun l => l ∈ fl) ord).
Proof.
  intros Hfl. unfold sortLimbs.
  destruct (sortLimbs_res1 ord fl []) as (H1 & H2 & H3); [constructor|].
  set (res1 := fold_left _ ord []) in *. split.
  - apply NoDup_Permutation; [|done|].
    + apply NoDup_app. split_and!; [by apply NoDup_filter| |done].
      intros x Hx. apply elem_of_list_filter in Hx as [Hx _]. by apply inb_false.
    + intros x. rewrite elem_of_app, elem_of_list_filter, inb_false, !H2. rewrite elem_of_nil.
      destruct (decide (x ∈ ord)); naive_solver.
  - intros Hn. f_equal; [|rewrite H3; [done|done|set_solver]].
    apply filter_ext_on. intros x Hx. rewrite inb_false, H2, elem_of_nil. naive_solver.
Qed.

(** * stringCombinatorial *)
Lemma elem_of_extend res cands seq' :
  seq' ∈ extend_all res cands <->
  exists seq c, seq ∈ res /\ c ∈ cands /\ c ∉ seq /\ seq' = seq ++ [c].
Proof.
  unfold extend_all. rewrite elem_of_list_In, in_concat. split.
  - intros (l & Hl & Hs). apply in_map_iff in Hl as (seq & <- & Hseq).
    apply elem_of_list_In in Hs, Hseq. apply elem_of_list_omap in Hs as (c & Hc & Hi).
    unfold insertIfNew in Hi. destruct (inb c seq) eqn:E; [done|]. apply inb_false in E.
    injection Hi as <-. eauto 10.
  - intros (seq & c & Hs & Hc & Hn & ->). eexists. split.
    + apply in_map_iff. exists seq. split; [done|]. by apply elem_of_list_In.
    + apply elem_of_list_In, elem_of_list_omap. exists c. split; [done|].
      unfold insertIfNew. apply inb_false in Hn as ->. done.
Qed.

Lemma extend_one_NoDup seq cands : NoDup cands ->
  NoDup (omap (fun c => let '(isnew, seq') := insertIfNew seq c in if isnew then Some seq' else None) cands).
Proof.
  induction 1 as [|c cands Hc Hn IH]; simpl; [constructor|].
  unfold insertIfNew at 1. destruct (inb c seq); [done|].
  constructor; [|done]. intros Hin. apply elem_of_list_omap in Hin as (c' & Hc' & Hi).
  unfold insertIfNew in Hi. destruct (inb c' seq); [done|]. injection Hi as Hi.
  apply app_inj_2 in Hi as [_ Hi]; [|done]. injection Hi as ->. done.
Qed.

Lemma extend_NoDup res cands : NoDup res -> NoDup cands -> NoDup (extend_all res cands).
Proof.
  intros Hr Hc. unfold extend_all. induction Hr as [|seq res Hs Hr IH]; simpl; [constructor|].
  apply NoDup_app. split_and!; [by apply extend_one_NoDup| |done].
  intros x Hx Hx'. fold (extend_all res cands) in Hx'. apply elem_of_extend in Hx' as (seq' & c' & H1 & _ & _ & ->).
  apply elem_of_list_omap in Hx as (c & _ & Hi). unfold insertIfNew in Hi.
  destruct (inb c seq); [done|]. injection Hi as Hi. apply app_inj_2 in Hi as [-> _]; done.
Qed.

(** all arrangements of exactly [k] candidates, each once *)
Definition exact_level (cands : list string) (k : nat) (res : list (list string)) : Prop :=
  NoDup res /\ forall seq, seq ∈ res <-> NoDup seq /\ seq ⊆ cands /\ length seq = k.

Lemma exact_level_0 cands : exact_level cands 0 [[]].
Proof.
  split; [apply NoDup_singleton|]. intros seq. rewrite elem_of_list_singleton. split.
  - intros ->. split_and!; [constructor|set_solver|done].
  - intros (_ & _ & Hl). by destruct seq.
Qed.

Lemma exact_level_S cands k res : NoDup cands ->
  exact_level cands k res -> exact_level cands (S k) (extend_all res cands).
Proof.
  intros Hc [Hn Hin]. split; [by apply extend_NoDup|]. intros seq. rewrite elem_of_extend. split.
  - intros (seq0 & c & Hs & Hcc & Hni & ->). apply Hin in Hs as (Hn0 & Hsub & Hl). split_and!.
    + apply NoDup_app. split_and!; [done|set_solver|apply NoDup_singleton].
    + set_solver.
    + rewrite app_length. simpl. lia.
  - intros (Hn0 & Hsub & Hl). destruct seq as [|c seq0 _] using rev_ind; [done|].
    rewrite app_length in Hl. simpl in Hl. apply NoDup_app in Hn0 as (Hn1 & Hni & _).
    exists seq0, c. split_and!; [|set_solver|set_solver|done].
    apply Hin. split_and!; [done|set_solver|lia].
Qed.

Lemma const_length_sorted k (res : list (list string)) :
  (forall x, x ∈ res -> length x = k) -> StronglySorted (fun a b => length a <= length b) res.
Proof.
  intros Hall. induction res as [|x res IHr]; [constructor|]. constructor.
  - apply IHr. intros y Hy. apply Hall. by right.
  - apply Forall_forall. intros y Hy. rewrite (Hall x), (Hall y); [lia|by right|left].
Qed.

Lemma stringCombinatorialRec_correct cands depth k res :
  NoDup cands -> exact_level cands k res ->
  let L := stringCombinatorialRec res cands depth in
  NoDup L /\
  (forall seq, seq ∈ L <-> NoDup seq /\ seq ⊆ cands /\ k <= length seq <= k + depth) /\
  StronglySorted (fun a b => length a <= length b) L /\
  (exists L', L = res ++ L').
Proof.
  intros Hc. revert k res. induction depth as [|d IH]; intros k res Hl; simpl.
  - destruct Hl as [Hn Hin]. split_and!.
    + done.
    + intros seq. rewrite Hin. split; intros (?&?&?); split_and!; try done; lia.
    + apply (const_length_sorted k). intros x Hx. by apply Hin in Hx as (_ & _ & ?).
    + exists []. by rewrite app_nil_r.
  - pose proof Hl as [Hn Hin].
    destruct (IH (S k) (extend_all res cands)) as (H1 & H2 & H3 & H4); [by apply exact_level_S|].
    split_and!.
    + apply NoDup_app. split_and!; [done| |done].
      intros x Hx Hx'. apply Hin in Hx. apply H2 in Hx'. lia.
    + intros seq. rewrite elem_of_app, Hin, H2. split.
      * intros [(?&?&?)|(?&?&?)]; split_and!; try done; lia.
      * intros (?&?&?). destruct (decide (length seq = k)); [left|right]; split_and!; try done; lia.
    + apply StronglySorted_app_2; [|done|].
      * apply (const_length_sorted k). intros x Hx. by apply Hin in Hx as (_ & _ & ?).
      * intros x y Hx Hy. apply Hin in Hx. apply H2 in Hy. lia.
    + eauto.
Qed.

Lemma stringCombinatorial_correct cands m maximise :
  NoDup cands ->
  let L := stringCombinatorial cands m maximise in
  NoDup L /\
  (forall seq, seq ∈ L <-> arrangement cands m seq) /\
  exists L', L = (if maximise then L' ++ [[]] else [] :: L') /\
    StronglySorted (fun a b => length a <= length b) L' /\ [] ∉ L'.
Proof.
  intros Hc. unfold stringCombinatorial.
  destruct (stringCombinatorialRec_correct cands m 0 [[]] Hc (exact_level_0 cands))
    as (H1 & H2 & H3 & (L' & H4)).
  set (L := stringCombinatorialRec [[]] cands m) in *. rewrite H4. simpl.
  assert (HinL : forall seq, seq ∈ L <-> arrangement cands m seq).
  { intros seq. rewrite H2. unfold arrangement. split; intros (?&?&?); split_and!; try done; lia. }
  rewrite H4 in H1, H3, HinL. simpl in H1, H3, HinL.
  apply NoDup_cons in H1 as [Hni H1]. apply StronglySorted_inv in H3 as [H3 _].
  destruct maximise.
  - split_and!.
    + apply NoDup_app. split_and!; [done| |apply NoDup_singleton].
      intros x Hx Hx'. apply elem_of_list_singleton in Hx'. by subst.
    + intros seq. rewrite <- HinL. set_solver.
    + exists L'. split_and!; try done.
  - split_and!.
    + by constructor.
    + done.
    + exists L'. done.
Qed.

Lemma gen_contacts_combinatorial_correct {St} cands (prev : St) m maximise c :
  NoDup cands ->
  (c ∈ gen_contacts_combinatorial cands prev m maximise <-> fst c = prev /\ arrangement cands m (snd c)).
Proof.
  intros Hc. destruct (stringCombinatorial_correct cands m maximise Hc) as (_ & H & _).
  unfold gen_contacts_combinatorial. rewrite elem_of_list_In, in_map_iff. split.
  - intros (seq & <- & Hs). apply elem_of_list_In, H in Hs. done.
  - intros [<- Ha]. exists (snd c). split; [by destruct c|]. by apply elem_of_list_In, H.
Qed.

(** * getAffObjectsForLimb *)
Lemma prefix_iff sub s : String.prefix sub s = true <-> exists post, s = (sub +:+ post)%string.
Proof.
  revert s. induction sub as [|a sub IH]; intros s.
  - split; [intros _; by exists s|by destruct s].
  - destruct s as [|b s]; simpl.
    + split; [done|]. by intros [? ?].
    + destruct (Ascii.ascii_dec a b) as [->|Hne].
      * rewrite IH. split; intros [post Hp]; exists post; [by rewrite Hp|by injection Hp].
      * split; [done|]. intros [post Hp]. injection Hp. congruence.
Qed.

Lemma string_contains_iff sub s : string_contains sub s = true <-> substring_of sub s.
Proof.
  induction s as [|a s IH]; cbn [string_contains]; rewrite orb_true_iff, prefix_iff; unfold substring_of.
  - split.
    + intros [[post Hp]|?]; [|done]. by exists ""%string, post.
    + intros (pre & post & Hp). left. destruct pre; [|done]. by exists post.
  - rewrite IH. split.
    + intros [[post Hp]|(pre & post & Hp)].
      * by exists ""%string, post.
      * exists (String a pre), post. simpl. by rewrite Hp.
    + intros (pre & post & Hp). destruct pre as [|b pre].
      * left. by exists post.
      * right. injection Hp as -> ->. by exists pre, post.
Qed.

Section aff.
Context {Obj : Type}.
Implicit Types (aff : gmap string (list (string * Obj))) (filters : gmap string (list string)).

Lemma objects_of_types_known aff types :
  (forall t, t ∈ types -> is_Some (aff !! t)) ->
  objects_of_types aff types = Ok (concat (map (fun t => map snd (default [] (aff !! t))) types)).
Proof.
  induction types as [|t types IH]; intros Hk; [done|]. simpl.
  destruct (Hk t) as [objs Ho]; [left|]. rewrite Ho. rewrite IH by (intros; apply Hk; by right). done.
Qed.

Lemma objects_of_types_unknown aff types t :
  t ∈ types -> aff !! t = None -> objects_of_types aff types = Ub.
Proof.
  induction types as [|t' types IH]; intros Hin Hn; [by apply elem_of_nil in Hin|]. simpl.
  apply elem_of_cons in Hin as [->|Hin]; [by rewrite Hn|].
  rewrite IH by done. by destruct (aff !! t').
Qed.

Lemma find_first_filter limb filters :
  match List.find (fun kv => string_contains limb (fst kv)) (sitems filters) with
  | None => forall k, is_Some (filters !! k) -> ~ substring_of limb k
  | Some (k, types) => filters !! k = Some types /\ substring_of limb k /\
      forall k', is_Some (filters !! k') -> substring_of limb k' -> str_le k k'
  end.
Proof.
  assert (Hs : StronglySorted str_le (sitems filters).*1) by (rewrite sitems_keys; apply skeys_sorted).
  assert (Hin : forall kv, kv ∈ sitems filters -> filters !! kv.1 = Some kv.2).
  { intros [k v]. apply elem_of_sitems. }
  assert (Hout : forall k, is_Some (filters !! k) -> k ∈ (sitems filters).*1).
  { intros k. rewrite sitems_keys. by rewrite elem_of_skeys. }
  destruct (List.find _ _) as [[k types]|] eqn:Hf.
  - assert (Hin' : (k, types) ∈ sitems filters).
    { apply elem_of_list_In. by eapply find_some. }
    split_and!.
    + by apply (Hin (k, types)).
    + apply find_some in Hf as [_ Hf]. by apply string_contains_iff.
    + intros k' Hk' Hsub. apply Hout in Hk'. clear Hin Hout Hin'.
      induction (sitems filters) as [|[k0 v0] l IH]; [done|]. simpl in *.
      apply StronglySorted_inv in Hs as [Hs Hall].
      apply string_contains_iff in Hsub.
      destruct (string_contains limb k0) eqn:E.
      * injection Hf as <- <-. apply elem_of_cons in Hk' as [->|Hk'].
        -- apply str_le_refl.
        -- rewrite Forall_forall in Hall. auto.
      * apply elem_of_cons in Hk' as [->|Hk']; [congruence|]. auto.
  - intros k Hk Hsub. apply Hout in Hk. apply elem_of_list_fmap in Hk as (kv & -> & Hkv).
    apply elem_of_list_In in Hkv. apply (find_none _ _ Hf) in Hkv.
    apply string_contains_iff in Hsub. congruence.
Qed.

Lemma getAff_no_filter limb aff filters :
  (forall k, is_Some (filters !! k) -> ~ substring_of limb k) ->
  getAffObjectsForLimb limb aff filters =
  match concat (map (fun t => map snd (default [] (aff !! t))) (skeys aff)) with
  | [] => Throw
  | l => Ok l
  end.
Proof.
  intros Hn. unfold getAffObjectsForLimb. pose proof (find_first_filter limb filters) as Hf.
  destruct (List.find _ _) as [[k types]|].
  - destruct Hf as (H1 & H2 & _). exfalso. eapply Hn; eauto.
  - assert (Heq : map (fun kv => map snd (snd kv)) (sitems aff)
                  = map (fun t => map snd (default [] (aff !! t))) (skeys aff)).
    { rewrite <- sitems_keys. unfold fmap. rewrite map_map. apply map_ext_in.
      intros [k v] Hin. apply elem_of_list_In, elem_of_sitems in Hin. simpl. by rewrite Hin. }
    rewrite Heq. by destruct (concat _).
Qed.

Lemma getAff_filter limb aff filters k types :
  filters !! k = Some types -> substring_of limb k ->
  (forall k', is_Some (filters !! k') -> substring_of limb k' -> str_le k k') ->
  ((forall t, t ∈ types -> is_Some (aff !! t)) ->
     getAffObjectsForLimb limb aff filters =
     match concat (map (fun t => map snd (default [] (aff !! t))) types) with
     | [] => Throw
     | l => Ok l
     end) /\
  ((exists t, t ∈ types /\ aff !! t = None) -> getAffObjectsForLimb limb aff filters = Ub).
Proof.
  intros Hk Hsub Hmin. unfold getAffObjectsForLimb. pose proof (find_first_filter limb filters) as Hf.
  destruct (List.find _ _) as [[k1 types1]|].
  - destruct Hf as (H1 & H2 & H3).
    assert (k1 = k) as ->.
    { apply (anti_symm str_le); [apply H3|apply Hmin]; eauto. }
    assert (types1 = types) as -> by congruence. split.
    + intros Hknown. rewrite objects_of_types_known by done. by destruct (concat _).
    + intros (t & Ht & Hn). by rewrite (objects_of_types_unknown _ _ t).
  - exfalso. eapply Hf; eauto.
Qed.
End aff.
