From Coq Require Import ZArith Lia.
From Verif Require Import Maps.

Lemma ascii_compare_trans_lt (a b c : Ascii.ascii) :
  Ascii.compare a b = Lt -> Ascii.compare b c = Lt -> Ascii.compare a c = Lt.
Proof. unfold Ascii.compare. rewrite !N.compare_lt_iff. lia. Qed.

Lemma ascii_compare_refl (a : Ascii.ascii) : Ascii.compare a a = Eq.
Proof. unfold Ascii.compare. apply N.compare_refl. Qed.

Lemma str_compare_refl s : String.compare s s = Eq.
Proof. induction s as [|a s IH]; simpl; [done|]. by rewrite ascii_compare_refl. Qed.

Lemma str_compare_trans s t u :
  String.compare s t <> Gt -> String.compare t u <> Gt -> String.compare s u <> Gt.
Proof.
  revert t u. induction s as [|a s IH]; intros t u; destruct t as [|b t], u as [|c u]; simpl; try done.
  destruct (Ascii.compare a b) eqn:Hab; try done.
  - apply Ascii.compare_eq_iff in Hab as ->. destruct (Ascii.compare b c); try done. apply IH.
  - intros _. destruct (Ascii.compare b c) eqn:Hbc; try done.
    + apply Ascii.compare_eq_iff in Hbc as ->. by rewrite Hab.
    + intros _. by rewrite (ascii_compare_trans_lt _ _ _ Hab Hbc).
Qed.

Lemma str_le_alt s t : str_le s t <-> String.compare s t <> Gt.
Proof. unfold str_le, String.leb. destruct (String.compare s t); naive_solver. Qed.

Global Instance str_le_refl : Reflexive str_le.
Proof. intros s. apply str_le_alt. by rewrite str_compare_refl. Qed.
Global Instance str_le_trans : Transitive str_le.
Proof. intros s t u. rewrite !str_le_alt. apply str_compare_trans. Qed.
Global Instance str_le_antisymm : AntiSymm (=) str_le.
Proof. intros s t. apply String.leb_antisym. Qed.
Global Instance str_le_total : Total str_le.
Proof. intros s t. apply String.leb_total. Qed.

Section keys.
Context {V : Type}.
Implicit Types m : gmap string V.

Lemma skeys_perm m : skeys m ≡ₚ (map_to_list m).*1.
Proof. apply merge_sort_Permutation. Qed.

Lemma skeys_NoDup m : NoDup (skeys m).
Proof. rewrite skeys_perm. apply NoDup_fst_map_to_list. Qed.

Lemma skeys_sorted m : StronglySorted str_le (skeys m).
Proof. apply StronglySorted_merge_sort; apply _. Qed.

Lemma elem_of_skeys m k : k ∈ skeys m <-> is_Some (m !! k).
Proof.
  rewrite skeys_perm, elem_of_list_fmap. split.
  - intros [[k' v] [-> Hin]]. apply elem_of_map_to_list in Hin. simpl. eauto.
  - intros [v Hv]. exists (k, v). split; [done|]. by apply elem_of_map_to_list.
Qed.

Lemma length_skeys m : length (skeys m) = size m.
Proof. rewrite skeys_perm, fmap_length. unfold size, map_size. done. Qed.

Lemma skeys_empty : skeys (∅ : gmap string V) = [].
Proof. reflexivity. Qed.

Lemma has_true k m : has k m = true <-> is_Some (m !! k).
Proof. unfold has. destruct (m !! k); split; intros H; eauto; try done. by destruct H. Qed.
Lemma has_false k m : has k m = false <-> m !! k = None.
Proof. unfold has. destruct (m !! k); split; intros H; eauto; done. Qed.

Lemma elem_of_sitems m k v : (k, v) ∈ sitems m <-> m !! k = Some v.
Proof.
  unfold sitems. rewrite elem_of_list_omap. split.
  - intros [k' [Hk Heq]]. destruct (m !! k') eqn:Hm; naive_solver.
  - intros Hm. exists k. split; [apply elem_of_skeys; eauto|]. by rewrite Hm.
Qed.

Lemma sitems_keys m : (sitems m).*1 = skeys m.
Proof.
  unfold sitems.
  assert (Hall : Forall (fun k => is_Some (m !! k)) (skeys m)).
  { apply Forall_forall. intros k Hk. by apply elem_of_skeys. }
  induction Hall as [|k l [v Hv] _ IH]; simpl; [done|].
  rewrite Hv. simpl. by f_equal.
Qed.

Lemma sitems_NoDup m : NoDup (sitems m).
Proof. apply (NoDup_fmap_1 fst). rewrite sitems_keys. apply skeys_NoDup. Qed.

Lemma sitems_perm m : sitems m ≡ₚ map_to_list m.
Proof.
  apply NoDup_Permutation; [apply sitems_NoDup|apply NoDup_map_to_list|].
  intros [k v]. rewrite elem_of_sitems. by rewrite elem_of_map_to_list.
Qed.

(** Two strongly sorted duplicate-free enumerations of the same set agree. *)
Lemma skeys_unique m l :
  StronglySorted str_le l -> NoDup l -> (forall k, k ∈ l <-> is_Some (m !! k)) -> l = skeys m.
Proof.
  intros Hs Hn Hin. eapply (StronglySorted_unique str_le); eauto using skeys_sorted.
  apply NoDup_Permutation; auto using skeys_NoDup. intros k. rewrite Hin. by rewrite elem_of_skeys.
Qed.
End keys.

Lemma inb_true x l : inb x l = true <-> x ∈ l.
Proof. unfold inb. by rewrite bool_decide_eq_true. Qed.
Lemma inb_false x l : inb x l = false <-> x ∉ l.
Proof. unfold inb. by rewrite bool_decide_eq_false. Qed.

Lemma filter_StronglySorted {A} (R : relation A) (P : A -> Prop) `{!forall x, Decision (P x)} l :
  StronglySorted R l -> StronglySorted R (filter P l).
Proof.
  induction 1 as [|x l Hs IH Hf]; [constructor|].
  rewrite filter_cons. destruct (decide (P x)); [|done].
  constructor; [done|]. apply Forall_forall. intros y Hy.
  apply elem_of_list_filter in Hy as [_ Hy]. rewrite Forall_forall in Hf. auto.
Qed.

Lemma wdec_pos n : (0 < n < 2 ^ 64)%Z -> wdec n = (n - 1)%Z.
Proof. intros H. unfold wdec. rewrite Z.mod_small; lia. Qed.
Lemma winc_small n : (0 <= n < 2 ^ 64 - 1)%Z -> winc n = (n + 1)%Z.
Proof. intros H. unfold winc. rewrite Z.mod_small; lia. Qed.
