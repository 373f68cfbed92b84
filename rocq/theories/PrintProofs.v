(** Proofs for the text of a State. *)
From Coq Require Import ZArith Ascii String Lia.
From Verif Require Import Maps MapsProofs Vec GeomProofs StateModel StateSpec StateProofs StateReal StateRealProofs PrintModel PrintSpec.
Local Open Scope string_scope.

Lemma app_assoc_s (a b c : string) : (a ++ b) ++ c = a ++ (b ++ c).
Proof. induction a as [|x a IH]; [reflexivity|]. exact (f_equal (String x) IH). Qed.
Lemma app_nil_s (a : string) : a ++ "" = a.
Proof. induction a as [|x a IH]; [reflexivity|]. exact (f_equal (String x) IH). Qed.
Lemma concat_cons_s (x : string) (l : list string) : String.concat "" (x :: l) = x ++ String.concat "" l.
Proof. destruct l; [symmetry; apply app_nil_s|reflexivity]. Qed.

(** * the contacts of a consistent state *)
Lemma consistent_keys (s : PState) : consistent s ->
  skeys (normals s) = skeys (contacts s) /\ skeys (positions s) = skeys (contacts s) /\ skeys (rotations s) = skeys (contacts s).
Proof.
  intros [Hk _ _ _].
  split_and!; symmetry; apply skeys_unique; auto using skeys_sorted, skeys_NoDup; intros k; rewrite elem_of_skeys;
    destruct (Hk k) as (A & B & C & D); tauto.
Qed.
Lemma consistent_count (s : PState) : consistent s -> (Z.of_nat (size (contacts s)) < 2 ^ 64)%Z ->
  Z.to_nat (nbContacts s) = List.length (skeys (contacts s)).
Proof. intros [_ _ _ Hn] Hl. rewrite Hn, length_skeys, Z.mod_small by lia. lia. Qed.
Lemma numbers_exist (s : PState) : consistent s -> exists ls, Forall2 (contactNumbers s) (skeys (contacts s)) ls.
Proof.
  intros [Hk _ _ _].
  assert (H : forall k, k ∈ skeys (contacts s) -> exists l, contactNumbers s k l).
  { intros k Hi. apply elem_of_skeys in Hi. destruct (Hk k) as (A & B & C & D).
    destruct (proj2 C (proj1 A Hi)) as [p Hp]. destruct (proj2 D (proj1 A Hi)) as [[[a b] c] Hr].
    eexists _, p, a, b, c. eauto. }
  revert H. generalize (skeys (contacts s)). intros l. induction l as [|k l IH]; intros H.
  - exists []. constructor.
  - destruct (H k) as [x Hx]; [left|]. destruct IH as [xs Hxs]; [intros; apply H; by right|]. exists (x :: xs). by constructor.
Qed.

Section text.
Context (num : R -> string) (int : Z -> string).

Lemma one_line (k : string) p a b c (l : list R) :
  l = [vx p; vy p; vz p; vx a; vy a; vz a; vx b; vy b; vz b; vx c; vy c; vz c] ->
  line (label k :: map num l) = label k ++ put3 num p ++ putRows num (a, b, c) ++ eol.
Proof.
  intros ->. unfold line, put3, putRows. cbn [map String.concat]. unfold put3. rewrite !app_assoc_s. cbn [append]. rewrite ?app_assoc_s. cbn [append]. rewrite ?app_assoc_s. reflexivity.
Qed.
Lemma contacts_text (s : PState) names ls : Forall2 (contactNumbers s) names ls -> Forall (fun k => k <> "") names ->
  printContacts num s (List.length names) names = (lines num names ls, Ok tt).
Proof.
  intros H. induction H as [|k l names ls Hk _ IH]; intros Hn; [reflexivity|].
  inversion Hn as [|? ? H1 H2]; subst. destruct Hk as (p & a & b & c & Hp & Hr & El).
  cbn [List.length printContacts]. rewrite Hp, Hr. destruct k as [|ch t]; [congruence|]. cbn [substr1].
  rewrite (IH H2). unfold before, put; cbn [fst snd]. unfold lines. cbn [zip_with]. rewrite concat_cons_s. f_equal. f_equal.
  symmetry. apply (one_line (String ch t)); exact El.
Qed.
Lemma names_text names : printNames (List.length names) names = (String.concat "" (map (fun k => " " ++ k ++ " ") names), Ok tt).
Proof.
  induction names as [|k names IH]; [reflexivity|].
  cbn [List.length printNames map]. rewrite IH. unfold before, put; cbn [fst snd]. rewrite concat_cons_s. reflexivity.
Qed.
Lemma config_text q : putConfig num q = String.concat "" (map (fun x => " " ++ num x) q).
Proof. induction q as [|x q IH]; [reflexivity|]. cbn [putConfig map]. rewrite concat_cons_s, IH. by rewrite !app_assoc_s. Qed.
Lemma internal_text (s : PState) ls : consistent s -> (Z.of_nat (size (contacts s)) < 2 ^ 64)%Z -> Forall (fun k => k <> "") (skeys (contacts s)) ->
  Forall2 (contactNumbers s) (skeys (contacts s)) ls ->
  printInternal num s = (lines num (skeys (contacts s)) ls ++ configLine num (configuration s), Ok tt).
Proof.
  intros Hc Hl Hn Hls. unfold printInternal. rewrite (consistent_count s Hc Hl). destruct (consistent_keys s Hc) as (-> & _ & _).
  rewrite (contacts_text s _ ls Hls Hn). unfold before, put; cbn [fst snd]. unfold configLine. rewrite config_text. reflexivity.
Qed.
Lemma print_text (s : PState) ls : consistent s -> (Z.of_nat (size (contacts s)) < 2 ^ 64)%Z ->
  (forall k, is_Some (contacts s !! k) -> k <> "") -> Forall2 (contactNumbers s) (skeys (contacts s)) ls ->
  print1 num int s =
    (int (nbContacts s) ++ eol ++ String.concat "" (map (fun k => " " ++ k ++ " ") (skeys (contacts s))) ++ eol ++
     lines num (skeys (contacts s)) ls ++ configLine num (configuration s), Ok tt).
Proof.
  intros Hc Hl Hn Hls. assert (Hn' : Forall (fun k => k <> "") (skeys (contacts s))).
  { apply Forall_forall. intros k Hk. apply Hn. by apply elem_of_skeys. }
  unfold print1. rewrite (internal_text s ls Hc Hl Hn' Hls), (consistent_count s Hc Hl). destruct (consistent_keys s Hc) as (-> & _ & _).
  rewrite names_text. unfold before, put; cbn [fst snd]. by rewrite !app_assoc_s.
Qed.

(** * with a previous state *)
Lemma new_text previous items : Forall (fun '(k, p) => k <> "") items ->
  printNew previous items = (String.concat "" (map (fun k => label k ++ " ")
    (map fst (List.filter (fun '(k, p) => match positions previous !! k with Some q => moved3 q p | None => true end) items))), Ok tt).
Proof.
  induction items as [|[k p] items IH]; intros Hn; [reflexivity|]. inversion Hn as [|? ? H1 H2]; subst.
  cbn [printNew List.filter]. specialize (IH H2). destruct (match positions previous !! k with Some q => moved3 q p | None => true end).
  - destruct k as [|c t]; [congruence|]. cbn [substr1]. rewrite IH. cbn [map fst]. rewrite concat_cons_s. reflexivity.
  - exact IH.
Qed.
Lemma filter_sorted {A} (f : string * A -> bool) (l : list (string * A)) :
  StronglySorted str_le (map fst l) -> StronglySorted str_le (map fst (List.filter f l)).
Proof.
  induction l as [|[k a] l IH]; intros H; [constructor|]. inversion H as [|? ? H1 H2]; subst. cbn [List.filter].
  destruct (f (k, a)); [|auto]. constructor; [auto|]. rewrite Forall_forall in *. intros x Hx. apply H2.
  apply elem_of_list_In, in_map_iff in Hx. destruct Hx as ([k' a'] & E & Hx). apply filter_In in Hx. destruct Hx as [Hx _].
  apply elem_of_list_In, in_map_iff. exists (k', a'). auto.
Qed.
Lemma new_names (s previous : PState) l : StronglySorted str_le l -> NoDup l -> (forall k, k ∈ l <-> new_or_moved previous s k) ->
  map fst (List.filter (fun '(k, p) => match positions previous !! k with Some q => moved3 q p | None => true end) (sitems (positions s))) = l.
Proof.
  intros Hs Hn Hl. set (f := fun _ => _). assert (K : map fst (sitems (positions s)) = skeys (positions s)) by apply sitems_keys.
  assert (Nd : NoDup (map fst (List.filter f (sitems (positions s))))).
  { assert (NoDup (map fst (sitems (positions s)))) by (rewrite K; apply skeys_NoDup). clear K.
    induction (sitems (positions s)) as [|[k p] items IH]; [constructor|]. cbn [List.filter]. inversion H as [|? ? H1 H2]; subst.
    destruct (f (k, p)); [|auto]. cbn. constructor; [|auto]. intros Hx. apply H1. apply elem_of_list_In, in_map_iff in Hx.
    destruct Hx as ([k' a'] & E & Hx). apply filter_In in Hx. destruct Hx as [Hx _]. apply elem_of_list_In, in_map_iff. exists (k', a'). auto. }
  eapply (StronglySorted_unique str_le); auto.
  - apply filter_sorted. rewrite K. apply skeys_sorted.
  - apply NoDup_Permutation; auto. intros k. rewrite Hl. rewrite elem_of_list_In, in_map_iff. split.
    + intros ([k' p] & <- & Hx). apply filter_In in Hx. destruct Hx as [Hx Hf]. apply elem_of_list_In, elem_of_sitems in Hx. cbn.
      split; [eauto|]. cbn in Hf. destruct (positions previous !! k') as [q|] eqn:E; [|auto]. right. exists (dist3 q p). split; [exists q, p; auto|].
      unfold moved3 in Hf. apply Rltb_true in Hf. exact Hf.
    + intros [[p Hp] Hm]. exists (k, p). split; [auto|]. apply filter_In. split; [by apply elem_of_list_In, elem_of_sitems|]. cbn.
      destruct Hm as [-> | (d & (q & p' & Hq & Hp' & ->) & Hd)]; [auto|]. rewrite Hq. rewrite Hp in Hp'. injection Hp' as <-.
      unfold moved3. apply Rltb_true. exact Hd.
Qed.
Lemma print_new (s previous : PState) ls l : consistent s -> (Z.of_nat (size (contacts s)) < 2 ^ 64)%Z ->
  (forall k, is_Some (contacts s !! k) -> k <> "") -> Forall2 (contactNumbers s) (skeys (contacts s)) ls ->
  StronglySorted str_le l -> NoDup l -> (forall k, k ∈ l <-> new_or_moved previous s k) ->
  print2 num int s previous =
    (int (nbContacts s) ++ eol ++ String.concat "" (map (fun k => label k ++ " ") l) ++ eol ++
     lines num (skeys (contacts s)) ls ++ configLine num (configuration s), Ok tt).
Proof.
  intros Hc Hl Hn Hls Ss Nd Hm. assert (Hn' : Forall (fun k => k <> "") (skeys (contacts s))).
  { apply Forall_forall. intros k Hk. apply Hn. by apply elem_of_skeys. }
  unfold print2. rewrite (internal_text s ls Hc Hl Hn' Hls), new_text.
  - rewrite (new_names s previous l Ss Nd Hm). unfold before, put; cbn [fst snd]. by rewrite !app_assoc_s.
  - apply Forall_forall. intros [k p] Hk. apply elem_of_sitems in Hk. apply Hn. destruct Hc as [Hk' _ _ _]. destruct (Hk' k) as (A & _ & C & _).
    apply A. apply C. eauto.
Qed.

(** * when it goes wrong *)
Lemma names_ub n names : (List.length names < n)%nat -> snd (printNames n names) = Ub.
Proof.
  revert n. induction names as [|k names IH]; intros [|n] H; cbn in *; try lia; [reflexivity|].
  unfold before, put; cbn [fst snd]. specialize (IH n). rewrite IH by lia. reflexivity.
Qed.
Lemma print_ub (s : PState) : (Z.of_nat (size (normals s)) < nbContacts s)%Z -> snd (print1 num int s) = Ub.
Proof.
  intros H. unfold print1. assert (E : snd (printNames (Z.to_nat (nbContacts s)) (skeys (normals s))) = Ub).
  { apply names_ub. rewrite length_skeys. lia. }
  unfold before at 1, put; cbn [fst snd]. unfold before at 1. by rewrite E.
Qed.
Lemma contacts_short (s : PState) n names : (List.length names < n)%nat -> snd (printContacts num s n names) <> Ok tt.
Proof.
  revert n. induction names as [|k names IH]; intros [|n] H; cbn in *; try lia; [done|].
  destruct (positions s !! k); [|done]. destruct (rotations s !! k); [|done]. destruct (substr1 k); [|done..].
  unfold before, put; cbn [fst snd]. apply IH. lia.
Qed.
Lemma print_new_ub (s previous : PState) : (Z.of_nat (size (normals s)) < nbContacts s)%Z -> snd (print2 num int s previous) <> Ok tt.
Proof.
  intros H. unfold print2. unfold before at 1, put; cbn [fst snd]. unfold before at 1.
  destruct (snd (printNew previous (sitems (positions s)))); cbn [fst snd]; [|done..].
  unfold before at 1; cbn [fst snd]. unfold printInternal, before.
  assert (E : snd (printContacts num s (Z.to_nat (nbContacts s)) (skeys (normals s))) <> Ok tt).
  { apply contacts_short. rewrite length_skeys. lia. }
  destruct (snd (printContacts num s (Z.to_nat (nbContacts s)) (skeys (normals s)))) as [[]| |]; done.
Qed.
Lemma print_both_ub (s previous : PState) : (Z.of_nat (size (normals s)) < nbContacts s)%Z ->
  snd (print1 num int s) = Ub /\ snd (print2 num int s previous) <> Ok tt.
Proof. intros H. split; [by apply print_ub|by apply print_new_ub]. Qed.
Lemma empty_first (l : list string) : StronglySorted str_le l -> "" ∈ l -> exists l', l = "" :: l'.
Proof.
  intros Hs Hi. destruct l as [|x l]; [by apply elem_of_nil in Hi|]. inversion Hs as [|? ? H1 H2]; subst.
  apply elem_of_cons in Hi. destruct Hi as [<-|Hi]; [eauto|]. rewrite Forall_forall in H2. specialize (H2 _ Hi). unfold str_le in H2.
  destruct x; [eauto|discriminate].
Qed.
Lemma print_throw (s : PState) previous : consistent s -> (Z.of_nat (size (contacts s)) < 2 ^ 64)%Z -> is_Some (contacts s !! "") ->
  snd (print1 num int s) = Throw /\ snd (print2 num int s previous) = Throw.
Proof.
  intros Hc Hl He. assert (E : snd (printInternal num s) = Throw).
  { unfold printInternal. rewrite (consistent_count s Hc Hl). destruct (consistent_keys s Hc) as (-> & Kp & Kr).
    destruct (empty_first (skeys (contacts s))) as [l' El]; [apply skeys_sorted|by apply elem_of_skeys|]. rewrite El.
    assert (Ip : "" ∈ skeys (positions s)) by (rewrite Kp; by apply elem_of_skeys). assert (Ir : "" ∈ skeys (rotations s)) by (rewrite Kr; by apply elem_of_skeys).
    apply elem_of_skeys in Ip, Ir. destruct Ip as [p Hp], Ir as [r Hr]. cbn [List.length printContacts]. rewrite Hp, Hr. cbn [substr1]. reflexivity. }
  split.
  - unfold print1. rewrite (consistent_count s Hc Hl). destruct (consistent_keys s Hc) as (-> & _ & _). rewrite names_text.
    unfold before at 1, put; cbn [fst snd]. unfold before at 1; cbn [fst snd]. unfold before at 1; cbn [fst snd]. exact E.
  - unfold print2. unfold before at 1, put; cbn [fst snd].
    assert (N : forall items, snd (printNew previous items) = Ok tt \/ snd (printNew previous items) = Throw).
    { induction items as [|[k p] items IH]; [by left|]. cbn [printNew]. destruct (match positions previous !! k with Some q => moved3 q p | None => true end); [|auto].
      destruct k; cbn [substr1]; [by right|]. unfold before, put; cbn [fst snd]. destruct IH as [-> | ->]; auto. }
    destruct (N (sitems (positions s))) as [E1|E1]; unfold before at 1; rewrite E1; cbn [fst snd]; [|reflexivity].
    unfold before at 1; cbn [fst snd]. exact E.
Qed.
End text.

(** * the text determines the state *)
Definition blank (c : ascii) : Prop := c = " "%char \/ c = "010"%char.
Lemma split_word a b c c' r r' : oneWord a -> oneWord b -> blank c -> blank c' ->
  a ++ String c r = b ++ String c' r' -> a = b /\ c = c' /\ r = r'.
Proof.
  revert b. induction a as [|x a IH]; intros [|y b] Ha Hb Hc Hc' E.
  - change (String c r = String c' r') in E. injection E as -> ->. auto.
  - change (String c r = String y (b ++ String c' r')) in E. injection E as -> E. destruct Hb as (N1 & N2 & _). destruct Hc; congruence.
  - change (String x (a ++ String c r) = String c' r') in E. injection E as -> E. destruct Ha as (N1 & N2 & _). destruct Hc'; congruence.
  - change (String x (a ++ String c r) = String y (b ++ String c' r')) in E. injection E as -> E. destruct Ha as (_ & _ & Ha), Hb as (_ & _ & Hb).
    destruct (IH b Ha Hb Hc Hc' E) as (-> & -> & ->). auto.
Qed.
Lemma blank_sp : blank " "%char. Proof. by left. Qed.
Lemma blank_nl : blank "010"%char. Proof. by right. Qed.
Local Hint Resolve blank_sp blank_nl : core.
Lemma names_inj l1 l2 r1 r2 : Forall oneWord l1 -> Forall oneWord l2 ->
  String.concat "" (map (fun k => " " ++ k ++ " ") l1) ++ eol ++ r1 = String.concat "" (map (fun k => " " ++ k ++ " ") l2) ++ eol ++ r2 ->
  l1 = l2 /\ r1 = r2.
Proof.
  revert l2. induction l1 as [|k1 l1 IH]; intros [|k2 l2] H1 H2 E.
  - change (String "010" r1 = String "010" r2) in E. injection E as ->. auto.
  - cbn [map] in E. rewrite concat_cons_s, !app_assoc_s in E. discriminate.
  - cbn [map] in E. rewrite concat_cons_s, !app_assoc_s in E. discriminate.
  - cbn [map] in E. rewrite !concat_cons_s, !app_assoc_s in E.
    inversion H1 as [|? ? O1 F1]; inversion H2 as [|? ? O2 F2]; subst.
    assert (E' : k1 ++ String " " (String.concat "" (map (fun k => " " ++ k ++ " ") l1) ++ eol ++ r1) = k2 ++ String " " (String.concat "" (map (fun k => " " ++ k ++ " ") l2) ++ eol ++ r2))
      by (injection E as E; exact E).
    apply split_word in E'; auto. destruct E' as (-> & _ & E'). destruct (IH l2 F1 F2 E') as [-> ->]. auto.
Qed.
Lemma concat_sp x y (l : list string) : String.concat " " (x :: y :: l) = x ++ String " " (String.concat " " (y :: l)).
Proof. reflexivity. Qed.
Lemma words_inj ws1 ws2 x1 x2 r1 r2 : Forall oneWord (x1 :: ws1) -> Forall oneWord (x2 :: ws2) ->
  line (x1 :: ws1) ++ r1 = line (x2 :: ws2) ++ r2 -> x1 = x2 /\ ws1 = ws2 /\ r1 = r2.
Proof.
  unfold line. revert ws2 x1 x2. induction ws1 as [|y1 ws1 IH]; intros [|y2 ws2] x1 x2 H1 H2 E; rewrite !app_assoc_s in E;
    inversion H1 as [|? ? O1 F1]; inversion H2 as [|? ? O2 F2]; subst.
  - apply (split_word x1 x2) in E; auto. destruct E as (-> & _ & E). change (r1 = r2) in E. auto.
  - rewrite concat_sp, app_assoc_s in E. apply (split_word x1 x2) in E; auto. destruct E as (_ & E & _). discriminate.
  - rewrite concat_sp, app_assoc_s in E. apply (split_word x1 x2) in E; auto. destruct E as (_ & E & _). discriminate.
  - rewrite !concat_sp, !app_assoc_s in E. apply (split_word x1 x2) in E; auto. destruct E as (-> & _ & E).
    destruct (IH ws2 y1 y2) as (-> & -> & ->); auto.
    rewrite !app_assoc_s. exact E.
Qed.
Lemma oneWord_label k : oneWord k -> oneWord (label k).
Proof. destruct k; cbn; tauto. Qed.

Section unique.
Context (num : R -> string) (int : Z -> string).
Context (Hnum : forall x, oneWord (num x)).

Lemma all_words l : Forall oneWord (map num l).
Proof. induction l; constructor; auto. Qed.
Lemma lines_inj n1 n2 ls1 ls2 r1 r2 : List.length n1 = List.length n2 -> List.length ls1 = List.length n1 -> List.length ls2 = List.length n2 ->
  Forall oneWord n1 -> Forall oneWord n2 ->
  lines num n1 ls1 ++ r1 = lines num n2 ls2 ++ r2 -> map label n1 = map label n2 /\ map (map num) ls1 = map (map num) ls2 /\ r1 = r2.
Proof.
  revert n2 ls1 ls2. induction n1 as [|k1 n1 IH]; intros [|k2 n2] [|l1 ls1] [|l2 ls2] H0 H1 H2 W1 W2 E; try discriminate.
  - auto.
  - unfold lines in E. cbn [zip_with] in E. rewrite !concat_cons_s, !app_assoc_s in E.
    inversion W1 as [|? ? O1 F1]; inversion W2 as [|? ? O2 F2]; subst.
    apply words_inj in E; [|constructor; auto using oneWord_label, all_words|constructor; auto using oneWord_label, all_words].
    destruct E as (EL & EM & E).
    destruct (IH n2 ls1 ls2) as (E1 & E2 & E3); auto. cbn [map]. rewrite EL, EM, E1, E2. auto.
Qed.
Lemma config_inj q1 q2 : configLine num q1 = configLine num q2 -> map num q1 = map num q2.
Proof.
  unfold configLine. intros E. assert (E' : String.concat "" (map (fun x => " " ++ num x) q1) ++ eol ++ " " ++ eol = String.concat "" (map (fun x => " " ++ num x) q2) ++ eol ++ " " ++ eol).
  { repeat (injection E as E). exact E. }
  clear E. revert E'. generalize (" " ++ eol) at 1 as r1. generalize (" " ++ eol) as r2. intros r2 r1.
  assert (G : forall q1 q2, String.concat "" (map (fun x => " " ++ num x) q1) ++ eol ++ r1 = String.concat "" (map (fun x => " " ++ num x) q2) ++ eol ++ r2 -> map num q1 = map num q2).
  { clear q1 q2. induction q1 as [|x q1 IH]; intros [|y q2] E.
    - auto.
    - cbn [map] in E. rewrite concat_cons_s, !app_assoc_s in E. discriminate.
    - cbn [map] in E. rewrite concat_cons_s, !app_assoc_s in E. discriminate.
    - cbn [map] in E. rewrite !concat_cons_s, !app_assoc_s in E.
      assert (S : forall q r, exists c t, blank c /\ String.concat "" (map (fun x => " " ++ num x) q) ++ eol ++ r = String c t).
      { intros [|z q] r; [exists "010"%char, r; auto|]. cbn [map]. rewrite concat_cons_s, !app_assoc_s. eexists " "%char, _. split; [auto|reflexivity]. }
      assert (E' : num x ++ (String.concat "" (map (fun x => " " ++ num x) q1) ++ eol ++ r1) = num y ++ (String.concat "" (map (fun x => " " ++ num x) q2) ++ eol ++ r2))
        by (injection E as E; exact E).
      destruct (S q1 r1) as (c1 & t1 & B1 & S1). destruct (S q2 r2) as (c2 & t2 & B2 & S2). rewrite S1, S2 in E'.
      apply split_word in E'; auto. destruct E' as (En & -> & ->). cbn [map]. rewrite En. f_equal. apply IH. by rewrite S1, S2. }
  apply G.
Qed.
Lemma print_unique (s1 s2 : PState) t : consistent s1 -> consistent s2 ->
  (Z.of_nat (size (contacts s1)) < 2 ^ 64)%Z -> (Z.of_nat (size (contacts s2)) < 2 ^ 64)%Z ->
  (forall k, is_Some (contacts s1 !! k) -> k <> "" /\ oneWord k) -> (forall k, is_Some (contacts s2 !! k) -> k <> "" /\ oneWord k) ->
  (forall z, oneWord (int z)) ->
  print1 num int s1 = (t, Ok tt) -> print1 num int s2 = (t, Ok tt) ->
  contacts s1 = contacts s2 /\ nbContacts s1 = nbContacts s2 /\ map num (configuration s1) = map num (configuration s2) /\
  forall k l1 l2, contactNumbers s1 k l1 -> contactNumbers s2 k l2 -> map num l1 = map num l2.
Proof.
  intros C1 C2 L1 L2 N1 N2 Hint P1 P2.
  destruct (numbers_exist s1 C1) as [ls1 F1]. destruct (numbers_exist s2 C2) as [ls2 F2].
  rewrite (print_text num int s1 ls1) in P1; auto; [|intros k Hk; by apply N1].
  rewrite (print_text num int s2 ls2) in P2; auto; [|intros k Hk; by apply N2].
  injection P1 as P1. injection P2 as P2. rewrite <- P2 in P1. clear P2.
  apply split_word in P1; auto. destruct P1 as (_ & _ & P1).
  assert (W1 : Forall oneWord (skeys (contacts s1))) by (apply Forall_forall; intros k Hk; apply N1; by apply elem_of_skeys).
  assert (W2 : Forall oneWord (skeys (contacts s2))) by (apply Forall_forall; intros k Hk; apply N2; by apply elem_of_skeys).
  apply (names_inj _ _ _ _ W1 W2) in P1. destruct P1 as [EK P1]. rewrite <- EK in *.
  apply lines_inj in P1; auto; [|symmetry; by eapply Forall2_length|symmetry; by eapply Forall2_length].
  destruct P1 as (_ & EN & P1). apply config_inj in P1.
  assert (K : forall k, is_Some (contacts s1 !! k) <-> is_Some (contacts s2 !! k)).
  { intros k. rewrite <- !elem_of_skeys, EK. tauto. }
  assert (U : forall s k l l', contactNumbers s k l -> contactNumbers s k l' -> l = l').
  { intros s k l l' (p & a & b & c & Hp & Hr & ->) (p' & a' & b' & c' & Hp' & Hr' & ->). rewrite Hp in Hp'. rewrite Hr in Hr'. injection Hp' as <-. injection Hr' as <- <- <-. reflexivity. }
  assert (D : forall k l1 l2, contactNumbers s1 k l1 -> contactNumbers s2 k l2 -> map num l1 = map num l2).
  { intros k l1 l2 A1 A2. assert (Hk : k ∈ skeys (contacts s1)).
    { apply elem_of_skeys. destruct A1 as (p & _ & _ & _ & Hp & _). destruct C1 as [K1 _ _ _]. destruct (K1 k) as (X1 & _ & X3 & _). apply X1, X3. eauto. }
    apply elem_of_list_lookup in Hk. destruct Hk as [i Hi].
    destruct (Forall2_lookup_l _ _ _ _ _ F1 Hi) as (m1 & Hl1 & B1). destruct (Forall2_lookup_l _ _ _ _ _ F2 Hi) as (m2 & Hl2 & B2).
    rewrite (U _ _ _ _ A1 B1), (U _ _ _ _ A2 B2).
    assert (E1 : map (map num) ls1 !! i = Some (map num m1)) by (change (map (map num) ls1) with (fmap (map num) ls1); rewrite list_lookup_fmap, Hl1; reflexivity).
    assert (E2 : map (map num) ls2 !! i = Some (map num m2)) by (change (map (map num) ls2) with (fmap (map num) ls2); rewrite list_lookup_fmap, Hl2; reflexivity).
    rewrite EN in E1. rewrite E1 in E2. injection E2 as E2. exact E2. }
  destruct C1 as [K1 A1 O1 B1], C2 as [K2 A2 O2 B2].
  assert (CE : contacts s1 = contacts s2).
  { apply map_eq. intros k. destruct (contacts s1 !! k) as [b|] eqn:E1.
    - assert (H1 : is_Some (contacts s1 !! k)) by eauto. pose proof (proj1 (K k) H1) as H2.
      rewrite (A2 k (proj1 (proj1 (K2 k)) H2)). rewrite <- E1. exact (A1 k (proj1 (proj1 (K1 k)) H1)).
    - destruct (contacts s2 !! k) as [b|] eqn:E2; [|auto]. assert (H2 : is_Some (contacts s2 !! k)) by eauto. apply K in H2. rewrite E1 in H2. by destruct H2. }
  split; [auto|]. split; [rewrite B1, B2, CE; reflexivity|]. split; [exact P1|exact D].
Qed.
End unique.

(** * the text with a previous state *)
Lemma labels_inj l1 l2 r1 r2 : Forall oneWord l1 -> Forall oneWord l2 ->
  String.concat "" (map (fun k => label k ++ " ") l1) ++ eol ++ r1 = String.concat "" (map (fun k => label k ++ " ") l2) ++ eol ++ r2 ->
  map label l1 = map label l2 /\ r1 = r2.
Proof.
  revert l2. induction l1 as [|k1 l1 IH]; intros [|k2 l2] H1 H2 E.
  - change (String "010" r1 = String "010" r2) in E. injection E as ->. auto.
  - inversion H2 as [|? ? O2 F2]; subst. cbn [map] in E. rewrite concat_cons_s, !app_assoc_s in E.
    apply (split_word "" (label k2)) in E; auto using oneWord_label; [|exact I]. destruct E as (_ & E & _). discriminate.
  - inversion H1 as [|? ? O1 F1]; subst. cbn [map] in E. rewrite concat_cons_s, !app_assoc_s in E.
    apply (split_word (label k1) "") in E; auto using oneWord_label; [|exact I]. destruct E as (_ & E & _). discriminate.
  - inversion H1 as [|? ? O1 F1]; inversion H2 as [|? ? O2 F2]; subst. cbn [map] in E. rewrite !concat_cons_s, !app_assoc_s in E.
    apply (split_word (label k1) (label k2)) in E; auto using oneWord_label. destruct E as (EL & _ & E).
    destruct (IH l2 F1 F2 E) as [EM ->]. cbn [map]. rewrite EL, EM. auto.
Qed.
Lemma print_new_unique num int (s1 s2 p1 p2 : PState) t :
  (forall x, oneWord (num x)) -> (forall z, oneWord (int z)) -> (forall x y, int x = int y -> x = y) ->
  consistent s1 -> consistent s2 ->
  (Z.of_nat (size (contacts s1)) < 2 ^ 64)%Z -> (Z.of_nat (size (contacts s2)) < 2 ^ 64)%Z ->
  (forall k, is_Some (contacts s1 !! k) -> k <> "" /\ oneWord k) -> (forall k, is_Some (contacts s2 !! k) -> k <> "" /\ oneWord k) ->
  print2 num int s1 p1 = (t, Ok tt) -> print2 num int s2 p2 = (t, Ok tt) ->
  map num (configuration s1) = map num (configuration s2) /\
  Forall2 (fun k1 k2 => label k1 = label k2 /\ forall l1 l2, contactNumbers s1 k1 l1 -> contactNumbers s2 k2 l2 -> map num l1 = map num l2)
    (skeys (contacts s1)) (skeys (contacts s2)).
Proof.
  intros Hnum Hint Hintj C1 C2 L1 L2 N1 N2 P1 P2.
  destruct (numbers_exist s1 C1) as [ls1 F1]. destruct (numbers_exist s2 C2) as [ls2 F2].
  assert (G : forall (s p : PState) ls, consistent s -> (Z.of_nat (size (contacts s)) < 2 ^ 64)%Z -> (forall k, is_Some (contacts s !! k) -> k <> "" /\ oneWord k) ->
    Forall2 (contactNumbers s) (skeys (contacts s)) ls ->
    exists l, Forall oneWord l /\ print2 num int s p = (int (nbContacts s) ++ eol ++ String.concat "" (map (fun k => label k ++ " ") l) ++ eol ++
     lines num (skeys (contacts s)) ls ++ configLine num (configuration s), Ok tt)).
  { intros s p ls Hc Hl Hn Hls. assert (Hn' : Forall (fun k => k <> "") (skeys (contacts s))).
    { apply Forall_forall. intros k Hk. apply Hn. by apply elem_of_skeys. }
    assert (Q : forall k v, (k, v) ∈ sitems (positions s) -> k <> "" /\ oneWord k).
    { intros k v Hk. apply elem_of_sitems in Hk. apply Hn. destruct Hc as [Hk' _ _ _]. destruct (Hk' k) as (A & _ & C & _). apply A. apply C. eauto. }
    unfold print2. rewrite (internal_text num s ls Hc Hl Hn' Hls), new_text.
    - eexists. split; [|unfold before, put; cbn [fst snd]; by rewrite !app_assoc_s].
      apply Forall_forall. intros k Hk. apply elem_of_list_In, in_map_iff in Hk. destruct Hk as ([k' v] & <- & Hk). apply filter_In in Hk. destruct Hk as [Hk _].
      apply elem_of_list_In in Hk. exact (proj2 (Q _ _ Hk)).
    - apply Forall_forall. intros [k v] Hk. exact (proj1 (Q _ _ Hk)). }
  destruct (G s1 p1 ls1 C1 L1 N1 F1) as (l1 & W1 & T1). destruct (G s2 p2 ls2 C2 L2 N2 F2) as (l2 & W2 & T2).
  rewrite P1 in T1. rewrite P2 in T2. injection T1 as T1. injection T2 as T2. rewrite T1 in T2. clear T1 P1 P2.
  apply split_word in T2; auto. destruct T2 as (EN & _ & T2). apply Hintj in EN.
  apply (labels_inj _ _ _ _ W1 W2) in T2. destruct T2 as [_ T2].
  assert (V1 : Forall oneWord (skeys (contacts s1))) by (apply Forall_forall; intros k Hk; apply N1; by apply elem_of_skeys).
  assert (V2 : Forall oneWord (skeys (contacts s2))) by (apply Forall_forall; intros k Hk; apply N2; by apply elem_of_skeys).
  assert (EL : List.length (skeys (contacts s1)) = List.length (skeys (contacts s2))).
  { rewrite <- (consistent_count s1 C1 L1), <- (consistent_count s2 C2 L2), EN. reflexivity. }
  apply (lines_inj num Hnum) in T2; auto; [|symmetry; by eapply Forall2_length|symmetry; by eapply Forall2_length].
  destruct T2 as (EM & ES & T2). apply (config_inj num Hnum) in T2. split; [auto|].
  assert (U : forall s k l l', contactNumbers s k l -> contactNumbers s k l' -> l = l').
  { intros s k l l' (p & a & b & c & Hp & Hr & ->) (p' & a' & b' & c' & Hp' & Hr' & ->). rewrite Hp in Hp'. rewrite Hr in Hr'. injection Hp' as <-. injection Hr' as <- <- <-. reflexivity. }
  clear - EM ES EL F1 F2 U. revert EM ES EL F1 F2. generalize (skeys (contacts s2)) as n2. generalize (skeys (contacts s1)) as n1. intros n1 n2. revert n2 ls1 ls2.
  induction n1 as [|k1 n1 IH]; intros [|k2 n2] ls1 ls2 EM ES EL F1 F2; try discriminate; [constructor|].
  inversion F1 as [|? m1 ? ls1' A1 B1]; subst. inversion F2 as [|? m2 ? ls2' A2 B2]; subst. injection EM as E1 E2. injection EL as EL. injection ES as S1 S2.
  constructor; [|eauto]. split; [auto|]. intros l1 l2 H1 H2. by rewrite (U _ _ _ _ H1 A1), (U _ _ _ _ H2 A2).
Qed.
Lemma first_letter num int c0 r0 a b t q p n m r0' c0' : 
  print2 num int (state_step (state_default c0 r0) (OpAdd (String a t) q p n m)) (state_default c0' r0') =
  print2 num int (state_step (state_default c0 r0) (OpAdd (String b t) q p n m)) (state_default c0' r0').
Proof.
  unfold state_step. assert (R : forall k, snd (RemoveContact k (state_default c0 r0 : PState)) = state_default c0 r0) by (intros; reflexivity).
  rewrite !R. unfold print2, printInternal, addContact. cbn [nbContacts contacts normals positions rotations configuration state_default].
  assert (K : forall (k : string) {V} (v : V), skeys (<[k:=v]> (∅ : gmap string V)) = [k]).
  { intros k V v. symmetry. apply skeys_unique; [repeat constructor|apply NoDup_singleton|].
    intros x. rewrite elem_of_list_singleton. split; [intros ->; rewrite lookup_insert; eauto|].
    intros [y Hy]. destruct (decide (x = k)) as [|N]; [auto|]. rewrite lookup_insert_ne, lookup_empty in Hy by auto. discriminate. }
  unfold sitems. rewrite !K. cbn [omap list_omap]. rewrite !lookup_insert. cbn [printNew positions state_default]. rewrite !lookup_empty. cbn [substr1].
  change (Z.to_nat (winc 0)) with 1%nat. cbn [printContacts positions rotations addContact]. rewrite !lookup_insert. cbn [substr1]. reflexivity.
Qed.
