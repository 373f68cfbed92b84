(** Proofs about the planar hull of the heuristics: the whole hull. *)
From Coq Require Import Psatz.
From Verif Require Import Maps MapsProofs Vec VecProofs GeomModel GeomSpec GeomProofs3 HeurModel HeurSpec HeurProofs HeurProofs2.
Local Open Scope R_scope.

(** ** without any assumption: points of the input, never undefined *)
Lemma popWhile_any dir p base : forall l op, (exists m, l = m ++ [base]) ->
  exists l' op', popWhile dir p l op = (l', op') /\ (forall x, x ∈ l' -> x ∈ l) /\ (exists m, l' = m ++ [base]).
Proof.
  induction l as [|q l IH]; intros op [m Hm]; [by destruct m|]. destruct l as [|b l].
  - exists [q], op. split; [done|]. split; [done|]. by exists m.
  - cbn [popWhile]. destruct (oltb _ _).
    + destruct (IH (opening dir b p)) as (l' & op' & E & H1 & H2).
      { destruct m as [|? m]; [done|]. injection Hm as _ Hm. by exists m. }
      exists l', op'. split; [done|]. split; [|done]. intros x Hx. apply elem_of_list_further. by apply H1.
    + exists (q :: b :: l), op. split; [done|]. split; [done|]. by exists m.
Qed.
Lemma scanning_any base hi dir p subset angle : (exists m, subset = m ++ [base]) ->
  exists subset' angle', scanningProcess base hi dir (subset, angle) p = Ok (subset', angle') /\
    (forall x, x ∈ subset' -> x ∈ p :: subset) /\ (exists m, subset' = m ++ [base]).
Proof.
  intros [m Hm]. destruct subset as [|q [|b rest]]; [by destruct m| |].
  - exists [p; q], (opening dir base p). split; [done|]. split; [done|]. exists (p :: m). by rewrite Hm.
  - cbn [scanningProcess]. destruct (Rleb _ _); [|exists (q :: b :: rest), angle; split; [done|]; split; [intros x Hx; by apply elem_of_list_further|by exists m]].
    destruct (oleb _ _).
    + exists (p :: q :: b :: rest), (opening dir q p). split; [done|]. split; [done|]. exists (p :: m). by rewrite Hm.
    + destruct (popWhile_any dir p base (b :: rest) (opening dir b p)) as (l' & op' & E & H1 & [m' H2]).
      { destruct m as [|? m]; [done|]. injection Hm as _ Hm. by exists m. }
      rewrite E. exists (p :: l'), op'. split; [done|]. split.
      * intros x Hx. apply elem_of_cons in Hx as [->|Hx]; [apply elem_of_list_here|]. do 2 apply elem_of_list_further. by apply H1.
      * exists (p :: m'). by rewrite H2.
Qed.
Lemma scanPoints_any base dir l : forall up low, (exists m, up.1 = m ++ [base]) -> (exists m, low.1 = m ++ [base]) ->
  exists up' low', scanPoints base dir up low l = Ok (up', low') /\
    (forall x, x ∈ up'.1 -> x ∈ up.1 ++ l) /\ (forall x, x ∈ low'.1 -> x ∈ low.1 ++ l) /\
    (exists m, up'.1 = m ++ [base]) /\ (exists m, low'.1 = m ++ [base]).
Proof.
  induction l as [|p l IH]; intros [up ua] [low la] Hu Hl; cbn [scanPoints].
  - exists (up, ua), (low, la). cbn [fst] in *. split; [done|]. split_and!; try done; intros x Hx; by rewrite app_nil_r.
  - cbn [fst] in *. destruct (Rleb _ _).
    + destruct (scanning_any base 1 dir p up ua Hu) as (up2 & ua2 & -> & H1 & H2).
      destruct (IH (up2, ua2) (low, la)) as (up' & low' & -> & H3 & H4 & H5 & H6); try done.
      exists up', low'. split; [done|]. cbn [fst] in *. split_and!; try done.
      * intros x Hx. apply H3 in Hx. rewrite elem_of_app in Hx. rewrite elem_of_app, elem_of_cons. destruct Hx as [Hx|Hx]; [|tauto].
        apply H1 in Hx. rewrite elem_of_cons in Hx. tauto.
      * intros x Hx. apply H4 in Hx. rewrite elem_of_app in *. rewrite elem_of_cons. tauto.
    + destruct (scanning_any base (-1) dir p low la Hl) as (low2 & la2 & -> & H1 & H2).
      destruct (IH (up, ua) (low2, la2)) as (up' & low' & -> & H3 & H4 & H5 & H6); try done.
      exists up', low'. split; [done|]. cbn [fst] in *. split_and!; try done.
      * intros x Hx. apply H3 in Hx. rewrite elem_of_app in *. rewrite elem_of_cons. tauto.
      * intros x Hx. apply H4 in Hx. rewrite elem_of_app in Hx. rewrite elem_of_app, elem_of_cons. destruct Hx as [Hx|Hx]; [|tauto].
        apply H1 in Hx. rewrite elem_of_cons in Hx. tauto.
Qed.
(** merging *)
Definition apart (l : list vec3) : Prop := forall i j p q, (i < j)%nat -> l !! i = Some p -> l !! j = Some q -> ~ near p q.
Lemma mergeNew_ok l : forall res, apart res ->
  apart (mergeNew res l) /\ (forall p, p ∈ mergeNew res l -> p ∈ res ++ l) /\ (forall p, p ∈ res -> p ∈ mergeNew res l) /\
  (forall p, p ∈ l -> exists q, q ∈ mergeNew res l /\ near q p).
Proof.
  induction l as [|p l IH]; intros res Hap; cbn [mergeNew].
  - split; [done|]. rewrite app_nil_r. split_and!; try done. intros p Hp. by apply elem_of_nil in Hp.
  - destruct (existsb (fun q => close q p) res) eqn:E.
    + destruct (IH res Hap) as (H1 & H2 & H3 & H4). split; [done|]. split_and!; [|done|].
      * intros x Hx. apply H2 in Hx. rewrite elem_of_app in *. rewrite elem_of_cons. tauto.
      * intros x Hx. apply elem_of_cons in Hx as [->|Hx]; [|by apply H4].
        apply existsb_exists in E as (q & Hq & Hc). exists q. split; [apply H3; by apply elem_of_list_In|by apply close_near].
    + destruct (IH (res ++ [p])) as (H1 & H2 & H3 & H4).
      { intros i j a b Hij Ha Hb. destruct (decide (j < length res)%nat) as [Hj|Hj].
        - rewrite lookup_app_l in Ha by lia. rewrite lookup_app_l in Hb by lia. by apply (Hap i j).
        - assert (j = length res) as -> by (apply lookup_lt_Some in Hb; rewrite app_length in Hb; simpl in Hb; lia).
          rewrite list_lookup_middle in Hb by done. injection Hb as <-. rewrite lookup_app_l in Ha by lia.
          intros Hn. apply close_near in Hn. assert (Ht : existsb (fun q => close q p) res = true); [|congruence].
          apply existsb_exists. exists a. split; [apply elem_of_list_In; by eapply elem_of_list_lookup_2|done]. }
      split; [done|]. split_and!.
      * intros x Hx. apply H2 in Hx. rewrite !elem_of_app in Hx. rewrite elem_of_list_singleton in Hx. rewrite elem_of_app, elem_of_cons. tauto.
      * intros x Hx. apply H3. rewrite elem_of_app. by left.
      * intros x Hx. apply elem_of_cons in Hx as [->|Hx]; [|by apply H4]. exists p. split; [apply H3; rewrite elem_of_app, elem_of_list_singleton; by right|].
        unfold near. rewrite !Rminus_eq_0, Rabs_R0. lra.
Qed.
Lemma elem_of_rev {A} (l : list A) x : x ∈ rev l <-> x ∈ l.
Proof. rewrite !elem_of_list_In. symmetry. apply in_rev. Qed.
Lemma last_in {A} (l : list A) d : l <> [] -> List.last l d ∈ l.
Proof. intros H. rewrite (app_removelast_last d H) at 2. rewrite elem_of_app, elem_of_list_singleton. by right. Qed.
Lemma removelast_in {A} (l : list A) x : x ∈ removelast l -> x ∈ l.
Proof.
  destruct l as [|a l']; [done|]. intros H. rewrite (@app_removelast_last _ (a :: l') a) by done. rewrite elem_of_app. by left.
Qed.
Theorem hull_any l : exists h, convexHull2D l = Ok h /\ (forall p, p ∈ h -> p ∈ l) /\ apart h /\ (l <> [] -> h <> []) /\
  (l <> [] -> exists p, p ∈ h /\ forall q, q ∈ l -> vx p <= vx q) /\
  (l <> [] -> exists p r, p ∈ h /\ r ∈ l /\ near p r /\ forall q, q ∈ l -> vx q <= vx r).
Proof.
  unfold convexHull2D. destruct (selectionSort_ok (length l) l eq_refl) as [Hp Hs].
  destruct (selectionSort (length l) l) as [|p0 sorted'] eqn:Es.
  - exists []. assert (l = []) as -> by (symmetry; by apply Permutation_nil_l in Hp). split; [done|]. split; [done|]. split; [|done]. intros i j a b _ H. by destruct i.
  - destruct (scanPoints_any p0 1 sorted' ([p0], None) ([p0], None)) as ([trUp ?] & [trLow ?] & E1 & H1 & H2 & [m1 H3] & [m2 H4]); [by exists []..|].
    rewrite E1. set (pn := List.last (p0 :: sorted') p0).
    destruct (scanPoints_any pn (-1) (rev (removelast (p0 :: sorted'))) ([pn], None) ([pn], None)) as ([tlUp ?] & [tlLow ?] & E2 & H5 & H6 & [m3 H7] & [m4 H8]); [by exists []..|].
    rewrite E2. cbn [fst] in *. eexists. split; [done|].
    set (L := rev trUp ++ tlUp ++ rev tlLow ++ trLow).
    assert (Hap : apart []) by (intros i j a b _ H; by destruct i).
    destruct (mergeNew_ok L [] Hap) as (M1 & M2 & M3 & M4).
    assert (Hpn : pn ∈ p0 :: sorted') by by apply last_in.
    assert (HL : forall x, x ∈ L -> x ∈ l).
    { intros x Hx. rewrite <- Hp. unfold L in Hx. rewrite !elem_of_app, !elem_of_rev in Hx.
      assert (A1 : forall y, y ∈ [p0] ++ sorted' -> y ∈ p0 :: sorted') by done.
      assert (A2 : forall y, y ∈ [pn] ++ rev (removelast (p0 :: sorted')) -> y ∈ p0 :: sorted').
      { intros y Hy. rewrite elem_of_app, elem_of_list_singleton, elem_of_rev in Hy. destruct Hy as [->|Hy]; [done|by apply removelast_in]. }
      destruct Hx as [Hx|[Hx|[Hx|Hx]]]; [apply A1, H1|apply A2, H5|apply A2, H6|apply A1, H2]; done. }
    split; [intros p Hp'; apply HL; by apply M2|]. split; [done|].
    assert (Hhead : exists r, mergeNew [] L = p0 :: r).
    { assert (exists r, L = p0 :: r) as [r ->]. { unfold L. rewrite H3, rev_app_distr. by eexists. }
      cbn [mergeNew existsb app].
      assert (G : forall t res, exists r', mergeNew (p0 :: res) t = p0 :: r').
      { induction t as [|x t IHt]; intros res; cbn [mergeNew]; [by eexists|]. destruct (existsb _ _); [apply IHt|]. apply (IHt (res ++ [x])). }
      apply G. }
    destruct Hhead as [r Hr]. split; [intros _; by rewrite Hr|]. split.
    + intros _. exists p0. split; [rewrite Hr; apply elem_of_list_here|]. intros q Hq. rewrite <- Hp in Hq.
      apply elem_of_list_lookup in Hq as [i Hi]. destruct i as [|i]; [injection Hi as ->; lra|]. by apply (Hs 0%nat (S i)); [lia| |].
    + intros _. destruct (M4 pn) as (p & Hp1 & Hp2).
      { unfold L. rewrite !elem_of_app, elem_of_rev. right; left. rewrite H7. rewrite elem_of_app, elem_of_list_singleton. by right. }
      exists p, pn. split; [done|]. split; [by rewrite <- Hp|]. split; [done|]. intros q Hq. rewrite <- Hp in Hq.
      apply elem_of_list_lookup in Hq as [i Hi].
      assert (Hdec : p0 :: sorted' = removelast (p0 :: sorted') ++ [pn]) by (by apply app_removelast_last).
      assert (Hlen : length (removelast (p0 :: sorted')) = length sorted') by (apply (f_equal length) in Hdec; rewrite app_length in Hdec; simpl in Hdec |- *; lia).
      assert (Hlast : (p0 :: sorted') !! (length sorted') = Some pn) by (rewrite Hdec, <- Hlen; by rewrite list_lookup_middle).
      destruct (decide (i = length sorted')) as [->|Hne].
      * rewrite Hlast in Hi. injection Hi as ->. lra.
      * apply (Hs i (length sorted')); [apply lookup_lt_Some in Hi; simpl in Hi; lia|done|done].
Qed.

(** ** when the tolerance confuses nothing: the hull contains every point *)
Definition inv (dir hi : R) (base : vec3) (all : list vec3) (st : list vec3 * option R) : Prop :=
  (forall x, x ∈ st.1 -> x ∈ all) /\ chain dir hi st.1 /\ (exists m, st.1 = m ++ [base]) /\
  (match st.1 with q :: m :: _ => st.2 = opening dir m q | _ => True end).
Lemma scanPoints_ok base dir all : sign dir -> no_confusion all -> forall l up low,
  (forall x, x ∈ l -> x ∈ all) -> inv dir 1 base all up -> inv dir (-1) base all low ->
  (forall x p, x ∈ up.1 \/ x ∈ low.1 -> p ∈ l -> 0 <= dir * (vx p - vx x)) ->
  (forall i j p q, (i < j)%nat -> l !! i = Some p -> l !! j = Some q -> 0 <= dir * (vx q - vx p)) ->
  exists up' low', scanPoints base dir up low l = Ok (up', low') /\
    covers dir 1 up'.1 (up.1 ++ l) /\ covers dir (-1) low'.1 (low.1 ++ l).
Proof.
  intros Hd Hnc. assert (S1 : sign 1) by by left. assert (S2 : sign (-1)) by by right.
  induction l as [|p l IH]; intros [up ua] [low la] Hl Hu Hw Hx Hs; cbn [scanPoints].
  - exists (up, ua), (low, la). cbn [fst]. rewrite !app_nil_r. split; [done|]. split; apply covers_refl.
  - assert (Hp : p ∈ all) by (apply Hl, elem_of_list_here).
    assert (Hsl : forall i j a b, (i < j)%nat -> l !! i = Some a -> l !! j = Some b -> 0 <= dir * (vx b - vx a)).
    { intros i j a b Hij Ha Hb. by apply (Hs (S i) (S j)); [lia| |]. }
    assert (Hpl : forall q, q ∈ l -> 0 <= dir * (vx q - vx p)).
    { intros q Hq. apply elem_of_list_lookup in Hq as [i Hi]. by apply (Hs 0%nat (S i)); [lia| |]. }
    destruct Hu as (U1 & U2 & [mu U3] & U4), Hw as (L1 & L2 & [ml L3] & L4). cbn [fst snd] in *.
    assert (Hbu : base ∈ up) by (rewrite U3, elem_of_app, elem_of_list_singleton; by right).
    assert (Hbl : base ∈ low) by (rewrite L3, elem_of_app, elem_of_list_singleton; by right).
    assert (Hbx : 0 <= dir * (vx p - vx base)). { apply Hx; [by left|apply elem_of_list_here]. }
    destruct (Rleb (vy base) (vy p)) eqn:E; [apply Rleb_true in E|apply Rleb_false in E].
    + destruct (scanning_ok dir 1 Hd S1 all Hnc base p up ua) as (up2 & ua2 & -> & K1 & K2 & K3 & K4 & K5); try done; [by exists mu| |lra|].
      { intros x Hx'. apply Hx; [by left|apply elem_of_list_here]. }
      destruct (IH (up2, ua2) (low, la)) as (up' & low' & -> & R1 & R2).
      * intros x Hx'. apply Hl. by apply elem_of_list_further.
      * split; [|by split]. cbn [fst]. intros x Hx'. apply K1 in Hx'. apply elem_of_cons in Hx' as [->|Hx']; [done|by apply U1].
      * split; [done|]. split; [done|]. split; [by exists ml|done].
      * cbn [fst]. intros x q [Hx'|Hx'] Hq.
        -- apply K1 in Hx'. apply elem_of_cons in Hx' as [->|Hx']; [by apply Hpl|]. apply Hx; [by left|by apply elem_of_list_further].
        -- apply Hx; [by right|by apply elem_of_list_further].
      * done.
      * exists up', low'. split; [done|]. cbn [fst] in *. split.
        -- intros a b c Ha Hb H x Hx'. rewrite elem_of_app, elem_of_cons in Hx'.
           assert (G : forall y, y ∈ up2 ++ l -> val dir 1 a b y <= c) by by apply (R1 a b c).
           assert (G' : forall y, y ∈ p :: up -> val dir 1 a b y <= c). { apply (K5 a b c Ha Hb). intros y Hy. apply G. rewrite elem_of_app. by left. }
           destruct Hx' as [Hx'|[->|Hx']]; [apply G'; by apply elem_of_list_further|apply G', elem_of_list_here|apply G; rewrite elem_of_app; by right].
        -- intros a b c Ha Hb H x Hx'. rewrite elem_of_app, elem_of_cons in Hx'.
           assert (G : forall y, y ∈ low ++ l -> val dir (-1) a b y <= c) by by apply (R2 a b c).
           destruct Hx' as [Hx'|[->|Hx']]; [apply G; rewrite elem_of_app; by left| |apply G; rewrite elem_of_app; by right].
           assert (Hv : val dir (-1) a b base <= c) by (apply G; rewrite elem_of_app; by left). unfold val in *.
           assert (0 <= a * (dir * (vx p - vx base))) by by apply Rmult_le_pos. assert (0 <= b * (vy p - vy base)) by (apply Rmult_le_pos; lra). lra.
    + destruct (scanning_ok dir (-1) Hd S2 all Hnc base p low la) as (low2 & la2 & -> & K1 & K2 & K3 & K4 & K5); try done; [by exists ml| |lra|].
      { intros x Hx'. apply Hx; [by right|apply elem_of_list_here]. }
      destruct (IH (up, ua) (low2, la2)) as (up' & low' & -> & R1 & R2).
      * intros x Hx'. apply Hl. by apply elem_of_list_further.
      * split; [done|]. split; [done|]. split; [by exists mu|done].
      * split; [|by split]. cbn [fst]. intros x Hx'. apply K1 in Hx'. apply elem_of_cons in Hx' as [->|Hx']; [done|by apply L1].
      * cbn [fst]. intros x q [Hx'|Hx'] Hq.
        -- apply Hx; [by left|by apply elem_of_list_further].
        -- apply K1 in Hx'. apply elem_of_cons in Hx' as [->|Hx']; [by apply Hpl|]. apply Hx; [by right|by apply elem_of_list_further].
      * done.
      * exists up', low'. split; [done|]. cbn [fst] in *. split.
        -- intros a b c Ha Hb H x Hx'. rewrite elem_of_app, elem_of_cons in Hx'.
           assert (G : forall y, y ∈ up ++ l -> val dir 1 a b y <= c) by by apply (R1 a b c).
           destruct Hx' as [Hx'|[->|Hx']]; [apply G; rewrite elem_of_app; by left| |apply G; rewrite elem_of_app; by right].
           assert (Hv : val dir 1 a b base <= c) by (apply G; rewrite elem_of_app; by left). unfold val in *.
           assert (0 <= a * (dir * (vx p - vx base))) by by apply Rmult_le_pos. assert (0 <= b * (vy base - vy p)) by (apply Rmult_le_pos; lra). lra.
        -- intros a b c Ha Hb H x Hx'. rewrite elem_of_app, elem_of_cons in Hx'.
           assert (G : forall y, y ∈ low2 ++ l -> val dir (-1) a b y <= c) by by apply (R2 a b c).
           assert (G' : forall y, y ∈ p :: low -> val dir (-1) a b y <= c). { apply (K5 a b c Ha Hb). intros y Hy. apply G. rewrite elem_of_app. by left. }
           destruct Hx' as [Hx'|[->|Hx']]; [apply G'; by apply elem_of_list_further|apply G', elem_of_list_here|apply G; rewrite elem_of_app; by right].
Qed.
Lemma rev_sorted (l : list vec3) : xsorted l -> forall i j p q, (i < j)%nat -> rev l !! i = Some p -> rev l !! j = Some q -> vx q <= vx p.
Proof.
  intros Hs i j p q Hij Hi Hj. pose proof (lookup_lt_Some _ _ _ Hj) as Hlen. rewrite rev_length in Hlen.
  rewrite rev_alt in Hi, Hj. change (rev_append l []) with (reverse l) in Hi, Hj. rewrite reverse_lookup in Hi by lia. rewrite reverse_lookup in Hj by lia. apply (Hs (length l - S j)%nat (length l - S i)%nat); [lia|done|done].
Qed.
Lemma removelast_sorted (l : list vec3) : xsorted l -> xsorted (removelast l).
Proof.
  destruct l as [|a l]; [done|]. intros Hs i j p q Hij Hi Hj.
  rewrite (@app_removelast_last _ (a :: l) a) in Hs by done. apply (Hs i j); [done|by apply lookup_app_l_Some..].
Qed.
Theorem hull_encloses l h : no_confusion l -> convexHull2D l = Ok h -> enclosed_by h l.
Proof.
  intros Hnc. unfold convexHull2D. destruct (selectionSort_ok (length l) l eq_refl) as [Hp Hs].
  destruct (selectionSort (length l) l) as [|p0 sorted'] eqn:Es.
  { intros [= <-]. assert (l = []) as -> by (symmetry; by apply Permutation_nil_l in Hp). intros a b c _ p H. by apply elem_of_nil in H. }
  assert (Hall : forall x, x ∈ p0 :: sorted' -> x ∈ l) by (intros x Hx; by rewrite <- Hp).
  assert (Hone : forall b dir hi, b ∈ l -> inv dir hi b l ([b], None)).
  { intros b dir hi Hb. split; [|split; [|split; [by exists []|done]]]; cbn [fst]; [|done]. intros x Hx. by apply elem_of_list_singleton in Hx as ->. }
  destruct (scanPoints_ok p0 1 l (or_introl eq_refl) Hnc sorted' ([p0], None) ([p0], None)) as ([trUp ?] & [trLow ?] & E1 & H1 & H2).
  { intros x Hx. apply Hall. by apply elem_of_list_further. }
  { apply Hone, Hall, elem_of_list_here. }
  { apply Hone, Hall, elem_of_list_here. }
  { cbn [fst]. intros x p Hx Hq. assert (x = p0) as -> by (destruct Hx as [Hx|Hx]; by apply elem_of_list_singleton in Hx).
    apply elem_of_list_lookup in Hq as [i Hi]. assert (vx p0 <= vx p); [|lra]. by apply (Hs 0%nat (S i)); [lia| |]. }
  { intros i j p q Hij Hi Hj. assert (vx p <= vx q); [|lra]. by apply (Hs (S i) (S j)); [lia| |]. }
  rewrite E1. set (pn := List.last (p0 :: sorted') p0).
  assert (Hpn : pn ∈ p0 :: sorted') by by apply last_in.
  assert (Hdec : p0 :: sorted' = removelast (p0 :: sorted') ++ [pn]) by (by apply app_removelast_last).
  destruct (scanPoints_ok pn (-1) l (or_intror eq_refl) Hnc (rev (removelast (p0 :: sorted'))) ([pn], None) ([pn], None)) as ([tlUp ?] & [tlLow ?] & E2 & H3 & H4).
  { intros x Hx. apply Hall, removelast_in. by apply elem_of_rev. }
  { by apply Hone, Hall. }
  { by apply Hone, Hall. }
  { cbn [fst]. intros x p Hx Hq. assert (x = pn) as -> by (destruct Hx as [Hx|Hx]; by apply elem_of_list_singleton in Hx).
    assert (vx p <= vx pn); [|lra]. rewrite elem_of_rev in Hq. apply elem_of_list_lookup in Hq as [i Hi].
    pose proof (lookup_lt_Some _ _ _ Hi) as Hlt.
    assert (K1 : (p0 :: sorted') !! i = Some p) . { rewrite Hdec. rewrite lookup_app_l; [exact Hi|exact Hlt]. }
    assert (K2 : (p0 :: sorted') !! length (removelast (p0 :: sorted')) = Some pn).
    { revert Hdec. generalize (removelast (p0 :: sorted')). intros t ->. by rewrite list_lookup_middle. }
    exact (Hs i _ p pn Hlt K1 K2). }
  { intros i j p q Hij Hi Hj. assert (vx q <= vx p); [|lra]. apply (rev_sorted (removelast (p0 :: sorted'))) with i j; try done. by apply removelast_sorted. }
  rewrite E2. cbn [fst] in *. intros [= <-]. set (L := rev trUp ++ tlUp ++ rev tlLow ++ trLow).
  assert (Hap : apart []) by (intros i j a b _ H; by destruct i).
  destruct (mergeNew_ok L [] Hap) as (M1 & M2 & M3 & M4).
  intros a b c H p Hin.
  assert (Hin' : p ∈ p0 :: sorted') by by rewrite Hp.
  assert (Hin2 : p ∈ [pn] ++ rev (removelast (p0 :: sorted'))).
  { rewrite Hdec in Hin'. rewrite elem_of_app, elem_of_list_singleton in *. rewrite elem_of_rev. tauto. }
  destruct (hull_any l) as (h0 & E0 & Hsub & _).
  unfold convexHull2D in E0. rewrite Es, E1 in E0. fold pn in E0. rewrite E2 in E0. injection E0 as <-. fold L in Hsub.
  (* every point kept by a scan has an equal one in the result *)
  assert (HL : forall x, x ∈ L -> x ∈ l -> a * vx x + b * vy x <= c).
  { intros x Hx Hxl. destruct (M4 x Hx) as (q & Hq & Hn). assert (Hql : q ∈ l) by by apply Hsub.
    destruct (Hnc q x Hql Hxl) as [Hsm _]. destruct (Hsm Hn) as [<- <-]. by apply H. }
  destruct (scanPoints_any p0 1 sorted' ([p0], None) ([p0], None)) as ([u1 ?] & [u2 ?] & E1' & S1 & S2 & _); [by exists []..|].
  rewrite E1 in E1'. injection E1' as <- <- <- <-.
  destruct (scanPoints_any pn (-1) (rev (removelast (p0 :: sorted'))) ([pn], None) ([pn], None)) as ([u3 ?] & [u4 ?] & E2' & S3 & S4 & _); [by exists []..|].
  rewrite E2 in E2'. injection E2' as <- <- <- <-. cbn [fst] in *.
  assert (A2 : forall y, y ∈ [pn] ++ rev (removelast (p0 :: sorted')) -> y ∈ l).
  { intros y Hy. apply Hall. rewrite elem_of_app, elem_of_list_singleton, elem_of_rev in Hy. destruct Hy as [->|Hy]; [done|by apply removelast_in]. }
  assert (G1 : forall x, x ∈ trUp -> a * vx x + b * vy x <= c).
  { intros x Hx. apply HL; [unfold L; rewrite !elem_of_app, !elem_of_rev; tauto|]. apply Hall. by apply S1. }
  assert (G2 : forall x, x ∈ trLow -> a * vx x + b * vy x <= c).
  { intros x Hx. apply HL; [unfold L; rewrite !elem_of_app, !elem_of_rev; tauto|]. apply Hall. by apply S2. }
  assert (G3 : forall x, x ∈ tlUp -> a * vx x + b * vy x <= c).
  { intros x Hx. apply HL; [unfold L; rewrite !elem_of_app, !elem_of_rev; tauto|]. apply A2. by apply S3. }
  assert (G4 : forall x, x ∈ tlLow -> a * vx x + b * vy x <= c).
  { intros x Hx. apply HL; [unfold L; rewrite !elem_of_app, !elem_of_rev; tauto|]. apply A2. by apply S4. }
  destruct (Rle_or_lt a 0) as [Ha|Ha], (Rle_or_lt 0 b) as [Hb|Hb].
  - assert (V : val 1 1 (-a) b p <= c); [|unfold val in V; lra].
    apply (H1 (-a) b c); [lra|lra| |done]. intros x Hx. apply G1 in Hx. unfold val. lra.
  - assert (V : val 1 (-1) (-a) (-b) p <= c); [|unfold val in V; lra].
    apply (H2 (-a) (-b) c); [lra|lra| |done]. intros x Hx. apply G2 in Hx. unfold val. lra.
  - assert (V : val (-1) 1 a b p <= c); [|unfold val in V; lra].
    apply (H3 a b c); [lra|lra| |done]. intros x Hx. apply G3 in Hx. unfold val. lra.
  - assert (V : val (-1) (-1) a (-b) p <= c); [|unfold val in V; lra].
    apply (H4 a (-b) c); [lra|lra| |done]. intros x Hx. apply G4 in Hx. unfold val. lra.
Qed.
