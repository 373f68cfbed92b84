(** Proofs about the ROM validations. *)
From Verif Require Import Maps MapsProofs Vec SampProofs ValidModel ValidSpec.
From Coq Require Import Lia.
Local Open Scope nat_scope.

Section rom.
Context {O Q : Type} `{EqDecision O}.
Notation Rom := (romv O Q).

Lemma swap_perm {A} i j (l l' : list A) : swap i j l = Some l' -> l' ≡ₚ l.
Proof.
  unfold swap. destruct (l !! i) as [x|] eqn:Hi; [|done]. destruct (l !! j) as [y|] eqn:Hj; [|done].
  intros [= <-]. destruct (decide (i = j)) as [->|Hne].
  - rewrite list_insert_insert. rewrite Hi in Hj. injection Hj as ->. by rewrite list_insert_id.
  - apply Permutation_inj. split; [by rewrite !insert_length|].
    exists (fun k => if decide (k = i) then j else if decide (k = j) then i else k). split.
    + intros a b. repeat case_decide; congruence.
    + intros k. destruct (decide (k = i)) as [->|Hki].
      * rewrite list_lookup_insert; [by rewrite Hj|]. rewrite insert_length. by eapply lookup_lt_Some.
      * rewrite list_lookup_insert_ne by done. destruct (decide (k = j)) as [->|Hkj].
        -- rewrite list_lookup_insert; [done|]. by eapply lookup_lt_Some.
        -- by rewrite list_lookup_insert_ne.
Qed.
Lemma swap_length {A} i j (l l' : list A) : swap i j l = Some l' -> length l' = length l.
Proof. intros H. apply Permutation_length. by eapply swap_perm. Qed.
Lemma swap_some {A} i j (l : list A) : i < length l -> j < length l -> exists l', swap i j l = Some l'.
Proof.
  intros Hi Hj. unfold swap. apply lookup_lt_is_Some in Hi as [x ->]. apply lookup_lt_is_Some in Hj as [y ->]. eauto.
Qed.
Lemma swap_zip {A B} i j (l l' : list A) (m m' : list B) : length l = length m ->
  swap i j l = Some l' -> swap i j m = Some m' -> swap i j (zip l m) = Some (zip l' m').
Proof.
  intros Hlen. unfold swap. destruct (l !! i) as [x|] eqn:Hi; [|done]. destruct (l !! j) as [y|] eqn:Hj; [|done].
  intros [= <-]. destruct (m !! i) as [u|] eqn:Ui; [|done]. destruct (m !! j) as [w|] eqn:Uj; [|done].
  intros [= <-]. rewrite !lookup_zip_with, Hi, Hj, Ui, Uj. simpl.
  by rewrite <- !insert_zip_with.
Qed.

Lemma same_pairs_refl (r : Rom) : same_pairs r r.
Proof. by split. Qed.
Lemma same_pairs_trans (r1 r2 r3 : Rom) : same_pairs r1 r2 -> same_pairs r2 r3 -> same_pairs r1 r3.
Proof. intros [A B C D] [A' B' C' D']. split; [by rewrite A'|by rewrite B'|by rewrite C'|congruence]. Qed.

Lemma swap_same i j (r : Rom) p q : paired r -> swap i j (pairs r) = Some p -> swap i j (requests r) = Some q ->
  same_pairs r (mkRom p q (optional r)) /\ paired (mkRom p q (optional r)).
Proof.
  intros Hw Hp Hq. split.
  - split; simpl; [|by eapply swap_perm|by eapply swap_perm|done].
    eapply swap_perm. by eapply swap_zip.
  - unfold paired. simpl. rewrite (swap_length _ _ _ _ Hp), (swap_length _ _ _ _ Hq). exact Hw.
Qed.

Lemma indexOf_in (o : O) l : o ∈ l -> indexOf o l < length l /\ l !! indexOf o l = Some o.
Proof.
  induction l as [|x l IH]; intros H; [inversion H|]. simpl. case_bool_decide as Hx.
  - subst. split; [lia|done].
  - apply elem_of_cons in H as [->|H]; [done|]. destruct (IH H). split; [lia|done].
Qed.

Lemma bringToFront_ok o (r : Rom) : paired r -> o ∈ pairs r ->
  exists r', bringToFront o r = Ok r' /\ same_pairs r r' /\ paired r' /\ pairs r' !! 0 = Some o.
Proof.
  intros Hw Ho. destruct (indexOf_in _ _ Ho) as [Hlt Hlk]. unfold bringToFront.
  destruct (indexOf o (pairs r) =? 0) eqn:E0.
  - apply Nat.eqb_eq in E0. exists r. simpl. split_and!; [done|apply same_pairs_refl|done|]. by rewrite <- E0.
  - destruct (length (pairs r) =? 0) eqn:E1; [apply Nat.eqb_eq in E1; lia|]. simpl.
    destruct (swap_some 0 (indexOf o (pairs r)) (pairs r)) as [p Hp]; [lia|lia|].
    unfold paired in Hw.
    destruct (swap_some 0 (indexOf o (pairs r)) (requests r)) as [q Hq]; [lia|lia|].
    rewrite Hp, Hq. destruct (swap_same _ _ _ _ _ Hw Hp Hq) as [H1 H2].
    eexists. split_and!; [reflexivity|done|done|]. simpl.
    unfold swap in Hp. rewrite Hlk in Hp. destruct (pairs r !! 0) as [x|] eqn:E; [|done].
    injection Hp as <-. rewrite list_lookup_insert; [done|]. rewrite insert_length. lia.
Qed.

Lemma find_some hit (l : list O) o : List.find hit l = Some o -> o ∈ l /\ hit o = true.
Proof. intros H. apply find_some in H as [H1 H2]. by rewrite elem_of_list_In. Qed.
Lemma find_none hit (l : list O) : List.find hit l = None -> forall o, o ∈ l -> hit o = false.
Proof. intros H o Ho. eapply List.find_none; [exact H|]. by apply elem_of_list_In. Qed.

Lemma romValidate_ok hit n (r : Rom) rep : paired r ->
  exists b r' rep', romValidate hit n r rep = Ok (b, r', rep') /\ same_pairs r r' /\ paired r' /\
    (b = true <-> optional r = true \/ exists o, o ∈ pairs r /\ hit o = true) /\
    ((exists p, rep = Some p) -> exists p, rep' = Some p) /\
    ((exists p, rep = Some p) -> (exists o, o ∈ pairs r /\ hit o = true) ->
       exists o, pairs r' !! 0 = Some o /\ hit o = true).
Proof.
  intros Hw. unfold romValidate, firstHit. destruct (List.find hit (pairs r)) as [o|] eqn:E.
  - apply find_some in E as [Ho Hh]. destruct rep as [p|].
    + destruct (bringToFront_ok o r Hw Ho) as (r' & -> & Hs & Hw' & H0).
      eexists _, r', _. split_and!; [reflexivity|done|done| |eauto|eauto].
      split; [|done]. intros _. right. eauto.
    + eexists _, r, _. split_and!; [reflexivity|apply same_pairs_refl|done| |by intros [? ?]|by intros [? ?]].
      split; [|done]. intros _. right. eauto.
  - pose proof (find_none _ _ E) as Hn. eexists _, r, _.
    split_and!; [reflexivity|apply same_pairs_refl|done| | |].
    + split; [by left|]. intros [H|(o & Ho & Hh)]; [done|]. rewrite (Hn _ Ho) in Hh. done.
    + intros [p ->]. eauto.
    + intros _ (o & Ho & Hh). rewrite (Hn _ Ho) in Hh. done.
Qed.

Lemma romValidate_report hit n (r : Rom) p b r' rep' : romValidate hit n r (Some p) = Ok (b, r', rep') -> exists p', rep' = Some p' /\
  (forall m, m <> n -> romFilters p' !! m = romFilters p !! m /\ romObjects p' !! m = romObjects p !! m) /\
  (romFilters p !! n = None -> exists reached : bool, romFilters p' !! n = Some reached /\ (reached = true <-> exists o, o ∈ pairs r /\ hit o = true)) /\
  (romObjects p !! n = None -> forall o, romObjects p' !! n = Some o <-> List.find hit (pairs r) = Some o).
Proof.
  assert (Hins : forall A (k m : string) (v : A) (x : gmap string A), m <> k -> insertNew k v x !! m = x !! m).
  { intros A k m v x Hm. unfold insertNew. destruct (x !! k); [done|]. by rewrite lookup_insert_ne. }
  assert (Hnew : forall A (k : string) (v : A) (x : gmap string A), x !! k = None -> insertNew k v x !! k = Some v).
  { intros A k v x Hm. unfold insertNew. rewrite Hm. by rewrite lookup_insert. }
  unfold romValidate, firstHit. destruct (List.find hit (pairs r)) as [o|] eqn:E.
  - destruct (bringToFront o r) as [r1| |]; [|done..]. intros [= <- <- <-]. eexists. split; [done|]. simpl. split; [|split].
    + intros m Hm. by rewrite !Hins.
    + intros Hn. exists true. rewrite Hnew by done. split; [done|]. apply find_some in E as [Ho Hh]. split; [|done]. intros _. exists o. split; [|done]. done.
    + intros Hn o'. rewrite Hnew by done. done.
  - intros [= <- <- <-]. eexists. split; [done|]. simpl. split; [|split].
    + intros m Hm. by rewrite Hins.
    + intros Hn. exists false. rewrite Hnew by done. split; [done|]. split; [done|]. intros (o & Ho & Hh).
      by rewrite (find_none _ _ E _ Ho) in Hh.
    + intros Hn o'. rewrite Hn. done.
Qed.
Lemma shuffleFrom_ok n : forall i rands (r : Rom), paired r -> i + n = length (pairs r) ->
  exists r', shuffleFrom i n rands r = Ok r' /\ same_pairs r r' /\ paired r'.
Proof.
  induction n as [|n IH]; intros i rands r Hw Hlen; cbn [shuffleFrom].
  - exists r. split_and!; [done|apply same_pairs_refl|done].
  - set (j := hd 0 rands mod (i + 1)). destruct (i =? j); [apply IH; [done|lia]|].
    assert (Hj : j < i + 1) by (apply Nat.mod_upper_bound; lia). unfold paired in Hw.
    destruct (swap_some i j (pairs r)) as [p Hp]; [lia|lia|].
    destruct (swap_some i j (requests r)) as [q Hq]; [lia|lia|].
    rewrite Hp, Hq. destruct (swap_same _ _ _ _ _ Hw Hp Hq) as [H1 H2].
    destruct (IH (S i) (tail rands) (mkRom p q (optional r)) H2) as (r' & Heq & H3 & H4).
    { simpl. rewrite (swap_length _ _ _ _ Hp). lia. }
    exists r'. split_and!; [done|by eapply same_pairs_trans|done].
Qed.
Lemma randomnize_rom_ok rands (r : Rom) : paired r ->
  exists r', randomnizeCollisionPairs rands r = Ok r' /\ same_pairs r r' /\ paired r'.
Proof. intros Hw. apply shuffleFrom_ok; [done|lia]. Qed.
End rom.

Section validation.
Context {O Q : Type} `{EqDecision O}.
Notation Val := (rbValidation O Q).

(** is ROM [r] matched? *)
Definition matched (hit : string -> O -> bool) (n : string) (r : romv O Q) : bool :=
  optional r || existsb (hit n) (pairs r).
Lemma matched_spec hit n (r : romv O Q) :
  matched hit n r = true <-> optional r = true \/ exists o, o ∈ pairs r /\ hit n o = true.
Proof.
  unfold matched. rewrite orb_true_iff, existsb_exists. setoid_rewrite elem_of_list_In. done.
Qed.

(** names of the filter that are matched among [todo] *)
Definition matchedNames (hit : string -> O -> bool) (f : list string) (todo : list (string * romv O Q)) : list string :=
  (List.filter (fun nr => inb nr.1 f && matched hit nr.1 nr.2) todo).*1.

Definition same_roms (rs rs' : gmap string (romv O Q)) : Prop :=
  forall n, match rs !! n, rs' !! n with
            | Some r, Some r' => same_pairs r r'
            | None, None => True
            | _, _ => False end.
Lemma same_roms_refl rs : same_roms rs rs.
Proof. intros n. destruct (rs !! n); [apply same_pairs_refl|done]. Qed.
Lemma same_roms_trans a b c : same_roms a b -> same_roms b c -> same_roms a c.
Proof.
  intros H1 H2 n. specialize (H1 n). specialize (H2 n).
  destruct (a !! n), (b !! n), (c !! n); try done. by eapply same_pairs_trans.
Qed.
Definition map_paired (rs : gmap string (romv O Q)) : Prop := forall n r, rs !! n = Some r -> paired r.

Lemma same_roms_insert rs n r r' : rs !! n = Some r -> same_pairs r r' -> same_roms rs (<[n := r']> rs).
Proof.
  intros Hn Hs k. destruct (decide (k = n)) as [->|Hne].
  - rewrite Hn, lookup_insert. done.
  - rewrite lookup_insert_ne by done. destruct (rs !! k); [apply same_pairs_refl|done].
Qed.
Lemma paired_insert rs n r : map_paired rs -> paired r -> map_paired (<[n := r]> rs).
Proof. intros H Hr k r0. intros [[<- <-]|[_ Hk]]%lookup_insert_Some; [done|by eapply H]. Qed.

Lemma romsLoop_ok hit f todo : forall m rs rep,
  NoDup todo.*1 -> (forall n r, (n, r) ∈ todo -> rs !! n = Some r) -> map_paired rs ->
  (exists p, rep = Some p) ->
  exists m' rs' rep', romsLoop hit f todo m rs rep = Ok (m', rs', Some rep') /\
    same_roms rs rs' /\ map_paired rs' /\
    (length f <= m' <-> length f <= m + length (matchedNames hit f todo)).
Proof.
  induction todo as [|[n r] todo IH]; intros m rs rep Hnd Hin Hw [p Hp]; cbn [romsLoop].
  - subst rep. exists m, rs, p. split_and!; [done|apply same_roms_refl|done|]. simpl. rewrite Nat.add_0_r. done.
  - inversion_clear Hnd as [|? ? Hn Hnd'].
    assert (Hnr : rs !! n = Some r) by (apply Hin, elem_of_cons; by left).
    destruct ((m <? 1) || (m <? length f)) eqn:Econt.
    2:{ apply orb_false_iff in Econt as [E1%Nat.ltb_ge E2%Nat.ltb_ge]. subst rep.
        exists m, rs, p. split_and!; [done|apply same_roms_refl|done|]. split; lia. }
    clear Econt.
    assert (Hrec : forall m0 r' rep0, same_pairs r r' -> paired r' -> (exists p, rep0 = Some p) ->
       exists m' rs' rep', romsLoop hit f todo m0 (<[n := r']> rs) rep0 = Ok (m', rs', Some rep') /\
       same_roms rs rs' /\ map_paired rs' /\ (length f <= m' <-> length f <= m0 + length (matchedNames hit f todo))).
    { intros m0 r' rep0 Hs Hw' Hrep0. destruct (IH m0 (<[n := r']> rs) rep0) as (m' & rs' & rep' & H1 & H2 & H3 & H4).
      - done.
      - intros k rk Hk. rewrite lookup_insert_ne.
        + apply Hin, elem_of_cons. by right.
        + intros ->. apply Hn. apply elem_of_list_fmap. by exists (k, rk).
      - by apply paired_insert.
      - done.
      - exists m', rs', rep'. split_and!; [done| |done|done]. eapply same_roms_trans; [|done].
        by eapply same_roms_insert. }
    unfold matchedNames. cbn [List.filter fst snd]. 
    destruct (inb n f) eqn:Einf.
    + rewrite orb_true_r. cbn [andb].
      destruct (romValidate_ok (hit n) n r rep (Hw _ _ Hnr)) as (b & r' & rep1 & -> & Hs & Hw' & Hb & Hrep1 & _).
      destruct (Hrec (if b then S m else m) r' rep1 Hs Hw' (Hrep1 (ex_intro _ p Hp)))
        as (m' & rs' & rep' & H1 & H2 & H3 & H4).
      exists m', rs', rep'. split_and!; [done|done|done|]. rewrite H4. unfold matchedNames.
      assert (Hbm : b = matched hit n r).
      { apply Bool.eq_iff_eq_true. rewrite Hb, matched_spec. done. }
      rewrite <- Hbm. destruct b; cbn [fmap list_fmap length]; [|done]. split; lia.
    + destruct (length f =? 0) eqn:Ef.
      * apply Nat.eqb_eq in Ef. cbn [orb andb].
        destruct (romValidate_ok (hit n) n r rep (Hw _ _ Hnr)) as (b & r' & rep1 & -> & Hs & Hw' & Hb & Hrep1 & _).
        destruct (Hrec (if b then S m else m) r' rep1 Hs Hw' (Hrep1 (ex_intro _ p Hp)))
          as (m' & rs' & rep' & H1 & H2 & H3 & H4).
        exists m', rs', rep'. split_and!; [done|done|done|]. split; lia.
      * cbn [orb andb]. destruct (IH m rs rep) as (m' & rs' & rep' & H1 & H2 & H3 & H4).
        -- done.
        -- intros k rk Hk. apply Hin, elem_of_cons. by right.
        -- done.
        -- eauto.
        -- exists m', rs', rep'. split_and!; done.
Qed.

Lemma matchedNames_spec hit f (v : Val) n :
  n ∈ matchedNames hit f (sitems (roms v)) <-> n ∈ f /\ (excused v n \/ reaches v hit n).
Proof.
  unfold matchedNames. rewrite elem_of_list_fmap. split.
  - intros ([n' r] & -> & H). rewrite elem_of_list_In, filter_In in H. destruct H as [H1 H2].
    rewrite <- elem_of_list_In in H1. apply sitems_elem in H1. cbn [fst snd] in *.
    apply andb_true_iff in H2 as [H2 H3]. unfold inb in H2. apply bool_decide_eq_true in H2.
    split; [done|]. apply matched_spec in H3 as [H3|(o & Ho & Hh)].
    + left. exists r. done.
    + right. exists r, o. done.
  - intros [Hf Hs]. assert (Hr : exists r, roms v !! n = Some r /\ matched hit n r = true).
    { destruct Hs as [(r & Hr & Ho)|(r & o & Hr & Ho & Hh)]; exists r; (split; [done|]); apply matched_spec; eauto. }
    destruct Hr as (r & Hr & Hm). exists (n, r). split; [done|]. rewrite elem_of_list_In, filter_In.
    rewrite <- elem_of_list_In. split; [by apply sitems_elem|]. cbn [fst snd]. rewrite Hm, andb_true_r.
    unfold inb. by apply bool_decide_eq_true.
Qed.
Lemma matchedNames_nodup hit f (v : Val) : NoDup (matchedNames hit f (sitems (roms v))).
Proof.
  unfold matchedNames. pose proof (sitems_nodup (roms v)) as Hnd.
  induction (sitems (roms v)) as [|[n r] l IH]; [constructor|].
  inversion_clear Hnd as [|? ? Hn Hnd']. cbn [List.filter].
  destruct (inb (n, r).1 f && matched hit (n, r).1 (n, r).2); [|by apply IH].
  cbn [fmap list_fmap]. constructor; [|by apply IH]. intros H. apply Hn.
  apply elem_of_list_fmap in H as ([n' r'] & Heq & H). simpl in Heq. subst n'.
  rewrite elem_of_list_In, filter_In in H. destruct H as [H _]. apply elem_of_list_fmap.
  exists (n, r'). split; [done|]. by apply elem_of_list_In.
Qed.

Lemma verdict_count hit f (v : Val) :
  length f <= length (matchedNames hit f (sitems (roms v))) <->
  NoDup f /\ forall r, r ∈ f -> excused v r \/ reaches v hit r.
Proof.
  set (L := matchedNames hit f (sitems (roms v))).
  assert (HLf : L ⊆ f) by (intros n Hn; apply matchedNames_spec in Hn; by destruct Hn).
  pose proof (matchedNames_nodup hit f v) as HL. fold L in HL.
  split.
  - intros Hle. assert (HfL : f ⊆ L).
    { assert (Hi : incl f L).
      { apply NoDup_length_incl; [by apply NoDup_ListNoDup|done|]. intros x Hx. apply elem_of_list_In, HLf. by apply elem_of_list_In. }
      intros x Hx. apply elem_of_list_In, Hi. by apply elem_of_list_In. }
    split.
    + assert (Hlen : length f = length L).
      { apply Nat.le_antisymm; [done|]. apply submseteq_length. by apply NoDup_submseteq. }
      assert (Hp : L ≡ₚ f).
      { apply submseteq_Permutation_length_le; [lia|by apply NoDup_submseteq]. }
      by rewrite <- Hp.
    + intros r Hr. apply HfL in Hr. apply matchedNames_spec in Hr as [_ H]. done.
  - intros [Hnd Hall]. apply submseteq_length. apply NoDup_submseteq; [done|].
    intros r Hr. apply matchedNames_spec. auto.
Qed.

Theorem validate_ok trunkFree inBounds hit f (v : Val) : all_paired v ->
  exists b v' rep, validate trunkFree inBounds hit f v = Ok (b, v', rep) /\
    same_validation v v' /\ all_paired v' /\
    (b = true <-> trunkFree = true /\ inBounds = true /\ NoDup f /\
       forall r, r ∈ f -> excused v r \/ reaches v hit r).
Proof.
  intros Hw. unfold validate, validateRoms.
  destruct (romsLoop_ok hit f (sitems (roms v)) 0 (roms v) (Some (mkReports ∅ ∅))) as (m & rs & rep & -> & H1 & H2 & H3).
  - apply sitems_nodup.
  - intros n r H. by apply sitems_elem.
  - exact Hw.
  - eauto.
  - eexists _, _, rep. split_and!; [reflexivity|split; [done|exact H1]|exact H2|].
    rewrite !andb_true_iff, Nat.leb_le, H3. simpl. rewrite verdict_count. tauto.
Qed.

Theorem validateRoms_null hit f (v : Val) : all_paired v -> validateRoms hit f None v = Ub.
Proof.
  intros Hw. unfold validateRoms.
  assert (H : forall (todo : list (string * romv O Q)) m rs, (forall n r, (n, r) ∈ todo -> paired r) ->
     exists m' rs', romsLoop hit f todo m rs None = Ok (m', rs', None)).
  { induction todo as [|[n r] todo IH]; intros m rs Hp; cbn [romsLoop]; [eauto|].
    destruct (_ || _); [|eauto]. destruct (_ || inb n f).
    - unfold romValidate. destruct (firstHit (hit n) (pairs r)).
      + apply IH. intros k rk Hk. eapply Hp, elem_of_cons. by right.
      + apply IH. intros k rk Hk. eapply Hp, elem_of_cons. by right.
    - apply IH. intros k rk Hk. eapply Hp, elem_of_cons. by right. }
  destruct (H (sitems (roms v)) 0 (roms v)) as (m & rs & ->); [|done].
  intros n r Hin. apply sitems_elem in Hin. by eapply Hw.
Qed.

Lemma shuffleAll_ok todo : forall rands rs, NoDup todo.*1 -> (forall n r, (n, r) ∈ todo -> rs !! n = Some r) ->
  map_paired rs -> exists rs', shuffleAll todo rands rs = Ok rs' /\ same_roms rs rs' /\ map_paired rs'.
Proof.
  induction todo as [|[n r] todo IH]; intros rands rs Hnd Hin Hw; cbn [shuffleAll].
  - exists rs. split_and!; [done|apply same_roms_refl|done].
  - inversion_clear Hnd as [|? ? Hn Hnd'].
    assert (Hnr : rs !! n = Some r) by (apply Hin, elem_of_cons; by left).
    destruct (randomnize_rom_ok (rands n) r (Hw _ _ Hnr)) as (r' & -> & Hs & Hw').
    destruct (IH rands (<[n := r']> rs)) as (rs' & H1 & H2 & H3).
    + done.
    + intros k rk Hk. rewrite lookup_insert_ne.
      * apply Hin, elem_of_cons. by right.
      * intros ->. apply Hn. apply elem_of_list_fmap. by exists (k, rk).
    + by apply paired_insert.
    + exists rs'. split_and!; [done| |done]. eapply same_roms_trans; [|done]. by eapply same_roms_insert.
Qed.

Theorem val_run_ok ops : forall v : Val, all_paired v ->
  exists v', val_run ops v = Ok v' /\ same_validation v v' /\ all_paired v'.
Proof.
  induction ops as [|o ops IH]; intros v Hw; cbn [val_run].
  - exists v. split_and!; [done|split; [done|apply same_roms_refl]|done].
  - assert (Hc : exists v1, val_call o v = Ok v1 /\ same_validation v v1 /\ all_paired v1).
    { destruct o as [t b hit f|rands]; cbn [val_call].
      - destruct (validate_ok t b hit f v Hw) as (b' & v' & rep & -> & H1 & H2 & _). eauto.
      - unfold randomnize. destruct (shuffleAll_ok (sitems (roms v)) rands (roms v)) as (rs & -> & H1 & H2).
        + apply sitems_nodup.
        + intros n r H. by apply sitems_elem.
        + exact Hw.
        + eexists. split_and!; [reflexivity|split; [done|exact H1]|exact H2]. }
    destruct Hc as (v1 & -> & [D1 S1] & W1). destruct (IH v1 W1) as (v' & -> & [D2 S2] & W2).
    exists v'. split_and!; [done|split; [congruence|by eapply same_roms_trans]|done].
Qed.

Lemma same_excused (v v' : Val) r : same_validation v v' -> excused v' r <-> excused v r.
Proof.
  intros [_ H]. specialize (H r). unfold excused. destruct (roms v !! r) as [a|], (roms v' !! r) as [b|]; try done.
  destruct H as [_ _ _ Ho]. split; intros (x & [= <-] & Hx); eexists; (split; [reflexivity|congruence]).
Qed.
Lemma same_reaches (v v' : Val) hit r : same_validation v v' -> reaches v' hit r <-> reaches v hit r.
Proof.
  intros [_ H]. specialize (H r). unfold reaches. destruct (roms v !! r) as [a|], (roms v' !! r) as [b|]; try done.
  - destruct H as [_ Hp _ _]. split; intros (x & o & [= <-] & Ho & Hh); eexists _, o; (split_and!; [reflexivity| |done]).
    + by rewrite <- Hp.
    + by rewrite Hp.
Qed.

(** ** The constructed object *)
Section create.
Context (q : Q) (names : gmap string unit) (filter : list string)
  (affFilters : gmap string (list string)) (affordances : gmap string (list O)).
Notation V := (create q names filter affFilters affordances).

Lemma create_lookup n : roms V !! n = if has n names then Some (createRom q filter affFilters affordances n) else None.
Proof.
  unfold create. cbn [roms]. rewrite map_lookup_imap. unfold has. destruct (names !! n); done.
Qed.
Lemma create_paired : all_paired V.
Proof.
  intros n r. rewrite create_lookup. destruct (has n names); [|done]. intros [= <-].
  unfold createRom, paired. destruct (affFilters !! n); simpl; [by rewrite map_length|done].
Qed.
Lemma create_default n : n ∈ defaultFilter V <-> is_Some (names !! n) /\ is_Some (affFilters !! n).
Proof.
  unfold create. cbn [defaultFilter]. rewrite elem_of_list_In, filter_In, <- elem_of_list_In.
  unfold skeys. rewrite merge_sort_Permutation, elem_of_list_fmap. unfold has. split.
  - intros [([n' x] & -> & H) Ha]. apply elem_of_map_to_list in H. simpl in *.
    destruct (affFilters !! n'); [split; eauto|done].
  - intros [[x Hx] [k Hk]]. split; [|by rewrite Hk]. exists (n, x). split; [done|]. by apply elem_of_map_to_list.
Qed.
Lemma create_default_nodup : NoDup (defaultFilter V).
Proof.
  unfold create. cbn [defaultFilter]. apply NoDup_ListNoDup. apply List.NoDup_filter. apply NoDup_ListNoDup.
  unfold skeys. rewrite merge_sort_Permutation. apply NoDup_fst_map_to_list.
Qed.
Lemma create_excused r : excused V r <-> is_Some (names !! r) /\ is_Some (affFilters !! r) /\ r ∉ filter.
Proof.
  unfold excused. rewrite create_lookup. unfold has. split.
  - intros (rom & H & Ho). destruct (names !! r) as [u|]; [|done]. injection H as <-.
    unfold createRom in Ho. destruct (affFilters !! r) as [ks|]; [|done]. simpl in Ho.
    split_and!; eauto. unfold inb in Ho. apply negb_true_iff, bool_decide_eq_false in Ho. done.
  - intros ([u Hu] & [ks Hk] & Hf). rewrite Hu. eexists. split; [reflexivity|].
    unfold createRom. rewrite Hk. simpl. unfold inb. by apply negb_true_iff, bool_decide_eq_false.
Qed.
Lemma create_reaches hit r : reaches V hit r <-> is_Some (names !! r) /\
  exists kinds kind objs o, affFilters !! r = Some kinds /\ kind ∈ kinds /\ affordances !! kind = Some objs /\ o ∈ objs /\ hit r o = true.
Proof.
  unfold reaches. rewrite create_lookup. unfold has. split.
  - intros (rom & o & H & Ho & Hh). destruct (names !! r) as [u|]; [|done]. injection H as <-. split; [eauto|].
    unfold createRom in Ho. destruct (affFilters !! r) as [ks|]; [|simpl in Ho; by apply elem_of_nil in Ho].
    simpl in Ho. unfold affordanceObjects in Ho. apply elem_of_concat in Ho as (l & Hol & Hl).
    apply elem_of_list_fmap in Hl as (k & -> & Hk). destruct (affordances !! k) as [objs|] eqn:E; [|by apply elem_of_nil in Hol].
    exists ks, k, objs, o. done.
  - intros [[u Hu] (ks & k & objs & o & Hks & Hk & Hobjs & Ho & Hh)]. rewrite Hu.
    eexists _, o. split_and!; [reflexivity| |done]. unfold createRom. rewrite Hks. simpl.
    apply elem_of_concat. exists objs. split; [done|]. apply elem_of_list_fmap. exists k. rewrite Hobjs. done.
Qed.
End create.
End validation.
