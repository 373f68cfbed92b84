(** Proofs about the text format of sample databases. *)
From Verif Require Import Maps MapsProofs Vec SampModel SampSpec SampProofs.
From Coq Require Import ZArith Lia Ascii.
Local Open Scope nat_scope.

Local Arguments String.append !_ _ /.
Notation chars := String.list_ascii_of_string.

Lemma str_app_assoc (a b c : string) : ((a ++ b) ++ c = a ++ (b ++ c))%string.
Proof. induction a as [|x a IH]; simpl; [done|by rewrite IH]. Qed.
Lemma str_app_nil (a : string) : (a ++ "" = a)%string.
Proof. induction a as [|x a IH]; simpl; [done|by rewrite IH]. Qed.
Lemma chars_app (a b : string) : chars (a ++ b)%string = chars a ++ chars b.
Proof. induction a as [|x a IH]; simpl; [done|by rewrite IH]. Qed.

Lemma lines_line (l rest : string) : nl ∉ chars l -> lines (l ++ endl ++ rest) = l :: lines rest.
Proof.
  induction l as [|a l IH]; intros H; [done|]. cbn [String.append lines].
  cbn [chars] in H. apply not_elem_of_cons in H as [Ha Hl].
  destruct (Ascii.eqb_spec a nl) as [->|_]; [done|]. by rewrite (IH Hl).
Qed.

(** splitting *)
Lemma splitFrom_cons a s' s1 : s' <> EmptyString -> a <> semi ->
  splitFrom (String a s') s1 = splitFrom s' (s1 ++ String a EmptyString)%string.
Proof.
  intros Hne Ha. destruct s' as [|b s']; [done|]. cbn [splitFrom].
  destruct (Ascii.eqb_spec a semi) as [->|_]; done.
Qed.
Lemma splitFrom_sep (w rest s1 : string) : semi ∉ chars w -> rest <> EmptyString ->
  (s1 ++ w)%string <> EmptyString ->
  splitFrom (w ++ semis ++ rest) s1 = (s1 ++ w)%string :: splitFrom rest EmptyString.
Proof.
  revert s1. induction w as [|a w IH]; intros s1 Hs Hr Hne.
  - simpl. rewrite str_app_nil in Hne |- *. destruct rest as [|b rest]; [done|].
    destruct s1 as [|x s1]; [done|]. done.
  - cbn [chars] in Hs. apply not_elem_of_cons in Hs as [Ha Hw].
    cbn [String.append]. rewrite splitFrom_cons; [|by destruct w|done].
    rewrite IH; [by rewrite str_app_assoc|done|done|].
    rewrite str_app_assoc. destruct s1; done.
Qed.
Lemma splitFrom_last (w s1 : string) : semi ∉ chars w -> splitFrom (w ++ semis) s1 = [(s1 ++ w ++ semis)%string].
Proof.
  revert s1. induction w as [|a w IH]; intros s1 Hs; [done|].
  cbn [chars] in Hs. apply not_elem_of_cons in Hs as [Ha Hw].
  cbn [String.append]. rewrite splitFrom_cons; [|by destruct w|done].
  rewrite IH by done. by rewrite str_app_assoc.
Qed.
Lemma splitFrom_word (w s1 : string) : semi ∉ chars w -> w <> EmptyString -> splitFrom w s1 = [(s1 ++ w)%string].
Proof.
  revert s1. induction w as [|a w IH]; intros s1 Hs Hne; [done|].
  cbn [chars] in Hs. apply not_elem_of_cons in Hs as [Ha Hw].
  destruct w as [|b w]; [done|]. rewrite splitFrom_cons by done.
  rewrite IH by done. by rewrite str_app_assoc.
Qed.

(** the fields of a text (tools.cc:182-195) *)
Lemma split_fields (ps : list string) (w q : string) : Forall (fun p => semi ∉ String.list_ascii_of_string p) ps -> semi ∉ String.list_ascii_of_string w ->
  (q = w /\ w <> EmptyString) \/ q = (w ++ semis)%string ->
  splitString (foldr (fun p s => p ++ semis ++ s)%string q ps) = filter (fun p => p <> EmptyString) ps ++ [q].
Proof.
  intros Hps Hw Hq. unfold splitString. assert (Hne : q <> EmptyString) by (destruct Hq as [[-> H]| ->]; [done|by destruct w]).
  induction Hps as [|p ps Hp Hps IH]; cbn [foldr].
  - destruct Hq as [[-> H]| ->]; [by rewrite splitFrom_word|by rewrite splitFrom_last].
  - assert (Hr : foldr (fun p s => p ++ semis ++ s)%string q ps <> EmptyString).
    { destruct ps as [|p' ps']; cbn [foldr]; [done|by destruct p']. }
    destruct (decide (p = EmptyString)) as [->|Hpe].
    + rewrite filter_cons_False by (intros H; by apply H). rewrite <- IH. cbn [String.append].
      destruct (foldr _ q ps) as [|b r] eqn:E; [done|]. done.
    + rewrite filter_cons_True by done. rewrite splitFrom_sep by done. by rewrite IH.
Qed.
Lemma fields_exist (s : string) : s <> EmptyString ->
  exists ps w q, Forall (fun p => semi ∉ String.list_ascii_of_string p) ps /\ semi ∉ String.list_ascii_of_string w /\ ((q = w /\ w <> EmptyString) \/ q = (w ++ semis)%string) /\
    s = foldr (fun p s => p ++ semis ++ s)%string q ps.
Proof.
  induction s as [|a s IH]; [done|]. intros _. destruct s as [|b s'].
  - destruct (decide (a = semi)) as [->|Ha].
    + exists [], EmptyString, semis. repeat split; [constructor|apply not_elem_of_nil|by right].
    + exists [], (String a EmptyString), (String a EmptyString). repeat split; [constructor| |by left].
      cbn. apply not_elem_of_cons. split; [congruence|apply not_elem_of_nil].
  - destruct (IH ltac:(done)) as (ps & w & q & Hps & Hw & Hq & E). rewrite E.
    destruct (decide (a = semi)) as [->|Ha].
    + exists (EmptyString :: ps), w, q. repeat split; [constructor; [apply not_elem_of_nil|done]|done|done].
    + destruct ps as [|p ps].
      * exists [], (String a w), (String a q). repeat split; [constructor| |].
        { cbn. apply not_elem_of_cons. split; [congruence|done]. }
        destruct Hq as [[-> H]| ->]; [left|right]; done.
      * apply Forall_cons_1 in Hps as [Hp Hps]. exists (String a p :: ps), w, q. repeat split; [|done|done].
        constructor; [|done]. cbn. apply not_elem_of_cons. split; [congruence|done].
Qed.

Section text.
Context {T : Type}.
Variable nt : numtext T.
Variable rnd : T -> T.
Hypothesis Hnt : number_text nt rnd.

Lemma fmt_nl x : nl ∉ chars (fmt nt x).
Proof. intros H. by destruct (nt_fmt_chars _ _ Hnt x nl H). Qed.
Lemma fmt_semi x : semi ∉ chars (fmt nt x).
Proof. intros H. by destruct (nt_fmt_chars _ _ Hnt x semi H). Qed.
Lemma fmtZ_nl z : (0 <= z < 2 ^ 31)%Z -> nl ∉ chars (fmtZ nt z).
Proof. intros Hz H. by destruct (nt_int_chars _ _ Hnt z Hz nl H). Qed.
Lemma fmtZ_semi z : (0 <= z < 2 ^ 31)%Z -> semi ∉ chars (fmtZ nt z).
Proof. intros Hz H. by destruct (nt_int_chars _ _ Hnt z Hz semi H). Qed.

Lemma entries_nl l : nl ∉ chars (writeEntries nt l).
Proof.
  unfold writeEntries. induction l as [|x l IH]; simpl; [intros H; inversion H|].
  rewrite !chars_app, !not_elem_of_app. split_and!; [apply fmt_nl| |done].
  unfold semis. simpl. intros H. apply elem_of_list_singleton in H. done.
Qed.

Fixpoint toks (l : list T) : list string :=
  match l with
  | [] => []
  | [x] => [(fmt nt x ++ semis)%string]
  | x :: l' => fmt nt x :: toks l'
  end.
Lemma split_entries l : splitString (writeEntries nt l) = toks l.
Proof.
  unfold splitString. induction l as [|x l IH]; [done|].
  destruct l as [|y l].
  - unfold writeEntries. cbn [map cat]. rewrite str_app_nil. rewrite splitFrom_last by apply fmt_semi. done.
  - change (writeEntries nt (x :: y :: l)) with ((fmt nt x ++ semis) ++ writeEntries nt (y :: l))%string.
    rewrite str_app_assoc, splitFrom_sep.
    + rewrite IH. done.
    + apply fmt_semi.
    + unfold writeEntries. cbn [map cat]. pose proof (nt_fmt_nonempty _ _ Hnt y).
      destruct (fmt nt y); done.
    + apply (nt_fmt_nonempty _ _ Hnt).
Qed.
Lemma toks_length l : length (toks l) = length l.
Proof. induction l as [|x [|y l] IH]; [done|done|]. cbn [toks length] in *. by rewrite IH. Qed.
Lemma toks_read l : map (StrToD nt) (toks l) = map rnd l.
Proof.
  induction l as [|x [|y l] IH]; [done| |].
  - cbn [toks map]. by rewrite (nt_read_semi _ _ Hnt).
  - change (toks (x :: y :: l)) with (fmt nt x :: toks (y :: l)).
    change (map rnd (x :: y :: l)) with (rnd x :: map rnd (y :: l)).
    rewrite <- IH. cbn [map]. by rewrite (nt_read _ _ Hnt).
Qed.

Lemma readVec_ok v st line : readVec nt (writeVec nt v :: st) line = Ok (rnd3 rnd v, st, writeVec nt v).
Proof.
  destruct v as [[x y] z]. unfold readVec. cbn [getline]. unfold writeVec. rewrite split_entries. cbn [toks].
  by rewrite !(nt_read _ _ Hnt), (nt_read_semi _ _ Hnt).
Qed.

Definition dims (m : matrix T) : string :=
  (fmtZ nt (Z.of_nat (mrows m)) ++ semis ++ fmtZ nt (Z.of_nat (mcols m)))%string.
Definition mat_ok (m : matrix T) : Prop :=
  length (mdata m) = mrows m * mcols m /\ (Z.of_nat (mrows m) < 2 ^ 31)%Z /\ (Z.of_nat (mcols m) < 2 ^ 31)%Z.

Lemma readMatrix_ok m st line : mat_ok m ->
  readMatrix nt (dims m :: writeEntries nt (mdata m) :: st) line =
    Ok (rnd_matrix rnd m, st, writeEntries nt (mdata m)).
Proof.
  intros (Hlen & Hr & Hc). unfold readMatrix. cbn [getline]. unfold splitString, dims.
  rewrite splitFrom_sep; [|apply fmtZ_semi; lia|apply (nt_int_nonempty _ _ Hnt); lia|
    simpl; apply (nt_int_nonempty _ _ Hnt); lia].
  rewrite splitFrom_word; [|apply fmtZ_semi; lia|apply (nt_int_nonempty _ _ Hnt); lia].
  cbn [String.append].
  rewrite !(nt_int_read _ _ Hnt) by lia.
  destruct (Z.of_nat (mrows m) <? 0)%Z eqn:E1; [lia|].
  destruct (Z.of_nat (mcols m) <? 0)%Z eqn:E2; [lia|]. cbn [orb].
  fold (splitString (writeEntries nt (mdata m))). rewrite split_entries.
  replace (Z.to_nat (Z.of_nat (mrows m) * Z.of_nat (mcols m))) with (length (toks (mdata m))).
  2:{ rewrite toks_length. lia. }
  rewrite firstn_all. rewrite Nat.eqb_refl. rewrite toks_read, !Nat2Z.id. done.
Qed.

Lemma toSize_ok n : (Z.of_nat n < 2 ^ 31)%Z -> toSize (Z.of_nat n) = n.
Proof. intros H. unfold toSize. rewrite Z.mod_small by lia. apply Nat2Z.id. Qed.

Definition sample_lines (s : sample T) : list string :=
  let c := content s in
  ["sample"%string; fmtZ nt (Z.of_nat (sid s)); fmtZ nt (Z.of_nat (slength c)); fmtZ nt (Z.of_nat (startRank c));
   fmt nt (sstatic s); writeVec nt (effectorPosition c); writeVec nt (effectorPositionInLimbFrame c);
   dims (mkMat (length (configuration c)) 1 (configuration c)); writeEntries nt (configuration c);
   dims (jacobian c); writeEntries nt (mdata (jacobian c));
   dims (jacobianProduct c); writeEntries nt (mdata (jacobianProduct c))].

Definition sample_ok (s : sample T) : Prop :=
  let c := content s in
    (Z.of_nat (sid s) < 2 ^ 31)%Z /\ (Z.of_nat (slength c) < 2 ^ 31)%Z /\
    (Z.of_nat (startRank c) < 2 ^ 31)%Z /\ (Z.of_nat (length (configuration c)) < 2 ^ 31)%Z /\
    (forall m, m = jacobian c \/ m = jacobianProduct c -> mat_ok m) /\
    mrows (jacobianProduct c) = 6 /\ mcols (jacobianProduct c) = 6.

Lemma vec_nl v : nl ∉ chars (writeVec nt v).
Proof. destruct v as [[x y] z]. apply entries_nl. Qed.

Lemma dims_nl m : (Z.of_nat (mrows m) < 2 ^ 31)%Z -> (Z.of_nat (mcols m) < 2 ^ 31)%Z -> nl ∉ chars (dims m).
Proof.
  intros Hr Hc. unfold dims. rewrite !chars_app, !not_elem_of_app. split_and!; try (apply fmtZ_nl; lia).
  simpl. intros H. apply elem_of_list_singleton in H. done.
Qed.

Lemma writeMatrix_dims m : writeMatrix nt m = (dims m ++ endl ++ writeEntries nt (mdata m))%string.
Proof. unfold writeMatrix, dims. by rewrite !str_app_assoc. Qed.

Lemma lines_sample s rest : sample_ok s -> lines (writeSample nt s ++ rest) = sample_lines s ++ lines rest.
Proof.
  intros (H1 & H2 & H3 & H4 & H5 & H6 & H7). unfold writeSample. cbv zeta.
  rewrite !writeMatrix_dims, !str_app_assoc.
  destruct (H5 (jacobian (content s)) (or_introl eq_refl)) as (_ & J1 & J2).
  destruct (H5 (jacobianProduct (content s)) (or_intror eq_refl)) as (_ & K1 & K2).
  unfold sample_lines. cbv zeta. cbn [app].
  rewrite (lines_line "sample") by (simpl; set_solver).
  do 3 rewrite lines_line by (apply fmtZ_nl; lia).
  rewrite lines_line by apply fmt_nl.
  do 2 rewrite lines_line by apply vec_nl.
  rewrite lines_line by (apply dims_nl; simpl; lia).
  rewrite lines_line by apply entries_nl.
  rewrite lines_line by (by apply dims_nl).
  rewrite lines_line by apply entries_nl.
  rewrite lines_line by (by apply dims_nl).
  rewrite lines_line by apply entries_nl.
  done.
Qed.

Lemma readSample_ok s st line : sample_ok s ->
  exists line', readSample nt (tail (sample_lines s) ++ st) line = Ok (rnd_sample rnd s, st, line').
Proof.
  intros (H1 & H2 & H3 & H4 & H5 & H6 & H7).
  unfold sample_lines. cbv zeta. cbn [tail app]. unfold readSample, StrToI_in, StrToD_in. cbn [getline].
  rewrite !readVec_ok.
  rewrite (readMatrix_ok (mkMat (length (configuration (content s))) 1 (configuration (content s)))).
  2:{ unfold mat_ok. simpl. lia. }
  rewrite !readMatrix_ok by (apply H5; auto).
  cbn [rnd_matrix mrows mcols mdata]. rewrite H6, H7. cbn.
  rewrite !(nt_int_read _ _ Hnt) by lia. rewrite (nt_read _ _ Hnt). rewrite !toSize_ok by lia.
  eexists. reflexivity.
Qed.

Definition value_lines (nv : string * list T) : list string :=
  ["value"%string; nv.1] ++ map (fmt nt) nv.2 ++ [""%string].

Lemma lines_numbers l rest : lines (cat (map (fun x => (fmt nt x ++ endl)%string) l) ++ rest)
  = map (fmt nt) l ++ lines rest.
Proof.
  induction l as [|x l IH]; [done|]. cbn [map cat app]. rewrite !str_app_assoc.
  rewrite lines_line by apply fmt_nl. by rewrite IH.
Qed.

Lemma lines_value nv rest : nl ∉ chars nv.1 -> lines (writeValue nt nv ++ rest) = value_lines nv ++ lines rest.
Proof.
  intros Hn. unfold writeValue, value_lines. rewrite !str_app_assoc. cbn [app].
  rewrite (lines_line "value") by (simpl; set_solver).
  rewrite lines_line by done. rewrite lines_numbers.
  change (endl ++ rest)%string with ("" ++ endl ++ rest)%string.
  rewrite (lines_line "") by (simpl; set_solver). rewrite <- app_assoc. done.
Qed.

Lemma readNumbers_ok l st line : exists line', readNumbers nt (length l) (map (fmt nt) l ++ st) line
  = (map rnd l, st, line').
Proof.
  revert line. induction l as [|x l IH]; intros line; cbn [length readNumbers map app]; [eauto|].
  cbn [getline]. destruct (IH (fmt nt x)) as [line' ->]. rewrite (nt_read _ _ Hnt). eauto.
Qed.

(** the entries read, in order *)
Definition addRead (m : gmap string (list T)) (nv : string * list T) : gmap string (list T) :=
  match m !! nv.1 with Some _ => m | None => <[nv.1 := map rnd nv.2]> m end.

Lemma load_values size vs : forall fuel st line ss m,
  Forall (fun nv => length nv.2 = size) vs -> length (concat (map value_lines vs) ++ st) <= fuel ->
  exists fuel' line', length st <= fuel' /\
    loadLoop nt fuel true size (concat (map value_lines vs) ++ st) line ss m
    = loadLoop nt fuel' true size st line' ss (fold_left addRead vs m).
Proof.
  induction vs as [|[n l] vs IH]; intros fuel st line ss m HF Hfuel.
  - exists fuel, line. done.
  - inversion_clear HF as [|? ? Hl HF']. simpl in Hl. subst size.
    cbn [map concat] in *. unfold value_lines at 1 in Hfuel. unfold value_lines at 1. cbn [fst snd app] in *.
    rewrite <- !app_assoc in *. cbn [length app] in Hfuel.
    destruct fuel as [|fuel]; [lia|]. cbn [loadLoop getline].
    change (contains "sample" "value") with false. change (contains "value" "value") with true. cbn [andb].
    unfold readValue. cbn [getline].
    destruct (readNumbers_ok l ([""%string] ++ concat (map value_lines vs) ++ st) n) as [line1 Hrd].
    rewrite Hrd. rewrite app_length in Hfuel. cbn [length app] in Hfuel.
    destruct fuel as [|fuel]; [lia|]. cbn [app]. cbn [loadLoop getline].
    change (contains "sample" "") with false. change (contains "value" "") with false. cbn [andb].
    destruct (IH fuel st ""%string ss (addRead m (n, l))) as (fuel' & line' & Hle & Heq); [done|lia|].
    exists fuel', line'. split; [done|]. cbn [fold_left]. rewrite <- Heq. done.
Qed.

Lemma skip_lines size ls : forall fuel st line ss m, length (ls ++ st) <= fuel ->
  Forall (fun l => contains "sample" l = false) ls ->
  exists fuel' line', length st <= fuel' /\
    loadLoop nt fuel false size (ls ++ st) line ss m = loadLoop nt fuel' false size st line' ss m.
Proof.
  induction ls as [|l ls IH]; intros fuel st line ss m Hfuel HF; [eauto|].
  inversion_clear HF as [|? ? Hl HF']. cbn [app length] in *. destruct fuel as [|fuel]; [lia|].
  cbn [loadLoop getline]. rewrite Hl, andb_false_r. apply IH; [lia|done].
Qed.

Lemma load_samples size lv : forall ss fuel st line acc m,
  Forall sample_ok ss -> length (concat (map sample_lines ss) ++ st) <= fuel ->
  exists fuel' line', length st <= fuel' /\
    loadLoop nt fuel lv size (concat (map sample_lines ss) ++ st) line acc m
    = loadLoop nt fuel' lv size st line' (acc ++ map (rnd_sample rnd) ss) m.
Proof.
  induction ss as [|s ss IH]; intros fuel st line acc m HF Hfuel.
  - exists fuel, line. cbn [map concat app]. rewrite app_nil_r. done.
  - inversion_clear HF as [|? ? Hs HF']. cbn [map concat] in *. rewrite <- app_assoc in *.
    destruct fuel as [|fuel]; [cbn in Hfuel; lia|].
    destruct (readSample_ok s (concat (map sample_lines ss) ++ st) "sample" Hs) as [line1 Hrd].
    cbn [loadLoop]. change (sample_lines s) with ("sample"%string :: tail (sample_lines s)) at 1 2.
    cbn [app getline]. change (contains "sample" "sample") with true. cbv iota. rewrite Hrd.
    destruct (IH fuel st line1 (acc ++ [rnd_sample rnd s]) m HF') as (fuel' & line' & Hle & Heq).
    { rewrite app_length in Hfuel. change (length (sample_lines s)) with 13 in Hfuel. lia. }
    exists fuel', line'. split; [done|]. rewrite Heq, <- app_assoc. done.
Qed.

Lemma lines_samples ss rest : Forall sample_ok ss ->
  lines (cat (map (writeSample nt) ss) ++ rest) = concat (map sample_lines ss) ++ lines rest.
Proof.
  induction ss as [|s ss IH]; intros HF; [done|]. inversion_clear HF as [|? ? Hs HF'].
  cbn [map cat concat]. rewrite str_app_assoc, lines_sample by done. rewrite IH by done. by rewrite app_assoc.
Qed.
Lemma lines_values vs rest : Forall (fun nv => nl ∉ chars nv.1) vs ->
  lines (cat (map (writeValue nt) vs) ++ rest) = concat (map value_lines vs) ++ lines rest.
Proof.
  induction vs as [|s ss IH]; intros HF; [done|]. inversion_clear HF as [|? ? Hs HF'].
  cbn [map cat concat]. rewrite str_app_assoc, lines_value by done. rewrite IH by done. by rewrite app_assoc.
Qed.

Lemma fold_addRead vs : forall m, NoDup vs.*1 -> (forall n, n ∈ vs.*1 -> m !! n = None) ->
  forall n, fold_left addRead vs m !! n =
    match m !! n with Some l => Some l | None =>
      match (list_to_map vs : gmap string (list T)) !! n with Some l => Some (map rnd l) | None => None end end.
Proof.
  induction vs as [|[k l] vs IH]; intros m Hnd Hm n; cbn [fold_left].
  - simpl. rewrite lookup_empty. by destruct (m !! n).
  - cbn in Hnd. inversion_clear Hnd as [|? ? Hk Hnd'].
    assert (Hmk : m !! k = None) by (apply Hm; cbn; apply elem_of_cons; by left).
    unfold addRead at 2. cbn [fst snd]. rewrite Hmk.
    rewrite IH; [|done|].
    + cbn [list_to_map foldr curry uncurry]. simpl list_to_map.
      destruct (decide (n = k)) as [->|Hne].
      * rewrite !lookup_insert, Hmk. done.
      * rewrite !lookup_insert_ne by done. done.
    + intros n' Hn'. rewrite lookup_insert_ne by (intros ->; done). apply Hm. cbn. apply elem_of_cons. by right.
Qed.

Lemma read_values_eq (m : gmap string (list T)) : fold_left addRead (sitems m) ∅ = map rnd <$> m.
Proof.
  apply map_eq. intros n. rewrite fold_addRead; [|apply sitems_nodup|intros; apply lookup_empty].
  rewrite lookup_empty, lookup_fmap.
  destruct (m !! n) as [l|] eqn:E.
  - rewrite (elem_of_list_to_map_1 (sitems m) n l); [done|apply sitems_nodup|by apply sitems_elem].
  - rewrite not_elem_of_list_to_map_1; [done|]. intros H. apply elem_of_list_fmap in H as ([n' l] & -> & H).
    apply sitems_elem in H. simpl in E. congruence.
Qed.

Theorem load_save voxel lv db : storable db ->
  (lv = false -> forall n l, values db !! n = Some l -> contains "sample" n = false) ->
  loadDB nt voxel lv (saveLimbDatabase nt db) = alignSampleOrderWithOctree voxel (rounded rnd lv db).
Proof.
  intros [Hc Hv Hn Hs] Hnames.
  assert (HF : Forall sample_ok (samples db)) by (apply Forall_forall; intros s Hin; by apply Hs).
  unfold loadDB, saveLimbDatabase, writeSamples, writeValues.
  rewrite lines_line by (apply fmtZ_nl; lia). cbn [getline].
  rewrite lines_line by apply fmt_nl. cbn [getline].
  rewrite lines_samples by done.
  rewrite <- (str_app_nil (cat (map (writeValue nt) (sitems (values db))))).
  rewrite lines_values.
  2:{ apply Forall_forall. intros [n l] Hin. apply sitems_elem in Hin. by eapply Hn. }
  rewrite (nt_int_read _ _ Hnt) by lia. rewrite toSize_ok by done. rewrite (nt_read _ _ Hnt).
  cbn [lines].
  edestruct (load_samples (length (samples db)) lv (samples db)) as (f1 & l1 & Hf1 & ->); [done|reflexivity|].
  cbn [app]. destruct lv.
  - destruct (load_values (length (samples db)) (sitems (values db)) f1 [""%string] l1
      (map (rnd_sample rnd) (samples db)) ∅) as (f2 & l2 & Hf2 & ->).
    { apply Forall_forall. intros [n l] Hin. apply sitems_elem in Hin. by eapply Hv. }
    { done. }
    destruct f2 as [|f2]; [cbn in Hf2; lia|]. cbn [loadLoop getline].
    change (contains "sample" "") with false. change (contains "value" "") with false. cbn [andb].
    destruct f2; cbn [loadLoop]; unfold rounded; by rewrite read_values_eq.
  - destruct (skip_lines (length (samples db)) (concat (map value_lines (sitems (values db)))) f1 [""%string] l1
      (map (rnd_sample rnd) (samples db)) ∅) as (f2 & l2 & Hf2 & ->).
    { done. }
    { apply Forall_forall. intros l Hl. apply elem_of_concat in Hl as (ls & Hl & Hls).
      apply elem_of_list_fmap in Hls as ([n vs] & -> & Hin). apply sitems_elem in Hin.
      unfold value_lines in Hl. cbn [app fst snd] in Hl.
      apply elem_of_cons in Hl as [->|Hl]; [done|]. apply elem_of_cons in Hl as [->|Hl]; [by eapply Hnames|].
      apply elem_of_app in Hl as [Hl|Hl].
      - apply elem_of_list_fmap in Hl as (x & -> & _). apply (nt_fmt_words _ _ Hnt).
      - apply elem_of_list_singleton in Hl as ->. done. }
    destruct f2 as [|f2]; [cbn in Hf2; lia|]. cbn [loadLoop getline].
    change (contains "sample" "") with false. change (contains "value" "") with false. cbn [andb].
    destruct f2; cbn [loadLoop]; unfold rounded; done.
Qed.

Lemma rounded_complete lv db : storable db -> values_complete (rounded rnd lv db).
Proof.
  intros [Hc Hv Hn Hs] n l. unfold rounded. simpl. destruct lv.
  - rewrite lookup_fmap. destruct (values db !! n) as [l0|] eqn:E; [|done]. intros [= <-].
    rewrite !map_length. by eapply Hv.
  - by rewrite lookup_empty.
Qed.

Theorem load_save_full voxel lv db : storable db ->
  (lv = false -> forall n l, values db !! n = Some l -> contains "sample" n = false) ->
  exists db' p, loadDB nt voxel lv (saveLimbDatabase nt db) = Ok db' /\
    rearranged p (rounded rnd lv db) db' /\ voxels_exact voxel db'.
Proof.
  intros Hst Hn. rewrite load_save by done.
  destruct (align_ok voxel _ (rounded_complete lv db Hst)) as (db' & p & H1 & H2 & H3 & _). eauto.
Qed.
End text.

(** the reading loop never runs out of fuel: it always ends *)
Section fuel.
Context {T : Type}.
Variable nt : numtext T.

Lemma getline_len st line l st' : getline st line = (l, st') -> length st' <= length st.
Proof. destruct st; simpl; intros H; injection H as <- <-; simpl; lia. Qed.
Lemma readVec_len st line v st' l : readVec nt st line = Ok (v, st', l) -> length st' <= length st.
Proof.
  unfold readVec. destruct (getline st line) as [l1 st1] eqn:E. apply getline_len in E.
  destruct (splitString l1) as [|a [|b [|c ?]]]; try done. by intros H; injection H as _ <- _.
Qed.
Lemma readMatrix_len st line v st' l : readMatrix nt st line = Ok (v, st', l) -> length st' <= length st.
Proof.
  unfold readMatrix. destruct (getline st line) as [l1 st1] eqn:E. apply getline_len in E.
  destruct (splitString l1) as [|a [|b ?]]; try done. destruct (_ || _); [done|].
  destruct (getline st1 l1) as [l2 st2] eqn:E2. apply getline_len in E2.
  destruct (_ =? _); [|done]. intros H; injection H as _ <- _; lia.
Qed.
Lemma readSample_len st line v st' l : readSample nt st line = Ok (v, st', l) -> length st' <= length st.
Proof.
  unfold readSample, StrToI_in, StrToD_in.
  destruct (getline st "") as [a0 st1] eqn:E1. apply getline_len in E1.
  destruct (getline st1 "") as [a1 st2] eqn:E2. apply getline_len in E2.
  destruct (getline st2 "") as [a2 st3] eqn:E3. apply getline_len in E3.
  destruct (getline st3 "") as [a3 st4] eqn:E4. apply getline_len in E4.
  destruct (readVec nt st4 line) as [[[v5 st5] l5]| |] eqn:E5; try done. apply readVec_len in E5.
  destruct (readVec nt st5 l5) as [[[v6 st6] l6]| |] eqn:E6; try done. apply readVec_len in E6.
  destruct (readMatrix nt st6 l6) as [[[v7 st7] l7]| |] eqn:E7; try done. apply readMatrix_len in E7.
  destruct (readMatrix nt st7 l7) as [[[v8 st8] l8]| |] eqn:E8; try done. apply readMatrix_len in E8.
  destruct (readMatrix nt st8 l8) as [[[v9 st9] l9]| |] eqn:E9; try done. apply readMatrix_len in E9.
  destruct (_ && _); [|done]. intros H; injection H as _ <- _; lia.
Qed.
Lemma readSample_no_throw st line : readSample nt st line <> Throw.
Proof.
  unfold readSample, StrToI_in, StrToD_in.
  repeat match goal with
  | |- context [getline ?a ?b] => destruct (getline a b)
  end.
  repeat match goal with
  | |- context [match readVec nt ?a ?b with _ => _ end] => destruct (readVec nt a b) as [[[? ?] ?]| |]; try done
  | |- context [match readMatrix nt ?a ?b with _ => _ end] => destruct (readMatrix nt a b) as [[[? ?] ?]| |]; try done
  end.
  destruct (_ && _); done.
Qed.
Lemma readNumbers_len n : forall st line l st' line', readNumbers nt n st line = (l, st', line') -> length st' <= length st.
Proof.
  induction n as [|n IH]; intros st line l st' line'; cbn [readNumbers]; [by intros H; injection H as _ <- _|].
  destruct (getline st line) as [l1 st1] eqn:E1. apply getline_len in E1.
  destruct (readNumbers nt n st1 l1) as [[r st2] line2] eqn:E2. apply IH in E2. intros H; injection H as _ <- _; lia.
Qed.

Theorem loadLoop_ends lv size : forall fuel st line ss m, length st <= fuel ->
  loadLoop nt fuel lv size st line ss m <> Throw.
Proof.
  induction fuel as [|fuel IH]; intros st line ss m Hle.
  - destruct st; [done|simpl in Hle; lia].
  - destruct st as [|l st]; [done|]. cbn [loadLoop getline]. simpl in Hle.
    destruct (contains "sample" l).
    + pose proof (readSample_no_throw st l) as Hnt. destruct (readSample nt st l) as [[[s st2] l2]| |] eqn:E; try done.
      apply readSample_len in E. apply IH. lia.
    + destruct (contains "value" l && lv); [|apply IH; lia].
      unfold readValue. destruct (getline st l) as [name st1] eqn:E1. apply getline_len in E1.
      destruct (readNumbers nt size st1 name) as [[r st2] l2] eqn:E2. apply readNumbers_len in E2.
      apply IH. lia.
Qed.
Theorem loadDB_ends voxel lv text : loadDB nt voxel lv text <> Throw.
Proof.
  unfold loadDB. destruct (getline (lines text) "") as [l1 st1]. destruct (getline st1 l1) as [l2 st2].
  pose proof (loadLoop_ends lv (toSize (StrToI nt l1)) (length st2) st2 l2 [] ∅ (le_n _)) as H.
  destruct (loadLoop nt (length st2) lv (toSize (StrToI nt l1)) st2 l2 [] ∅) as [[ss vals]| |]; try done.
  destruct (align_run voxel (mkDB (StrToD nt l2) ss vals ∅ ∅)) as (out & vox & Heq & _).
  unfold alignSampleOrderWithOctree. rewrite Heq. by destruct (permutedAll _ _).
Qed.
End fuel.

(** what is not written, or written alike, is lost *)
Theorem lossy {T} (nt : numtext T) (x y : T) : fmt nt x = fmt nt y -> x <> y ->
  exists db1 db2 s1 s2, storable db1 /\ storable db2 /\
    saveLimbDatabase nt db1 = saveLimbDatabase nt db2 /\
    samples db1 = [s1] /\ samples db2 = [s2] /\ configuration (content s1) <> configuration (content s2).
Proof.
  intros Hf Hne.
  set (mk := fun z : T => mkSample 0 x (mkContent 0 1 [z] (x, x, x) (x, x, x) (mkMat 0 0 []) (mkMat 6 6 (replicate 36 x)))).
  assert (Hst : forall z, storable (mkDB x [mk z] ∅ ∅ ∅)).
  { intros z. split; simpl; try lia.
    - intros n l. simpl. by rewrite lookup_empty.
    - intros n l. by rewrite lookup_empty.
    - intros s Hs. apply elem_of_list_singleton in Hs as ->. simpl. split_and!; try lia.
      intros m [->| ->]; simpl; lia. }
  exists (mkDB x [mk x] ∅ ∅ ∅), (mkDB x [mk y] ∅ ∅ ∅), (mk x), (mk y).
  split_and!; [apply Hst|apply Hst| |done|done|unfold mk; simpl; congruence].
  unfold saveLimbDatabase, writeSamples, writeValues, mk. simpl samples. simpl values. simpl resolution.
  do 4 f_equal. f_equal. cbn [map cat]. unfold writeSample. cbn [content configuration sid sstatic slength startRank effectorPosition effectorPositionInLimbFrame jacobian jacobianProduct].
  unfold writeMatrix, writeEntries. cbn [mrows mcols mdata map cat]. rewrite Hf. done.
Qed.
