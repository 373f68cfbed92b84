(** Properties of the text of a State. *)
From Coq Require Import ZArith Ascii String.
From Verif Require Import Maps Vec StateModel StateSpec StateReal PrintModel PrintSpec PrintProofs PrintExamples.
Local Open Scope string_scope.

(** C156 *)
Theorem C156_text num int (s : PState) ls : consistent s -> (Z.of_nat (size (contacts s)) < 2 ^ 64)%Z ->
  (forall k, is_Some (contacts s !! k) -> k <> "") -> Forall2 (contactNumbers s) (skeys (contacts s)) ls ->
  print1 num int s =
    (int (nbContacts s) ++ eol ++ String.concat "" (map (fun k => " " ++ k ++ " ") (skeys (contacts s))) ++ eol ++
     lines num (skeys (contacts s)) ls ++ configLine num (configuration s), Ok tt).
Proof. exact (print_text num int s ls). Qed.
Theorem C156_new num int (s previous : PState) ls l : consistent s -> (Z.of_nat (size (contacts s)) < 2 ^ 64)%Z ->
  (forall k, is_Some (contacts s !! k) -> k <> "") -> Forall2 (contactNumbers s) (skeys (contacts s)) ls ->
  StronglySorted str_le l -> NoDup l -> (forall k, k ∈ l <-> new_or_moved previous s k) ->
  print2 num int s previous =
    (int (nbContacts s) ++ eol ++ String.concat "" (map (fun k => label k ++ " ") l) ++ eol ++
     lines num (skeys (contacts s)) ls ++ configLine num (configuration s), Ok tt).
Proof. exact (print_new num int s previous ls l). Qed.
Theorem C156_unique num int (s1 s2 : PState) t : (forall x, oneWord (num x)) -> (forall z, oneWord (int z)) ->
  consistent s1 -> consistent s2 ->
  (Z.of_nat (size (contacts s1)) < 2 ^ 64)%Z -> (Z.of_nat (size (contacts s2)) < 2 ^ 64)%Z ->
  (forall k, is_Some (contacts s1 !! k) -> k <> "" /\ oneWord k) -> (forall k, is_Some (contacts s2 !! k) -> k <> "" /\ oneWord k) ->
  print1 num int s1 = (t, Ok tt) -> print1 num int s2 = (t, Ok tt) ->
  contacts s1 = contacts s2 /\ nbContacts s1 = nbContacts s2 /\ map num (configuration s1) = map num (configuration s2) /\
  forall k l1 l2, contactNumbers s1 k l1 -> contactNumbers s2 k l2 -> map num l1 = map num l2.
Proof. exact (fun Hnum Hint C1 C2 L1 L2 N1 N2 => print_unique num int Hnum s1 s2 t C1 C2 L1 L2 N1 N2 Hint). Qed.
Theorem C156_unique_new num int (s1 s2 p1 p2 : PState) t :
  (forall x, oneWord (num x)) -> (forall z, oneWord (int z)) -> (forall x y, int x = int y -> x = y) ->
  consistent s1 -> consistent s2 ->
  (Z.of_nat (size (contacts s1)) < 2 ^ 64)%Z -> (Z.of_nat (size (contacts s2)) < 2 ^ 64)%Z ->
  (forall k, is_Some (contacts s1 !! k) -> k <> "" /\ oneWord k) -> (forall k, is_Some (contacts s2 !! k) -> k <> "" /\ oneWord k) ->
  print2 num int s1 p1 = (t, Ok tt) -> print2 num int s2 p2 = (t, Ok tt) ->
  map num (configuration s1) = map num (configuration s2) /\
  Forall2 (fun k1 k2 => label k1 = label k2 /\ forall l1 l2, contactNumbers s1 k1 l1 -> contactNumbers s2 k2 l2 -> map num l1 = map num l2)
    (skeys (contacts s1)) (skeys (contacts s2)).
Proof. exact (print_new_unique num int s1 s2 p1 p2 t). Qed.
Theorem C156_first_letter num int c0 r0 a b t q p n m r0' c0' :
  print2 num int (state_step (state_default c0 r0) (OpAdd (String a t) q p n m)) (state_default c0' r0') =
  print2 num int (state_step (state_default c0 r0) (OpAdd (String b t) q p n m)) (state_default c0' r0').
Proof. exact (first_letter num int c0 r0 a b t q p n m r0' c0'). Qed.
(** more contacts counted than there are: undefined, resp. no text *)
Theorem C156_count num int (s previous : PState) : (Z.of_nat (size (normals s)) < nbContacts s)%Z ->
  snd (print1 num int s) = Ub /\ snd (print2 num int s previous) <> Ok tt.
Proof. exact (print_both_ub num int s previous). Qed.
Theorem C156_no_name num int (s previous : PState) : consistent s -> (Z.of_nat (size (contacts s)) < 2 ^ 64)%Z -> is_Some (contacts s !! "") ->
  snd (print1 num int s) = Throw /\ snd (print2 num int s previous) = Throw.
Proof. exact (print_throw num int s previous). Qed.

(** Two feet, one of which has moved. *)
Example C156_case : consistent prState /\ (Z.of_nat (size (contacts prState)) < 2 ^ 64)%Z /\
  (forall k, is_Some (contacts prState !! k) -> k <> "" /\ oneWord k) /\
  (exists ls, Forall2 (contactNumbers prState) (skeys (contacts prState)) ls) /\ size (contacts prState) = 2%nat.
Proof. exact (conj pr_consistent (conj pr_small (conj pr_names (conj pr_numbers pr_size)))). Qed.
Example C156_case_moved : (StronglySorted str_le ["LFoot"] /\ NoDup ["LFoot"]) /\ (forall k, k ∈ ["LFoot"] <-> new_or_moved prBefore prState k).
Proof. exact (conj pr_sorted pr_moved). Qed.
Example C156_case_digits : (forall x, oneWord (sign x)) /\ (forall z, oneWord (unary z)) /\ (forall x y, unary x = unary y -> x = y).
Proof. exact (conj sign_word (conj unary_word unary_inj)). Qed.
Example C156_case_wrong : (Z.of_nat (size (normals prHigh)) < nbContacts prHigh)%Z /\
  consistent prEmpty /\ (Z.of_nat (size (contacts prEmpty)) < 2 ^ 64)%Z /\ is_Some (contacts prEmpty !! "").
Proof. exact (conj pr_high pr_empty). Qed.

Print Assumptions C156_text.
Print Assumptions C156_new.
Print Assumptions C156_unique.
Print Assumptions C156_unique_new.
Print Assumptions C156_first_letter.
Print Assumptions C156_count.
Print Assumptions C156_no_name.
