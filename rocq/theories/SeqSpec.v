(** Specification vocabulary of the contact sequences along a path. *)
From Coq Require Import Reals ZArith.
From Verif Require Import Maps Vec StateModel StateSpec StateReal ProjModel ProjSpec CombModel GenModel SeqModel.
Local Open Scope R_scope.

(** [c] has the size of [prev]; its last [extra] entries are those of [conf], its first [n] others
    too, and the rest comes from [prev] *)
Definition mixed (n extra : nat) (prev conf c : list R) : Prop :=
  length c = length prev /\
  forall i, (i < length prev)%nat ->
    c !! i = (if (length prev - extra <=? i)%nat then conf !! (length conf - (length prev - i))%nat
              else if (i <? n)%nat then conf !! i else prev !! i).

(** consecutive elements of a list are related *)
Definition consecutive {A} (Rel : A -> A -> Prop) (l : list A) : Prop :=
  forall i a b, l !! i = Some a -> l !! S i = Some b -> Rel a b.

Section loop.
Variable compute : nat -> PSt -> list R -> vec3 -> vec3 -> R -> creport.
Variables (confSize extra : nat).
Variable configs : list (list R).
Variables (step init : R).

(** the report says that the contacts are those of the previous state *)
Definition unchanged (r : creport) : Prop := crOk r = true /\ crMaintained r = true /\ crCreated r = false.

(** [s] is [r] with its number of contacts counted *)
Definition counted (r s : PSt) : Prop :=
  configuration s = configuration r /\ contacts s = contacts r /\ normals s = normals r /\ positions s = positions r /\
  rotations s = rotations r /\ order s = order r /\ stable s = stable r /\ robustness s = robustness r /\
  nbContacts s = (Z.of_nat (size (normals r)) mod 2 ^ 64)%Z.

(** a generator fails, or breaks several contacts, only after having tried to reposition the
    contacts; [good] is what it expects of a previous state, and what it guarantees *)
Definition reliable (good : PSt -> Prop) : Prop :=
  forall k prev c d a t, good prev ->
    let r := compute k prev c d a t in
    (crOk r = false \/ crMulti r = true -> crRepos r = true) /\ (forall s, counted (crResult r) s -> good s).

(** the second state was computed from the first one, at configuration number [i] of the list
    (root and extra dofs; the other joints keep the values [joints]), looking for contacts
    upwards; the time is that of configuration [i], counted from [init] at configuration number
    1 - [o], except for a repositioning, which happens at the time of the first state *)
Definition computed_from (o : nat) (x y : sframe) : Prop :=
  exists k i conf joints c a tau,
    (1 <= i)%nat /\ configs !! i = Some conf /\ mixed 7 extra joints conf c /\
    tau = init + (INR i - 1 + INR o) * step /\
    (forall j, (j < 3)%nat -> (confSize - extra + 6 <= length c)%nat ->
       [vx a; vy a; vz a] !! j = c !! (confSize - extra + 3 + j)%nat) /\
    let r := compute k (snd x) c (V3 0 0 1) a tau in
    ~ unchanged r /\ counted (crResult r) (snd y) /\ fst y = (if crRepos r then fst x else tau).
End loop.

(** ** The reports of the contact generator *)
Section generator.
Context {Cand Smp : Type}.
Notation GSt := (State (list R) vec3 mat3 Z).
(** the same state, but for the robustness *)
Definition alike (s : PSt) (t : GSt) : Prop :=
  configuration t = configuration s /\ contacts t = contacts s /\ normals t = normals s /\ positions t = positions s /\
  rotations t = rotations s /\ order t = order s /\ nbContacts t = nbContacts s /\ stable t = stable s.
(** [compute] calls contact::ComputeContacts with a robot and an environment that may depend on
    the call, the direction, the acceleration and the path parameter *)
Definition generated (Sv : nat -> vec3 -> vec3 -> R -> services (list R) vec3 mat3 Cand Smp) (threshold : Z)
  (test quasi postural : bool) (compute : nat -> PSt -> list R -> vec3 -> vec3 -> R -> creport) : Prop :=
  forall k prev c d a t, exists prev' fuel cr h,
    alike prev prev' /\
    ComputeContacts_next (Sv k d a t) moved3 fuel prev' c threshold test quasi postural = Some (cr, h) /\
    let r := compute k prev c d a t in
    crOk r = success (cr_rep cr) /\ crMaintained r = contactMaintained cr /\ crMulti r = multipleBreaks cr /\
    crCreated r = contactCreated cr /\ crRepos r = repositionedInPlace cr /\ alike (crResult r) (result (cr_rep cr)).
End generator.

(** ** The goal *)
Section goal.
Variable B : fullbody.
Variable goal : PSt.
(** [s'] is [s] with the contact of [limb] put where the goal has it (within 0.1 mm), the other
    contacts held (within 0.1 mm), without collision *)
Definition limb_moved (limb : string) (s s' : PSt) : Prop :=
  let st := snd (RemoveContact limb s) in
  let c := configuration s' in
  exists l f n p r, limbsOf B !! limb = Some l /\ frames (dev B) !! effName l = Some f /\
    normals goal !! limb = Some n /\ positions goal !! limb = Some p /\ rotations goal !! limb = Some r /\
    wholeValid B c = true /\ (forall e, contact_held B (1 / 10000) st c e) /\
    dist3 (tra (fpose (dev B) c f)) p <= 1 / 10000 /\
    (ltype l = _6_DOF -> is_rotation r -> angle_between r (rot (fpose (dev B) c f)) <= 1 / 10000) /\
    same_but_configuration (addContact limb c (tra (fpose (dev B) c f)) n (rot (fpose (dev B) c f)) st) s'.
(** moving the limbs one after the other *)
Inductive limbs_moved : list string -> PSt -> list PSt -> PSt -> Prop :=
| lm_none s : limbs_moved [] s [] s
| lm_more x l s s1 ss s2 : limb_moved x s s1 -> limbs_moved l s1 ss s2 -> limbs_moved (x :: l) s (s1 :: ss) s2.
(** the contacts of two states differ for limb [k]: in one only, or more than 1 cm apart *)
Definition differs (s : PSt) (k : string) : Prop := new_or_moved s goal k \/ new_or_moved goal s k.
End goal.

(** ** Filters *)
(** [k] is a contact of [b] which [a] does not have there (within 1 cm), resp. of [a] which [b]
    does not have there *)
Definition gained (a b : PSt) (k : string) : Prop := new_or_moved a b k.
Definition lost (a b : PSt) (k : string) : Prop := new_or_moved b a k.

Section filters.
(** [reach a b]: the second state can be reached from the first one *)
Variable reach : PSt -> PSt -> Prop.
(** going from [a] to [b] and from [b] to [c] makes contact with the same limbs, and going
    straight from [a] to [c] loses the same contacts as going to [b] *)
Definition moves_again (a b c : PSt) : Prop :=
  (forall k, lost a b k <-> lost a c k) /\ (forall k, gained a b k <-> gained b c k) /\ reach a c.
(** going from [a] to [b] only loses contacts, which are made again from [b] to [c] *)
Definition leaves_and_returns (a b c : PSt) : Prop :=
  (forall k, ~ gained a b k) /\ (forall k, ~ lost b c k) /\ (forall k, gained b c k <-> lost a b k) /\ reach a c.
End filters.
(** the configurations are equal within the precision of floating point numbers: the sum of the
    squares of the differences of their entries is at most the square of 2^-52 *)
Fixpoint sum_sq (p q : list R) : R :=
  match p, q with
  | x :: p', y :: q' => (x - y) ^ 2 + sum_sq p' q'
  | _, _ => 0
  end.
Definition same_conf (p q : list R) : Prop := sum_sq p q <= (/ 2 ^ 52) ^ 2.
(** [b] has the configuration of [a], or the same contacts *)
Definition same_place (a b : PSt) : Prop :=
  same_conf (configuration b) (configuration a) \/ forall k, ~ gained a b k /\ ~ lost a b k.

(** Reading a list from left to right after [m], a frame [c] goes away when [P m c p] holds for the
    last frame kept [m] and the next one [p], which then stays.  The last frame stays *)
Inductive thinned (P : PSt -> PSt -> PSt -> Prop) : sframe -> list sframe -> list sframe -> Prop :=
| th_end m z : thinned P m [z] [z]
| th_keep m c p rest res : ~ P (snd m) (snd c) (snd p) -> thinned P c (p :: rest) res ->
    thinned P m (c :: p :: rest) (c :: res)
| th_drop_end m c z : P (snd m) (snd c) (snd z) -> thinned P m [c; z] [z]
| th_drop m c p q rest res : P (snd m) (snd c) (snd p) -> thinned P p (q :: rest) res ->
    thinned P m (c :: p :: q :: rest) (p :: res).
(** Frames between the first and the last one go away when [P] holds of the frame before, kept or
    not, and themselves *)
Inductive pruned (P : PSt -> PSt -> Prop) : sframe -> list sframe -> list sframe -> Prop :=
| pr_end m z : pruned P m [z] [z]
| pr_keep m c p rest res : ~ P (snd m) (snd c) -> pruned P c (p :: rest) res -> pruned P m (c :: p :: rest) (c :: res)
| pr_drop m c p rest res : P (snd m) (snd c) -> pruned P c (p :: rest) res -> pruned P m (c :: p :: rest) res.
(** three (four) consecutive elements *)
Definition no_three {A} (P : A -> A -> A -> Prop) (l : list A) : Prop :=
  forall i a b c, l !! i = Some a -> l !! S i = Some b -> l !! S (S i) = Some c -> ~ P a b c.
Definition no_four {A} (P : A -> A -> A -> A -> Prop) (l : list A) : Prop :=
  forall i a b c d, l !! i = Some a -> l !! S i = Some b -> l !! S (S i) = Some c -> l !! S (S (S i)) = Some d -> ~ P a b c d.
(** [ok a b]: the frames [a] and [b] follow each other in [l], or a frame between them was such that
    [P] holds *)
Definition neighbours (P : PSt -> PSt -> PSt -> Prop) (l : list sframe) (a b : sframe) : Prop :=
  exists i, l !! i = Some a /\
    (l !! S i = Some b \/ exists c, l !! S i = Some c /\ l !! S (S i) = Some b /\ P (snd a) (snd c) (snd b)).

(** from [a] to [b], the contacts of [S] move, and no other *)
Definition moves (S : list string) (a b : PSt) : Prop := forall k, (gained a b k <-> k ∈ S) /\ (lost a b k <-> k ∈ S).
(** the contacts of [S] move, something else happens, they move again *)
Definition moves_twice (S : list string) (c0 c1 c2 c3 : PSt) : Prop :=
  moves S c0 c1 /\ moves S c2 c3 /\ ~ (forall k, gained c1 c2 k <-> k ∈ S) /\ ~ (forall k, lost c1 c2 k <-> k ∈ S).

Section replace.
Variable reach : PSt -> PSt -> Prop.
Variable axis : vec3 -> vec3 -> vec3.
Variable B : fullbody.
(** [s'] is [s] with the contact of [limb] made again, with normal [n], at a point reached when aiming
    at [p] from configuration [q] (up to the tolerance); the root has the placement it has in [root],
    all contacts are held (within 0.1 mm), without collision *)
Definition contact_redone (limb : string) (l : plimb) (s : PSt) (q : list R) (n p : vec3) (root : list R) (s' : PSt) : Prop :=
  let c := configuration s' in
  exists f x r, frames (dev B) !! effName l = Some f /\
    dist3 x (tra (computeProjectionMatrix B axis l f q n p mzero)) <= tol B /\
    same_but_configuration (addContact limb c x n r (snd (RemoveContact limb s))) s' /\
    (forall e, contact_held B (1 / 10000) s' c e) /\
    (forall j, reaches (limb_root B) (tree (dev B)) j -> lockOf c j = lockOf root j) /\
    wholeValid B c = true.
(** a limb moves from [c0] to [c1] then again from [c2] to [c3], at less than 20 cm; [s] is [c1] with
    the contact of [c3] *)
Definition moves_at_once (c0 c1 c2 c3 s : PSt) : Prop :=
  exists limb l n x1 x3, moves_twice [limb] c0 c1 c2 c3 /\ limbsOf B !! limb = Some l /\
    normals c3 !! limb = Some n /\ positions c3 !! limb = Some x3 /\ positions c1 !! limb = Some x1 /\ dist3 x1 x3 < 2 / 10 /\
    contact_redone limb l c1 (configuration c3) n (vadd x3 (loffset l)) (configuration c1) s /\ reach s c3.
(** limbs move from [c0] to [c1] and again from [c2] to [c3], [c2] has one contact more than [c1];
    [s] is [c2] with the contact of [c0] for the first of these limbs.  The positions are compared
    1 cm under the surfaces *)
Definition moves_later (c0 c1 c2 c3 s : PSt) : Prop :=
  exists S limb l k n0 n1 x0 x1, moves_twice S c0 c1 c2 c3 /\ limb ∈ S /\ (forall e, e ∈ S -> str_le limb e) /\
    (forall e, gained c1 c2 e <-> e = k) /\ limbsOf B !! limb = Some l /\
    normals c0 !! limb = Some n0 /\ positions c0 !! limb = Some x0 /\ normals c1 !! limb = Some n1 /\ positions c1 !! limb = Some x1 /\
    dist3 (vsub x1 (vscale (1 / 100) n1)) (vsub x0 (vscale (1 / 100) n0)) < 1 / 10 /\
    contact_redone limb l c2 (configuration c0) n0 (vsub (vadd x0 (loffset l)) (vscale (1 / 100) n0)) (configuration c2) s /\
    reach c0 s /\ reach s c3.
End replace.
(** Wherever four frames follow each other such that [Q] holds of a state [s], the two in the middle
    may have been replaced by [s], at the time of the second ([later] = false) or the third *)
Inductive replaced (Q : PSt -> PSt -> PSt -> PSt -> PSt -> Prop) (later : bool) : list sframe -> list sframe -> Prop :=
| rp_same l : replaced Q later l l
| rp_keep c l r : replaced Q later l r -> replaced Q later (c :: l) (c :: r)
| rp_replace c0 c1 c2 c3 rest r s : Q (snd c0) (snd c1) (snd c2) (snd c3) s -> replaced Q later (c3 :: rest) r ->
    replaced Q later (c0 :: c1 :: c2 :: c3 :: rest) (c0 :: (fst (if later then c2 else c1), s) :: r).

(** at most one contact is gained, at most one is lost *)
Definition one_change (a b : PSt) : Prop :=
  (forall k k', gained a b k -> gained a b k' -> k = k') /\ (forall k k', lost a b k -> lost a b k' -> k = k').
(** ... besides [limb] *)
Definition one_change_besides (limb : string) (a b : PSt) : Prop :=
  (forall k k', k <> limb -> k' <> limb -> gained a b k -> gained a b k' -> k = k') /\
  (forall k k', k <> limb -> k' <> limb -> lost a b k -> lost a b k' -> k = k').
(** one change, and the contact of [limb] more than 1 cm away from where it was *)
Definition slipped (limb : string) (a b : PSt) : Prop :=
  exists x y, positions a !! limb = Some x /\ positions b !! limb = Some y /\ 1 / 100 < dist3 x y /\ one_change_besides limb a b.
(** the rotation aimed at with normal [n] leaves the offset of the limb where it is: horizontal contact and
    vertical offset, for instance, or no offset *)
Definition steady_offset (axis : vec3 -> vec3 -> vec3) (B : fullbody) (l : plimb) (f : frame) (n : vec3) : Prop :=
  forall q p, mapp (rot (computeProjectionMatrix B axis l f q n p mzero)) (loffset l) = loffset l.
Definition steady_offsets (axis : vec3 -> vec3 -> vec3) (B : fullbody) (fs : list sframe) : Prop :=
  forall a limb l f n, a ∈ fs -> limbsOf B !! limb = Some l -> frames (dev B) !! effName l = Some f -> normals (snd a) !! limb = Some n ->
    steady_offset axis B l f n /\ vnorm2 n <= 1.
(** a limb that has not moved by more than 1 cm has not moved *)
Definition separated (l : list sframe) : Prop :=
  forall a b k p q, a ∈ l -> b ∈ l -> positions (snd a) !! k = Some p -> positions (snd b) !! k = Some q -> dist3 p q <= 1 / 100 -> p = q.
(** states with the same configuration have the same contacts *)
Definition placed (l : list sframe) : Prop :=
  forall i a b, l !! i = Some a -> l !! S i = Some b ->
    same_conf (configuration (snd b)) (configuration (snd a)) ->
    forall k, ~ gained (snd a) (snd b) k /\ ~ lost (snd a) (snd b) k.

(** ** Runs *)
Section runs.
Variable compute : nat -> PSt -> list R -> vec3 -> vec3 -> R -> creport.
Variables (confSize extra : nat).
Variable configs : list (list R).
(** all configurations have the size of the robot's, and extra dofs hold no acceleration, or all of it;
    [good]: what is known of the states met *)
Definition sized_by (start : PSt) (good : PSt -> Prop) : Prop :=
  (7 <= confSize)%nat /\ (extra <= confSize)%nat /\ ((extra <= 3)%nat \/ (6 <= extra)%nat) /\
  good start /\ (forall c, c ∈ configs -> length c = confSize) /\ (forall s, good s -> length (configuration s) = confSize) /\
  forall k prev c d a t, good prev -> length c = confSize -> forall s, counted (crResult (compute k prev c d a t)) s -> good s.
Definition sized (start : PSt) : Prop := exists good, sized_by start good.
(** the answer to call number [k] may be a failure or the break of several contacts; may be a
    repositioning *)
Definition refused (k : nat) : Prop := exists prev c d a t, let r := compute k prev c d a t in crOk r = false \/ crMulti r = true.
Definition repositions (k : nat) : Prop := exists prev c d a t, crRepos (compute k prev c d a t) = true.
(** the acceleration is read after the root's velocity, in the extra dofs *)
Definition acceleration_of (c : list R) (a : vec3) : Prop :=
  ((6 <= extra)%nat -> forall j, (j < 3)%nat -> [vx a; vy a; vz a] !! j = c !! (confSize - extra + 3 + j)%nat) /\
  ((extra <= 3)%nat -> a = vzero).
Variable step : R.
(** [out]: the states kept when the configurations of the list are considered one after the other;
    [k] calls were made, [t] is the time, [last] the last state kept, [joints] the last
    configuration computed *)
Inductive followed : nat -> R -> sframe -> list R -> list (list R) -> list sframe -> Prop :=
| fo_end k t last joints : followed k t last joints [] []
| fo_same k t last joints conf rest out c a :
    mixed 7 extra joints conf c -> acceleration_of c a ->
    unchanged (compute k (snd last) c (V3 0 0 1) a t) ->
    followed (S k) (t + step) last (configuration (crResult (compute k (snd last) c (V3 0 0 1) a t))) rest out ->
    followed k t last joints (conf :: rest) out
| fo_new k t last joints conf rest out c a s :
    mixed 7 extra joints conf c -> acceleration_of c a ->
    ~ unchanged (compute k (snd last) c (V3 0 0 1) a t) ->
    counted (crResult (compute k (snd last) c (V3 0 0 1) a t)) s ->
    followed (S k) (t + step) (t, s) (configuration s) rest out ->
    followed k t last joints (conf :: rest) ((t, s) :: out).
(** all the calls made along this list succeed, without repositioning *)
Inductive smooth : nat -> R -> sframe -> list R -> list (list R) -> Prop :=
| sm_end k t last joints : smooth k t last joints []
| sm_call k t last joints conf rest :
    (forall c a, mixed 7 extra joints conf c -> acceleration_of c a ->
       let r := compute k (snd last) c (V3 0 0 1) a t in
       (crOk r = true /\ crMulti r = false /\ crRepos r = false) /\
       (unchanged r -> smooth (S k) (t + step) last (configuration (crResult r)) rest) /\
       (~ unchanged r -> forall s, counted (crResult r) s -> smooth (S k) (t + step) (t, s) (configuration s) rest)) ->
    smooth k t last joints (conf :: rest).
End runs.

(** [configs]: the path [p], whose configurations have [n] entries (the last [extra] are extra
    dofs), sampled every [step] and at its end, after the configuration of the start; the entries
    the path does not describe are those of the start *)
Definition path_sampled (extra : nat) (p : R -> list R) (n : nat) (start : list R) (t0 t1 step : R) (K : nat) (configs : list (list R)) : Prop :=
  (1 <= K)%nat /\ (forall k, (1 <= k < K)%nat -> t0 + INR k * step < t1) /\ t1 <= t0 + INR K * step /\
  length configs = S K /\ configs !! 0%nat = Some start /\
  (forall k, (1 <= k < K)%nat -> exists c, configs !! k = Some c /\ mixed (n - extra) extra start (p (t0 + INR k * step)) c) /\
  exists c, configs !! K = Some c /\ mixed (n - extra) extra start (p t1) c.
