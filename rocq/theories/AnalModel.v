(** Model of src/sampling/analysis.cc.  Exact reals instead of doubles; the results of
    Eigen's SVD, of pinocchio's difference and of the collision validation are inputs. *)
From Verif Require Export Maps Vec SampModel.
Local Open Scope R_scope.

(** analysis.cc:33-37 *)
Inductive JacobianMode := ALL | ROTATION | TRANSLATION.

(** row [i] of a matrix (as used at analysis.cc:42-73) *)
Definition mrow (m : matrix R) (i : nat) : list R := take (mcols m) (drop (i * mcols m) (mdata m)).
Definition ldot (a b : list R) : R := fold_right Rplus 0 (zip_with Rmult a b).

(** Eigen determinant(): expansion along the first row (Eigen uses a factorisation or
    explicit formulas; the same in exact arithmetic) (used at analysis.cc:63-71) *)
Fixpoint det (n : nat) (rows : list (list R)) : R :=
  match n, rows with
  | S n', r :: rows' =>
    fold_right Rplus 0
      (imap (fun j x => (if Nat.even j then 1 else -1) * x * det n' (map (delete j) rows')) r)
  | _, _ => 1
  end.
Definition rowsOf (m : matrix R) : list (list R) := map (mrow m) (seq 0 (mrows m)).

(** mat * mat.transpose() for a list of rows (used at analysis.cc:67, 71) *)
Definition gram (rows : list (list R)) : list (list R) := map (fun a => map (ldot a) rows) rows.

(** jacobian_.block(r, 0, 3, cols): an Eigen assertion / undefined when there are fewer rows (used at analysis.cc:46-49, 66-70) *)
Definition threeRows (m : matrix R) (r : nat) : outcome (list (list R)) :=
  if (r + 3 <=? mrows m)%nat then Ok [mrow m r; mrow m (r + 1); mrow m (r + 2)] else Ub.

(** analysis.cc:57-79 *)
Definition manipulability (mode : JacobianMode) (s : sample R) : outcome R :=
  let val d := if Rltb 0 d then sqrt d else 0 in
  let sub r := match threeRows (jacobian (content s)) r with
               | Ok rows => Ok (val (det 3 (gram rows)))
               | Throw => Throw
               | Ub => Ub end in
  match mode with
  | ALL => Ok (val (det (mrows (jacobianProduct (content s))) (rowsOf (jacobianProduct (content s)))))
  | TRANSLATION => sub 0%nat
  | ROTATION => sub 3%nat
  end.

(** analysis.cc:81-93, from the singular values on; [None] is NaN *)
Definition isotropy (dmax : R) (sv : list R) : option R :=
  let mn := fold_left (fun m v => if Rltb v m then v else m) sv dmax in
  let mx := fold_left (fun m v => if Rltb m v then v else m) sv 0 in
  if Rltb 0 mx then
    let d := 1 - mn * mn / mx * mx in
    if Rltb d 0 then None else Some (1 - sqrt d)
  else Some 0.
(** analysis.cc:95-105 *)
Definition minSing (dmax : R) (sv : list R) : R := fold_left (fun m v => if Rltb v m then v else m) sv dmax.
(** analysis.cc:107-117 *)
Definition maxSing (dmax : R) (sv : list R) : R := fold_left (fun m v => if Rltb m v then v else m) sv (- dmax).

(** the joints of the robot: name, rank in the configuration, bounds of the first degree of
    freedom if it has one that is bounded, children (read at analysis.cc:250-330) *)
Inductive joint := Joint (name : string) (rank : nat) (bounds : option (R * R)) (children : list joint).

(** analysis.cc:186-203.  [None] is minus infinity.  A joint whose two bounds are
    equal: 0/0 is NaN, which std::min(current, NaN) ignores; -x/0 is minus infinity *)
Definition nearBounds (conf : list R) (rank : nat) (bounds : option (R * R)) (cur : option R)
  : outcome (option R) :=
  match bounds with
  | None => Ok cur
  | Some (lb, ub) =>
    match conf !! rank with
    | None => Ub
    | Some v =>
      if Req_EM_T (ub - lb) 0 then
        Ok (if Req_EM_T (v - lb) 0 then cur else None)
      else
        Ok (match cur with
            | None => None
            | Some d => Some (Rmin d ((v - lb) * (ub - v) / ((ub - lb) * (ub - lb))))
            end)
    end
  end.
Fixpoint distanceRec (conf : list R) (last : string) (j : joint) (cur : option R) : outcome (option R) :=
  match j with
  | Joint name rank bounds children =>
    match nearBounds conf rank bounds cur with
    | Ok cur' =>
      match children with
      | [] => Ok cur'
      | c :: _ => if bool_decide (last = name) then Ok cur' else distanceRec conf last c cur'
      end
    | res => res
    end
  end.

(** what the analyses use of a limb: the first joint, its ranks in the configuration and
    the velocity, the name of the effector and the rank of its joint in the velocity (rbprm-limb.hh:122-138) *)
Record alimb := mkALimb {
  l_joint : joint; l_rank : nat; l_vrank : nat; l_effector : string; l_evrank : nat
}.

(** analysis.cc:205-221; the two tables of the full body *)
Definition findRank (rank : nat) (m : gmap string alimb) : option alimb :=
  match list_find (fun nl : string * alimb => l_rank nl.2 = rank) (sitems m) with
  | Some (_, (_, l)) => Some l
  | None => None
  end.
Definition getLimbFromStartRank (rank : nat) (limbs nonContacting : gmap string alimb) : outcome alimb :=
  match findRank rank limbs with
  | Some l => Ok l
  | None => match findRank rank nonContacting with
            | Some l => Ok l
            | None => Throw
            end
  end.

(** analysis.cc:223-236; [q] is the device's current configuration *)
Definition distanceToLimits (limbs nonContacting : gmap string alimb) (q : list R) (s : sample R)
  : outcome (option R) :=
  match getLimbFromStartRank (startRank (content s)) limbs nonContacting with
  | Ok l =>
    match Load (content s) q with
    | Ok conf =>
      match distanceRec conf (l_effector l) (l_joint l) (Some 1) with
      | Ok (Some d) => Ok (Some (1 - exp (-5 * d)))
      | Ok None => Ok None
      | Throw => Throw
      | Ub => Ub
      end
    | Throw => Throw
    | Ub => Ub
    end
  | Throw => Throw
  | Ub => Ub
  end.

(** analysis.cc:254-279; [axis i] are the entries 4 and 5 of column [i] of the jacobian of
    the joint at velocity rank [i].  The number of entries: ranks from l_vrank to l_evrank *)
Definition axisWeight (yz : R * R) : R :=
  if Rltb (1/2) (Rabs yz.1) then 1 else if Rltb (1/2) (Rabs yz.2) then 10 else 100.
Definition dofs (l : alimb) : list nat := seq (l_vrank l) (S (l_evrank l) - l_vrank l).
Definition computeWeightsFromAxis (axis : nat -> R * R) (l : alimb) : list R :=
  map (fun i => axisWeight (axis i)) (dofs l).

(** analysis.cc:302-315: postureWeights().segment(...), Ub if out of range *)
Definition weightsOf (axis : nat -> R * R) (posture : list R) (numberDof : nat) (l : alimb) : outcome (list R) :=
  if (length posture =? numberDof)%nat then
    (if (l_vrank l <=? l_evrank l)%nat && (S (l_evrank l) <=? numberDof)%nat
     then Ok (take (S (l_evrank l) - l_vrank l) (drop (l_vrank l) posture)) else Ub)
  else Ok (computeWeightsFromAxis axis l).

(** analysis.cc:326-330 *)
Fixpoint weightedSquares (diff : list R) (ws : list R) (is : list nat) (acc : R) : outcome R :=
  match is, ws with
  | [], _ => Ok acc
  | i :: is', w :: ws' =>
    match diff !! i with
    | None => Ub
    | Some d => weightedSquares diff ws' is' (acc + (d * d) * w)
    end
  | _, [] => Ub
  end.
(** analysis.cc:288-339; [diffTo] is pinocchio's difference of a configuration and the
    reference one.  [None] is NaN: the root of a negative number *)
Definition referenceConfiguration (limbs nonContacting : gmap string alimb) (axis : nat -> R * R)
  (posture : list R) (numberDof : nat) (diffTo : list R -> list R) (q : list R) (s : sample R)
  : outcome (option R) :=
  match getLimbFromStartRank (startRank (content s)) limbs nonContacting with
  | Ok l =>
    match Load (content s) q with
    | Ok conf =>
      match weightsOf axis posture numberDof l with
      | Ok ws =>
        match weightedSquares (diffTo conf) ws (dofs l) 0 with
        | Ok d => Ok (if Rltb d 0 then None else Some (100 - sqrt d))
        | Throw => Throw
        | Ub => Ub
        end
      | Throw => Throw
      | Ub => Ub
      end
    | Throw => Throw
    | Ub => Ub
    end
  | Throw => Throw
  | Ub => Ub
  end.

(** analysis.cc:131-153: [shots] are the configurations the uniform shooter draws one after
    the other, an endless stream; [None]: still searching after [fuel] shots *)
Fixpoint generateFullBodyDB {Q : Type} (valid : Q -> bool) (shots : nat -> Q) (fuel k : nat) (missing : nat)
  (db : list Q) : option (list Q) :=
  match missing with
  | O => Some db
  | S missing' =>
    match fuel with
    | O => None
    | S fuel' =>
      if valid (shots k) then generateFullBodyDB valid shots fuel' (S k) missing' (db ++ [shots k])
      else generateFullBodyDB valid shots fuel' (S k) missing db
    end
  end.
(** analysis.cc:123-129: the one database of the program, filled with whatever device asks *)
Definition fullBodyInstance {Q : Type} (valid : Q -> bool) (shots : nat -> Q) (fuel nbSamples : nat) (db : list Q)
  : option (list Q) :=
  if (length db <? nbSamples)%nat then generateFullBodyDB valid shots fuel 0 (nbSamples - length db) db
  else Some db.

(** analysis.cc:160-184; the database is that of [fullBodyInstance] *)
Fixpoint countFree (valid : list R -> bool) (s : scontent R) (db : list (list R)) (count : nat) : outcome nat :=
  match db with
  | [] => Ok count
  | q :: db' =>
    match Load s q with
    | Ok q' => countFree valid s db' (if valid q' then S count else count)
    | Throw => Throw
    | Ub => Ub
    end
  end.
Definition nbFullBody : nat := Z.to_nat 10000.
Definition selfCollisionProbability (valid : list R -> bool) (shots : nat -> list R) (fuel : nat)
  (db : list (list R)) (s : sample R) : option (outcome R * list (list R)) :=
  match fullBodyInstance valid shots fuel nbFullBody db with
  | None => None
  | Some db' =>
    Some (match countFree valid (content s) db' 0 with
          | Ok n => Ok (INR n / INR (length db'))
          | Throw => Throw
          | Ub => Ub
          end, db')
  end.

(** analysis.cc:391-396 *)
Definition AddAnalysis {E : Type} (name : string) (f : E) (m : gmap string E) : bool * gmap string E :=
  match m !! name with
  | Some _ => (false, m)
  | None => (true, <[name := f]> m)
  end.
(** analysis.cc:343-387: the analyses of a new factory *)
Definition analysisNames : list string :=
  ["manipulability"; "isotropy"; "minimumSingularValue"; "maximumSingularValue";
   "manipulabilityRot"; "isotropyRot"; "minimumSingularValueRot"; "maximumSingularValueRot";
   "manipulabilityTr"; "isotropyTr"; "minimumSingularValueTr"; "maximumSingularValueTr";
   "selfCollisionProbability"; "jointLimitsDistance"; "ReferenceConfiguration"]%string.
