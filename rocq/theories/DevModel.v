(** Model of RbPrmDevice (src/rbprm-device.cc). *)
From Verif Require Export Maps.

(** what is used of hpp::pinocchio::Device: its current configuration and the
    number of extra configuration variables *)
Record device (T : Type) := mkDev { dconf : list T; dextra : nat }.
Arguments mkDev {T}.
Arguments dconf {T}.
Arguments dextra {T}.
(** rbprm-device.hh:86, 97: the base, the ROMs (robotRoms_), effectorsReferences_ *)
Record rbdevice (T V : Type) := mkRbDev {
  base : device T;
  roms : gmap string (device T);
  refs : gmap string V
}.
Arguments mkRbDev {T V}.
Arguments base {T V}.
Arguments roms {T V}.
Arguments refs {T V}.

Section D.
Context {T V : Type} `{EqDecision T}.
(** Device::setDimensionExtraConfigSpace changes the size of the configuration:
    [resize old new q]; Eigen's uninitialised vector3_t() is [uninit] *)
Variable resize : nat -> nat -> list T -> list T.
Variable uninit : V.

(** Device::currentConfiguration(q): true iff [q] differs from the current one *)
Definition setConf (q : list T) (d : device T) : bool * device T :=
  if bool_decide (q = dconf d) then (false, d) else (true, mkDev q (dextra d)).
(** src/rbprm-device.cc:51-57: only the base's result is returned *)
Definition currentConfiguration (q : list T) (d : rbdevice T V) : bool * rbdevice T V :=
  let roms' := (fun r => snd (setConf q r)) <$> roms d in
  let '(b, base') := setConf q (base d) in
  (b, mkRbDev base' roms' (refs d)).
Definition setExtra (n : nat) (d : device T) : device T := mkDev (resize (dextra d) n (dconf d)) n.
(** src/rbprm-device.cc:59-66 *)
Definition setDimensionExtraConfigSpace (n : nat) (d : rbdevice T V) : rbdevice T V :=
  mkRbDev (setExtra n (base d)) (setExtra n <$> roms d) (refs d).
(** src/rbprm-device.cc:68-75 *)
Definition getEffectorReference (rom : string) (d : rbdevice T V) : V :=
  match refs d !! rom with None => uninit | Some v => v end.
(** src/rbprm-device.cc:77-84 *)
Definition setEffectorReference (rom : string) (v : V) (d : rbdevice T V) : rbdevice T V :=
  match refs d !! rom with
  | None => mkRbDev (base d) (roms d) (<[rom := v]> (refs d))
  | Some _ => mkRbDev (base d) (roms d) (<[rom := v]> (refs d))
  end.

Inductive dev_op := DConf (q : list T) | DExtra (n : nat) | DRef (rom : string) (v : V).
Definition dev_step (d : rbdevice T V) (o : dev_op) : rbdevice T V :=
  match o with
  | DConf q => snd (currentConfiguration q d)
  | DExtra n => setDimensionExtraConfigSpace n d
  | DRef rom v => setEffectorReference rom v d
  end.
Definition dev_run (d : rbdevice T V) (ops : list dev_op) : rbdevice T V := fold_left dev_step ops d.
End D.
Arguments dev_op : clear implicits.
