(** Specification vocabulary of the RbPrmDevice property. *)
From Verif Require Import DevModel.
Section D.
Context {T V : Type}.
(** every ROM is in the configuration of the base, with as many extra variables *)
Definition in_step (d : rbdevice T V) : Prop :=
  forall n r, roms d !! n = Some r -> dconf r = dconf (base d) /\ dextra r = dextra (base d).

(** the reference read after a history: the last one set, unspecified if none *)
Definition last_ref (rom : string) (ops : list (dev_op T V)) : option V :=
  fold_left (fun acc o => match o with DRef r v => if bool_decide (r = rom) then Some v else acc | _ => acc end) ops None.
End D.
