(** Specification vocabulary for the text of a State. *)
From Coq Require Import Ascii String.
From Verif Require Import Maps Vec StateModel StateSpec StateReal PrintModel.
Local Open Scope string_scope.

(** a name without its first character *)
Definition label (k : string) : string := match k with EmptyString => "" | String _ t => t end.
(** position and rotation (row by row) of contact [k] *)
Definition contactNumbers (s : PState) (k : string) (l : list R) : Prop :=
  exists p a b c, positions s !! k = Some p /\ rotations s !! k = Some ((a, b, c) : rows) /\
    l = [vx p; vy p; vz p; vx a; vy a; vz a; vx b; vy b; vz b; vx c; vy c; vz c].
(** words separated by spaces, then the end of the line *)
Definition line (words : list string) : string := String.concat " " words ++ eol.
Definition lines (num : R -> string) (names : list string) (ls : list (list R)) : string :=
  String.concat "" (zip_with (fun k l => line (label k :: map num l)) names ls).
Definition configLine (num : R -> string) (q : list R) : string :=
  "configuration " ++ String.concat "" (map (fun x => " " ++ num x) q) ++ eol ++ " " ++ eol.

(** no space and no end of line in the text *)
Fixpoint oneWord (w : string) : Prop :=
  match w with
  | EmptyString => True
  | String c w' => c <> " "%char /\ c <> "010"%char /\ oneWord w'
  end.
