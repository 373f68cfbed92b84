(** The vocabulary of GeomSpec with the code's isLeft for orient: equal as functions. *)
From Verif Require Import Maps Vec GeomModel GeomSpec.
From Coq Require Import FunctionalExtensionality.
Lemma isLeft_orient a b p : isLeft a b p = orient a b p.
Proof. unfold isLeft, orient. ring. Qed.
Lemma isLeft_is_orient : isLeft = orient.
Proof. extensionality a. extensionality b. extensionality p. apply isLeft_orient. Qed.
Notation general_position := (general_position_ isLeft).
Notation right_of := (right_of_ isLeft).
Notation convex_polygon := (convex_polygon_ isLeft).
Notation inside_edges := (inside_edges_ isLeft).
Notation weakly_convex := (weakly_convex_ isLeft).
Notation triangle_area2 := (triangle_area_ isLeft).
Notation fan_area := (fan_area_ isLeft).
Notation line_crossing := (line_crossing_ isLeft).
