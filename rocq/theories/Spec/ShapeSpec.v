(** Boxes, triangles: what their sizes and angles mean. *)
From Coq Require Import ZArith Reals List.
From Verif Require Import Model.Vec Model.Plane Model.Tri Spec.PlaneSpec.
Import ListNotations.
Local Open Scope R_scope.

(** The interval around [c] of length [s], and the two bounds in ascending order *)
Definition around_center (c s : R) : R * R := (c - s / 2, c + s / 2).
Definition ascending (i : R * R) : R * R := (Rmin (fst i) (snd i), Rmax (fst i) (snd i)).
(** A number of 32 bits *)
Definition is_int32 (x : Z) : Prop := (- 2 ^ 31 <= x < 2 ^ 31)%Z.
(** One of the middle numbers of an interval *)
Definition middle (i : Z * Z) (c : Z) : Prop := (Z.abs (2 * c - (fst i + snd i)) <= 1)%Z.

(** The points of the solid spanned by half axes [x], [y] and [z] around a center *)
Definition in_solid (center x y z p : vec3) : Prop :=
  exists u v w, Rabs u <= 1 /\ Rabs v <= 1 /\ Rabs w <= 1 /\ p = vadd center (vadd (vscale u x) (vadd (vscale v y) (vscale w z))).

Definition distinct (t : triangle) : Prop := pa t <> pb t /\ pb t <> pc t /\ pc t <> pa t.
(** The point of the line through [a] and [b] *)
Definition along (a b : vec3) (t : R) : vec3 := vadd a (vscale t (vsub b a)).
