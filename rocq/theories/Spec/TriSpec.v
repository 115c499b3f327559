(** Triangles as sets of points. *)
From Coq Require Import Reals.
From Verif Require Import Model.Vec Model.Plane Model.Tri Spec.InterpSpec Spec.ClipSpec Spec.PlaneSpec.
Local Open Scope R_scope.

Definition in_triangle (t : triangle) (x : vec3) : Prop := in_tri (pa t) (pb t) (pc t) x.
(** The corners are not on one line. *)
Definition proper (t : triangle) : Prop := cross (vsub (pb t) (pa t)) (vsub (pc t) (pa t)) <> vzero.
Definition proper2 (t : triangle2) : Prop :=
  (x2 (b2 t) - x2 (a2 t)) * (y2 (c2 t) - y2 (a2 t)) - (y2 (b2 t) - y2 (a2 t)) * (x2 (c2 t) - x2 (a2 t)) <> 0.
(** Height above the plane of the triangle, times twice its area: positive on the side from which the corners a, b, c appear
    anticlockwise. *)
Definition above (t : triangle) (x : vec3) : R := dot (cross (vsub (pb t) (pa t)) (vsub (pc t) (pa t))) (vsub x (pa t)).
Definition coplanar (t : triangle) (x : vec3) : Prop := above t x = 0.
(** [u + v + w = 1] *)
Definition affine_weights (w : vec3) : Prop := vx w + vy w + vz w = 1.
(** A plane is the plane of the triangle. *)
Definition is_plane_of (alt : bool) (p : plane) (t : triangle) : Prop :=
  normal p <> vzero /\ on_plane alt p (pa t) /\ on_plane alt p (pb t) /\ on_plane alt p (pc t).
(** A direction points to the side of the triangle from which its corners appear clockwise: from front to back. *)
Definition enters (t : triangle) (d : vec3) : Prop := dot (cross (vsub (pb t) (pa t)) (vsub (pc t) (pa t))) d < 0.
