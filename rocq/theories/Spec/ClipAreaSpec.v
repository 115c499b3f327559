(** Surface and enclosed volume of a mesh, for clipping (C87). *)
From Coq Require Import Reals List.
From Verif Require Import Model.Vec Model.Plane Model.Mesh Model.Interp Spec.PlaneSpec.
Import ListNotations.
Local Open Scope R_scope.

(** The sum of a quantity over all triangles of a mesh *)
Definition total (q : vec3 -> vec3 -> vec3 -> R) (m : mesh vertex) : R :=
  fold_right Rplus 0 (map (fun t => match t with Some (a, b, c) => q (position a) (position b) (position c) | None => 0 end) (triangle_list m)).

(** The area of a triangle *)
Definition tri_surface (a b c : vec3) : R := len (cross (vsub b a) (vsub c a)) / 2.
(** The volume of its tetrahedron with the origin; the sum over a closed mesh is the volume inside *)
Definition tri_volume (a b c : vec3) : R := dot a (cross b c) / 6.
(** The area of its shadow in the direction n, negative if it is seen from the back *)
Definition tri_shadow (n a b c : vec3) : R := dot n (cross (vsub b a) (vsub c a)) / 2.

Definition surface := total tri_surface.
Definition enclosed := total tri_volume.
Definition shadow (n : vec3) := total (tri_shadow n).

(** No corner is nearer to the plane than the tolerance, except on the plane itself. *)
Definition clear_of (pl : plane) (eps : R) (m : mesh vertex) : Prop :=
  forall a b c v, In (Some (a, b, c)) (triangle_list m) -> v = a \/ v = b \/ v = c -> let d := side false pl (position v) in d = 0 \/ eps < Rabs d.
