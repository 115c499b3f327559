(** Triangles whose front is on the side of two of their corners. *)
From Coq Require Import Reals.
From Verif Require Import Model.Vec Model.Aabb Model.Interp Model.MeshGen Spec.WindingSpec.
Local Open Scope R_scope.

(** The front looks in the direction [dir] of at least two corners. *)
Definition faces_two (dir : vertex -> vec3) (t : vertex * vertex * vertex) : Prop :=
  let '(a, b, c) := t in let g v := 0 < dot (front t) (dir v) in (g a /\ g b) \/ (g b /\ g c) \/ (g a /\ g c).
Definition all_corners (P : vertex -> Prop) (t : vertex * vertex * vertex) : Prop := let '(a, b, c) := t in P a /\ P b /\ P c.

(** The same triangle, beginning with any of its corners *)
Definition same_triangle {A} (t t' : A * A * A) : Prop := let '(a, b, c) := t' in t = (a, b, c) \/ t = (b, c, a) \/ t = (c, a, b).
