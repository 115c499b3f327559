(** Which side of a triangle is its front, and descriptors for which that is the outside. *)
From Coq Require Import Reals.
From Verif Require Import Model.Vec Model.Aabb Model.Interp Model.MeshGen Spec.MeshGenSpec.
Local Open Scope R_scope.

(** The normal vector of a triangle in the order of its corners *)
Definition front (t : vertex * vertex * vertex) : vec3 :=
  let '(a, b, c) := t in cross (vsub (position b) (position a)) (vsub (position c) (position a)).
(** The triangle is degenerate, or its front looks in the direction [dir] of each of its corners. *)
Definition faces (dir : vertex -> vec3) (t : vertex * vertex * vertex) : Prop :=
  front t = vzero \/
  let '(a, b, c) := t in 0 < dot (front t) (dir a) /\ 0 < dot (front t) (dir b) /\ 0 < dot (front t) (dir c).

(** All extents are positive, and cross sections are circles. *)
Definition round (d : descriptor) : Prop :=
  match d with
  | DCuboid d => 0 < vx (cu_size d) /\ 0 < vy (cu_size d) /\ 0 < vz (cu_size d)
  | DEllipsoid d => exists r, 0 < r /\ el_radius d = V3 r r r
  | DCone d => 0 < co_height d /\ exists r, 0 < r /\ co_radius d = V2 r r
  | DCylinder d => 0 < cy_height d /\ exists r, 0 < r /\ cy_radius d = V2 r r
  | DPie d => 0 < pi_height d /\ exists r, 0 < r /\ pi_radius d = V2 r r
  | DPipe d => 0 < pp_height d /\ exists r R, 0 < r < R /\ pp_inner d = V2 r r /\ pp_outer d = V2 R R
  | DCapsule d => 0 < ca_height d /\ exists r, 0 < r /\ ca_radius d = V3 r r r
  | DTorus d => exists r R, 0 < r <= R /\ to_tube d = V3 r r r /\ to_ring d = V2 R R
  | DKnot _ | DSpiral _ | DCurve _ | DBezier _ => False
  end.

(** Solids around the origin; all extents are positive. *)
Definition positive2 (r : vec2) : Prop := 0 < x2 r /\ 0 < y2 r.
Definition positive3 (r : vec3) : Prop := 0 < vx r /\ 0 < vy r /\ 0 < vz r.
Definition convex_solid (d : descriptor) : Prop :=
  match d with
  | DCuboid d => positive3 (cu_size d)
  | DEllipsoid d => positive3 (el_radius d)
  | DCone d => 0 < co_height d /\ positive2 (co_radius d)
  | DCylinder d => 0 < cy_height d /\ positive2 (cy_radius d)
  | DCapsule d => 0 < ca_height d /\ positive3 (ca_radius d)
  | DPie _ | DPipe _ | DTorus _ | DKnot _ | DSpiral _ | DCurve _ | DBezier _ => False
  end.
