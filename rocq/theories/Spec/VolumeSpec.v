(** The volume enclosed by triangles, and the volumes of the solids of the mesh generators (C83). *)
From Coq Require Import Reals List Arith Bool.
From Verif Require Import Model.Vec Model.Interp Model.MeshGen Spec.MeshGenSpec Spec.ClosedSpec Spec.WindingSpec.
Import ListNotations.
Local Open Scope R_scope.

(** The tetrahedron of a triangle and the origin; negative if the origin is on the front side *)
Definition tetrahedron (t : vec3 * vec3 * vec3) : R := let '(a, b, c) := t in dot a (cross b c) / 6.
Definition volume (l : list (vec3 * vec3 * vec3)) : R := fold_right Rplus 0 (map tetrahedron l).

(** Area of n triangles that fill a sector of the unit circle *)
Definition sector (n : nat) (angle : R) : R := INR n / 2 * sin (angle / INR n).
(** Area of the regular polygon with n corners in the unit circle *)
Definition ngon (n : nat) : R := sector n (2 * PI).

(** Solids whose volume is known: all covers are there *)
Definition measured (d : descriptor) : Prop :=
  solid d /\
  match d with
  | DKnot _ | DSpiral _ | DCurve _ | DBezier _ => False
  | _ => True
  end.

(** The angle that remains of a pie *)
Definition remaining (d : pie) : R := 2 * PI - Rmin (Rmax (pi_angle d) 0) (2 * PI).

(** The cells of a torus are not flat if ring and tube have different proportions, but choosing the other diagonals almost never changes the volume.  The exception: with
    four segments both ways and alternating diagonals all of them bend the surface the same way. *)
Definition bent_torus (d : torus) : R :=
  if to_alt d && (Nat.max 3 (to_u d) =? 4)%nat && (Nat.max 3 (to_v d) =? 4)%nat then 4 / 3 * (x2 (to_ring d) * vz (to_tube d) - y2 (to_ring d) * vx (to_tube d)) * vy (to_tube d) else 0.

(** The volume of the mesh: polygons take the place of circles. *)
Definition mesh_volume (d : descriptor) : R :=
  match d with
  | DCuboid d => vx (cu_size d) * vy (cu_size d) * vz (cu_size d)
  | DEllipsoid d =>
    4 / 3 * (vx (el_radius d) * vy (el_radius d) * vz (el_radius d)) * ngon (Nat.max 3 (el_u d)) * cos (PI / (2 * INR (Nat.max 2 (el_v d)))) ^ 2
  | DCone d => 1 / 3 * (x2 (co_radius d) * y2 (co_radius d)) * co_height d * ngon (Nat.max 3 (co_u d))
  | DCylinder d => x2 (cy_radius d) * y2 (cy_radius d) * cy_height d * ngon (Nat.max 3 (cy_u d))
  | DPipe d => (x2 (pp_outer d) * y2 (pp_outer d) - x2 (pp_inner d) * y2 (pp_inner d)) * pp_height d * ngon (Nat.max 3 (pp_u d))
  | DPie d => x2 (pi_radius d) * y2 (pi_radius d) * pi_height d * sector (Nat.max 3 (pi_u d)) (remaining d)
  | DCapsule d =>
    vx (ca_radius d) * vz (ca_radius d) * (ca_height d + 4 / 3 * vy (ca_radius d) * cos (PI / (4 * INR (Nat.max 2 (ca_cap d)))) ^ 2) * ngon (Nat.max 3 (ca_u d))
  | DTorus d => (x2 (to_ring d) * vz (to_tube d) + y2 (to_ring d) * vx (to_tube d)) * vy (to_tube d) * ngon (Nat.max 3 (to_u d)) * ngon (Nat.max 3 (to_v d)) + bent_torus d
  | DKnot _ | DSpiral _ | DCurve _ | DBezier _ => 0
  end.

(** The volume of the solid itself *)
Definition exact_volume (d : descriptor) : R :=
  match d with
  | DCuboid d => vx (cu_size d) * vy (cu_size d) * vz (cu_size d)
  | DEllipsoid d => 4 / 3 * PI * (vx (el_radius d) * vy (el_radius d) * vz (el_radius d))
  | DCone d => 1 / 3 * PI * (x2 (co_radius d) * y2 (co_radius d)) * co_height d
  | DCylinder d => PI * (x2 (cy_radius d) * y2 (cy_radius d)) * cy_height d
  | DPipe d => PI * (x2 (pp_outer d) * y2 (pp_outer d) - x2 (pp_inner d) * y2 (pp_inner d)) * pp_height d
  | DPie d => remaining d / 2 * (x2 (pi_radius d) * y2 (pi_radius d)) * pi_height d
  | DCapsule d => PI * (vx (ca_radius d) * vz (ca_radius d)) * (ca_height d + 4 / 3 * vy (ca_radius d))
  | DTorus d => PI ^ 2 * (x2 (to_ring d) * vz (to_tube d) + y2 (to_ring d) * vx (to_tube d)) * vy (to_tube d)
  | DKnot _ | DSpiral _ | DCurve _ | DBezier _ => 0
  end.

(** How much of it the mesh may lack, as a fraction *)
Definition lacks (d : descriptor) : R :=
  let circle n := 2 * PI ^ 2 / (3 * INR n ^ 2) in
  match d with
  | DEllipsoid d => circle (Nat.max 3 (el_u d)) + PI ^ 2 / (4 * INR (Nat.max 2 (el_v d)) ^ 2)
  | DCone d => circle (Nat.max 3 (co_u d))
  | DCylinder d => circle (Nat.max 3 (cy_u d))
  | DPipe d => circle (Nat.max 3 (pp_u d))
  | DPie d => circle (Nat.max 3 (pi_u d))
  | DCapsule d => circle (Nat.max 3 (ca_u d)) + PI ^ 2 / (16 * INR (Nat.max 2 (ca_cap d)) ^ 2)
  | DTorus d => circle (Nat.max 3 (to_u d)) + circle (Nat.max 3 (to_v d))
  | _ => 0
  end.
(** All extents are positive. *)
Definition positive_extents (d : descriptor) : Prop :=
  match d with
  | DCuboid d => positive3 (cu_size d)
  | DEllipsoid d => positive3 (el_radius d)
  | DCone d => 0 < co_height d /\ positive2 (co_radius d)
  | DCylinder d => 0 < cy_height d /\ positive2 (cy_radius d)
  | DPipe d => 0 < pp_height d /\ positive2 (pp_inner d) /\ x2 (pp_inner d) < x2 (pp_outer d) /\ y2 (pp_inner d) < y2 (pp_outer d)
  | DPie d => 0 < pi_height d /\ positive2 (pi_radius d)
  | DCapsule d => 0 < ca_height d /\ positive3 (ca_radius d)
  | DTorus d => positive2 (to_ring d) /\ positive3 (to_tube d)
  | DKnot _ | DSpiral _ | DCurve _ | DBezier _ => False
  end.
