(** The surfaces the mesh generators describe, as sets of points. *)
From Coq Require Import Reals.
From Verif Require Import Model.Vec Model.MeshGen.
Local Open Scope R_scope.

Definition ellipse (rx rz x z : R) : Prop := (x / rx) ^ 2 + (z / rz) ^ 2 = 1.
Definition ellipse_disc (rx rz x z : R) : Prop := (x / rx) ^ 2 + (z / rz) ^ 2 <= 1.
(** Between the two ends of an axis of length h that is centered at 0 *)
Definition within (h y : R) : Prop := y ^ 2 <= (h / 2) ^ 2.
(** At one of the two ends *)
Definition at_end (h y : R) : Prop := y = h / 2 \/ y = - (h / 2).

Definition on_cuboid (s p : vec3) : Prop :=
  within (vx s) (vx p) /\ within (vy s) (vy p) /\ within (vz s) (vz p) /\
  (at_end (vx s) (vx p) \/ at_end (vy s) (vy p) \/ at_end (vz s) (vz p)).
Definition on_ellipsoid (r p : vec3) : Prop := (vx p / vx r) ^ 2 + (vy p / vy r) ^ 2 + (vz p / vz r) ^ 2 = 1.
(** Mantle or one of the two covers *)
Definition on_cylinder (r : vec2) (h : R) (p : vec3) : Prop :=
  (ellipse (x2 r) (y2 r) (vx p) (vz p) /\ within h (vy p)) \/ (ellipse_disc (x2 r) (y2 r) (vx p) (vz p) /\ at_end h (vy p)).
(** The cone has its tip at h/2 and its base at -h/2. *)
Definition on_cone (r : vec2) (h : R) (p : vec3) : Prop :=
  ((vx p / x2 r) ^ 2 + (vz p / y2 r) ^ 2 = ((h / 2 - vy p) / h) ^ 2 /\ within h (vy p)) \/
  (ellipse_disc (x2 r) (y2 r) (vx p) (vz p) /\ vy p = - (h / 2)).
(** Outer mantle, inner mantle, or a cover: a point of an ellipse whose radii are between the inner and the outer ones *)
Definition on_pipe (ri ro : vec2) (h : R) (p : vec3) : Prop :=
  (ellipse (x2 ro) (y2 ro) (vx p) (vz p) /\ within h (vy p)) \/ (ellipse (x2 ri) (y2 ri) (vx p) (vz p) /\ within h (vy p)) \/
  (at_end h (vy p) /\ exists t, 0 <= t <= 1 /\ ellipse ((1 - t) * x2 ri + t * x2 ro) ((1 - t) * y2 ri + t * y2 ro) (vx p) (vz p)).
(** A cylinder without the sector of the angles between offset and offset + cut: the point at angle a and fraction k of the radius is on the
    mantle, on one of the two walls, or on a cover *)
Definition on_pie (r : vec2) (h cut offset : R) (p : vec3) : Prop :=
  exists a k, offset + cut <= a <= offset + 2 * PI /\ 0 <= k <= 1 /\
    vx p = k * (x2 r * sin a) /\ vz p = k * (y2 r * cos a) /\ within h (vy p) /\
    (k = 1 \/ a = offset + cut \/ a = offset + 2 * PI \/ at_end h (vy p)).
(** A cylinder mantle and two half ellipsoids around its ends *)
Definition on_capsule (r : vec3) (h : R) (p : vec3) : Prop :=
  (ellipse (vx r) (vz r) (vx p) (vz p) /\ within h (vy p)) \/
  (exists side, (side = 1 \/ side = -1) /\ on_ellipsoid r (V3 (vx p) (vy p - side * (h / 2)) (vz p)) /\ 0 <= side * ((vy p - side * (h / 2)) / vy r)).
(** An ellipse of radii (tube.x, tube.z; tube.y) moved along an ellipse of radii ring *)
Definition on_torus (ring : vec2) (tube p : vec3) : Prop :=
  exists a b, vx p = sin a * (x2 ring + sin b * vx tube) /\ vz p = cos a * (y2 ring + sin b * vz tube) /\ vy p = cos b * vy tube.

Definition on_surface (d : descriptor) (p : vec3) : Prop :=
  match d with
  | DCuboid d => on_cuboid (cu_size d) p
  | DEllipsoid d => on_ellipsoid (el_radius d) p
  | DCone d => on_cone (co_radius d) (co_height d) p
  | DCylinder d => on_cylinder (cy_radius d) (cy_height d) p
  | DPipe d => on_pipe (pp_inner d) (pp_outer d) (pp_height d) p
  | DPie d => on_pie (pi_radius d) (pi_height d) (clampR (pi_angle d) 0 (2 * PI)) (pi_offset d) p
  | DCapsule d => on_capsule (ca_radius d) (ca_height d) p
  | DTorus d => on_torus (to_ring d) (to_tube d) p
  | DKnot _ | DSpiral _ | DCurve _ | DBezier _ => True
  end.
(** The descriptor is one of those, and its surface is not degenerate. *)
Definition nonzero2 (r : vec2) : Prop := x2 r <> 0 /\ y2 r <> 0.
Definition nonzero3 (r : vec3) : Prop := vx r <> 0 /\ vy r <> 0 /\ vz r <> 0.
Definition regular (d : descriptor) : Prop :=
  match d with
  | DCuboid d => True
  | DEllipsoid d => nonzero3 (el_radius d)
  | DCone d => nonzero2 (co_radius d) /\ co_height d <> 0
  | DCylinder d => nonzero2 (cy_radius d)
  | DPipe d => 0 < x2 (pp_inner d) /\ 0 < y2 (pp_inner d) /\ 0 < x2 (pp_outer d) /\ 0 < y2 (pp_outer d)
  | DPie d => True
  | DCapsule d => nonzero3 (ca_radius d)
  | DTorus d => nonzero3 (to_tube d)
  | DKnot _ | DSpiral _ | DCurve _ | DBezier _ => False
  end.
