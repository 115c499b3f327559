(** The smallest boxes around the vertices of the generated meshes. *)
From Coq Require Import Reals Arith List.
From Verif Require Import Model.Scalar Model.Vec Model.Aabb Model.MeshGen.
Import ListNotations.
Local Open Scope R_scope.

(** The real numbers with limits -M and M in place of those of the number type *)
Definition real_order (M : R) : order := mkOrder R Rltb M (- M).
Definition coords (p : vec3) : list R := [vx p; vy p; vz p].
Definition box_of (lo hi : vec3) : list (R * R) := [(vx lo, vx hi); (vy lo, vy hi); (vz lo, vz hi)].

(** A circle of radius 1 is cut into n parts, beginning in direction 1 of the axis "cosine".  This is the largest coordinate of a division
    point across that axis, and the largest one backwards along it. *)
Definition across (n : nat) : R :=
  match (n mod 4)%nat with O => 1 | 2%nat => cos (PI / INR n) | _ => cos (PI / (2 * INR n)) end.
Definition backwards (n : nat) : R := if Nat.even n then 1 else cos (PI / INR n).

(** The sizes are not negative, and the tube of a torus is not thicker than its ring. *)
Definition sized (d : descriptor) : Prop :=
  match d with
  | DCuboid d => 0 <= vx (cu_size d) /\ 0 <= vy (cu_size d) /\ 0 <= vz (cu_size d)
  | DEllipsoid d => 0 <= vx (el_radius d) /\ 0 <= vy (el_radius d) /\ 0 <= vz (el_radius d)
  | DCone d => 0 <= x2 (co_radius d) /\ 0 <= y2 (co_radius d) /\ 0 <= co_height d
  | DCylinder d => 0 <= x2 (cy_radius d) /\ 0 <= y2 (cy_radius d) /\ 0 <= cy_height d
  | DPipe d => 0 <= x2 (pp_inner d) <= x2 (pp_outer d) /\ 0 <= y2 (pp_inner d) <= y2 (pp_outer d) /\ 0 <= pp_height d
  | DCapsule d => 0 <= vx (ca_radius d) /\ 0 <= vy (ca_radius d) /\ 0 <= vz (ca_radius d) /\ 0 <= ca_height d
  | DTorus d => 0 <= vx (to_tube d) <= x2 (to_ring d) /\ 0 <= vy (to_tube d) /\ 0 <= vz (to_tube d) <= y2 (to_ring d)
  | DPie _ | DKnot _ | DSpiral _ | DCurve _ | DBezier _ => False
  end.

(** The far corners of the box around the shape itself (around a center at 0) *)
Definition extent (d : descriptor) : vec3 :=
  match d with
  | DCuboid d => V3 (vx (cu_size d) / 2) (vy (cu_size d) / 2) (vz (cu_size d) / 2)
  | DEllipsoid d => el_radius d
  | DCone d => V3 (x2 (co_radius d)) (co_height d / 2) (y2 (co_radius d))
  | DCylinder d => V3 (x2 (cy_radius d)) (cy_height d / 2) (y2 (cy_radius d))
  | DPipe d => V3 (x2 (pp_outer d)) (pp_height d / 2) (y2 (pp_outer d))
  | DCapsule d => V3 (vx (ca_radius d)) (ca_height d / 2 + vy (ca_radius d)) (vz (ca_radius d))
  | DTorus d => V3 (x2 (to_ring d) + vx (to_tube d)) (vy (to_tube d)) (y2 (to_ring d) + vz (to_tube d))
  | _ => vzero
  end.

(** The box around the vertices: the segments do not always meet the far points of the shape. *)
Definition highest (d : descriptor) : vec3 :=
  let e := extent d in
  match d with
  | DCuboid _ => e
  | DEllipsoid d => let s := across (2 * Nat.max 2 (el_v d)) in V3 (s * vx e) (vy e) (s * across (Nat.max 3 (el_u d)) * vz e)
  | DCone d => V3 (across (Nat.max 3 (co_u d)) * vx e) (vy e) (vz e)
  | DCylinder d => V3 (across (Nat.max 3 (cy_u d)) * vx e) (vy e) (vz e)
  | DPipe d => V3 (across (Nat.max 3 (pp_u d)) * vx e) (vy e) (vz e)
  | DCapsule d => V3 (across (Nat.max 3 (ca_u d)) * vx e) (vy e) (vz e)
  | DTorus d =>
    let s := across (Nat.max 3 (to_v d)) in
    V3 (across (Nat.max 3 (to_u d)) * (x2 (to_ring d) + s * vx (to_tube d))) (vy e) (y2 (to_ring d) + s * vz (to_tube d))
  | _ => vzero
  end.
Definition lowest (d : descriptor) : vec3 :=
  let e := extent d in
  match d with
  | DCuboid _ => vopp e
  | DEllipsoid d => let s := across (2 * Nat.max 2 (el_v d)) in
    vopp (V3 (s * backwards (Nat.max 3 (el_u d)) * vx e) (vy e) (s * across (Nat.max 3 (el_u d)) * vz e))
  | DCone d => vopp (V3 (across (Nat.max 3 (co_u d)) * vx e) (vy e) (backwards (Nat.max 3 (co_u d)) * vz e))
  | DCylinder d => vopp (V3 (across (Nat.max 3 (cy_u d)) * vx e) (vy e) (backwards (Nat.max 3 (cy_u d)) * vz e))
  | DPipe d => vopp (V3 (across (Nat.max 3 (pp_u d)) * vx e) (vy e) (backwards (Nat.max 3 (pp_u d)) * vz e))
  | DCapsule d => vopp (V3 (across (Nat.max 3 (ca_u d)) * vx e) (vy e) (backwards (Nat.max 3 (ca_u d)) * vz e))
  | DTorus d =>
    let s := across (Nat.max 3 (to_v d)) in
    vopp (V3 (across (Nat.max 3 (to_u d)) * (x2 (to_ring d) + s * vx (to_tube d))) (backwards (Nat.max 3 (to_v d)) * vy e)
             (backwards (Nat.max 3 (to_u d)) * (y2 (to_ring d) + s * vz (to_tube d))))
  | _ => vzero
  end.

(** The segment counts that matter for the box are at least n. *)
Definition fine (n : nat) (d : descriptor) : Prop :=
  match d with
  | DEllipsoid d => (n <= el_u d /\ n <= el_v d)%nat
  | DCone d => (n <= co_u d)%nat | DCylinder d => (n <= cy_u d)%nat | DPipe d => (n <= pp_u d)%nat | DCapsule d => (n <= ca_u d)%nat
  | DTorus d => (n <= to_u d /\ n <= to_v d)%nat
  | _ => True
  end.
(** They are multiples of 4 (of 2 for the half circles from pole to pole). *)
Definition quartered (d : descriptor) : Prop :=
  match d with
  | DEllipsoid d => exists a b, (el_u d = 4 * a /\ el_v d = 2 * b /\ 0 < a /\ 0 < b)%nat
  | DCone d => exists a, (co_u d = 4 * a /\ 0 < a)%nat | DCylinder d => exists a, (cy_u d = 4 * a /\ 0 < a)%nat
  | DPipe d => exists a, (pp_u d = 4 * a /\ 0 < a)%nat | DCapsule d => exists a, (ca_u d = 4 * a /\ 0 < a)%nat
  | DTorus d => exists a b, (to_u d = 4 * a /\ to_v d = 4 * b /\ 0 < a /\ 0 < b)%nat
  | _ => True
  end.
