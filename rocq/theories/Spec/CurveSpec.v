(** Tubes around a curve *)
From Coq Require Import Reals List Arith.
From Verif Require Import Model.Vec Model.Aabb Model.Mesh Model.Interp Model.MeshGen Spec.MeshGenSpec.
Local Open Scope R_scope.

(** The point of ring [u] out of [U] rings *)
Definition ring_at (f : R -> vec3) (U u : nat) : vec3 := f (INR u / INR (U - 1)).
(** The step from ring [u] to the next one *)
Definition step_from (f : R -> vec3) (U u : nat) : vec3 := vsub (ring_at f U (u + 1)) (ring_at f U u).
Definition closed_curve (f : R -> vec3) : Prop := f 0 = f 1.
(** Not along the y axis, not zero *)
Definition slanted (s : vec3) : Prop := vx s <> 0 \/ vz s <> 0.
(** The [v]-th new vertex of ring [u] *)
Definition ring_vertex_at (m m' : gmesh) (V u v : nat) (w : vertex) : Prop := nth_error (new_vertices m m') (u * V + v) = Some w.
(** [n] is the unit vector that results from turning the unit vector [n0] around the direction [s] by the angle [a]. *)
Definition turned_around (s n0 n : vec3) (a : R) : Prop :=
  dot n n = 1 /\ dot n s = 0 /\ dot n0 n = cos a /\ dot (cross s n0) n = len s * sin a.
