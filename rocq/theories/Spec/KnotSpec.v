(** Torus knots *)
From Coq Require Import Reals Arith.
From Verif Require Import Model.Vec Model.Aabb Model.MeshGen.
Local Open Scope R_scope.

(** The torus whose tube has radius 1 around a circle of radius [inner] in the ground plane, stretched by [r] *)
Definition on_knot_torus (inner : R) (r p : vec3) : Prop :=
  let away := sqrt ((vx p / vx r) ^ 2 + (vz p / vz r) ^ 2) in (away - inner) ^ 2 + (vy p / vy r) ^ 2 = 1.
(** [p] is seen from the y axis at the angle [a], and from the center of the tube at the angle [b]. *)
Definition seen_at (inner : R) (r : vec3) (a b : R) (p : vec3) : Prop :=
  let away := sqrt ((vx p / vx r) ^ 2 + (vz p / vz r) ^ 2) in
  vx p / vx r = away * cos a /\ vz p / vz r = away * sin a /\ away - inner = cos b /\ vy p / vy r = sin b.
(** While t goes from 0 to 1, the curve goes [p] times around the y axis and [q] times around the tube, steadily. *)
Definition winds (inner : R) (r : vec3) (f : R -> vec3) (p q : R) : Prop := forall t, seen_at inner r (2 * PI * p * t) (2 * PI * q * t) (f t).
(** Different parameters before the end give different points. *)
Definition simple_curve (f : R -> vec3) : Prop := forall s t, 0 <= s < 1 -> 0 <= t < 1 -> f s = f t -> s = t.
