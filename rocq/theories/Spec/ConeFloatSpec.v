(** The points that generated ellipsoids and cones should have. *)
From Coq Require Import Reals ZArith.
From Verif Require Import Model.Vec Spec.MeshFloatSpec.
Local Open Scope R_scope.

Definition ellipsoid_point (n m : Z) (rx ry rz : R) (u v : Z) : vec3 :=
  let theta := PI * (IZR v / IZR m) in V3 (rx * (sin theta * cos (part n u))) (ry * cos theta) (rz * (sin theta * sin (part n u))).
(** the tip is at half of the height, the bottom with the full radii at minus half of it *)
Definition cone_point (n m : Z) (rx rz h : R) (u v : Z) : vec3 :=
  let q := IZR v / IZR m in V3 (rx * q * sin (part n u)) (h * (1 / 2 - q)) (rz * q * cos (part n u)).
Definition cone_cover_point (n c : Z) (rx rz h : R) (u v : Z) : vec3 :=
  let q := IZR v / IZR c in V3 (rx * q * sin (part n u)) (- (h / 2)) (rz * q * cos (part n u)).
(** how far a point is from the surface x^2/rx^2 + y^2/ry^2 + z^2/rz^2 = 1 *)
Definition off_ellipsoid (rx ry rz : R) (p : vec3) : R := (vx p / rx) ^ 2 + (vy p / ry) ^ 2 + (vz p / rz) ^ 2 - 1.
