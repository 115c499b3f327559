(** Model of FrustumT::GetBoundingBox, include/Geom/Frustum.h, over exact reals. *)
From Coq Require Import Reals List.
From Verif Require Import Model.Scalar Model.Vec Model.Plane.
Import ListNotations.
Local Open Scope R_scope.

(** AABB.h 67-76, Insert of a point, for three components *)
Definition insert_point3 (b : aabb) (p : vec3) : aabb :=
  let lo (c : vec3 -> R) := if Rltb (c p) (c (bmin b)) then c p else c (bmin b) in
  let hi (c : vec3 -> R) := if Rltb (c (bmax b)) (c p) then c p else c (bmax b) in
  mkAabb (V3 (lo vx) (lo vy) (lo vz)) (V3 (hi vx) (hi vy) (hi vz)).

(** Frustum.h 153-163; [None]: a corner is not finite *)
Definition frustum_box (alt neg : bool) (f : frustum) (eps : R) (origin : vec3) : option aabb :=
  match left_top alt neg f eps, left_bottom alt neg f eps, right_top alt neg f eps, right_bottom alt neg f eps with
  | Some lt, Some lb, Some rt, Some rb => Some (fold_left insert_point3 [lt; lb; rt; rb] (mkAabb origin origin))
  | _, _, _, _ => None
  end.
