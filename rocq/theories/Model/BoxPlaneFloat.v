(** Model of the distances to planes (PlaneCollision.h) in C++ [double]: IEEE binary64 with rounding to nearest. *)
From Coq Require Import ZArith Bool.
From Flocq Require Import IEEE754.BinarySingleNaN.
From Verif Require Import Model.Scalar Model.BoxFloat Model.PlaneFloat Model.ClipFloat Model.TriFloat.

(** PlaneCollision.h 36-40: DistanceToPlane of a point *)
Definition fdistance_point (alt : bool) (p : fplane) (x : fvec) : b64 := Babs (fsgn_distance alt p x).

(** AABB.h 108-116, Center, for one coordinate *)
Definition fmiddle (lo hi : b64) : b64 := b64_div (b64_add lo hi) (b64_of_Z 2).
Definition fbox_center (b : fbox) : fvec := FV (fmiddle (fx (fmin b)) (fx (fmax b))) (fmiddle (fy (fmin b)) (fy (fmax b))) (fmiddle (fz (fmin b)) (fz (fmax b))).
(** PlaneCollision.h 48 *)
Definition fbox_extent (b : fbox) : fvec := fminus (fmax b) (fbox_center b).
Definition fvec_abs (v : fvec) : fvec := FV (Babs (fx v)) (Babs (fy v)) (Babs (fz v)).
(** 51-56 *)
Definition fbox_radius (p : fplane) (b : fbox) : b64 :=
  b64_add (b64_add (b64_mul (fx (fbox_extent b)) (Babs (fx (fnormal p)))) (b64_mul (fy (fbox_extent b)) (Babs (fy (fnormal p))))) (b64_mul (fz (fbox_extent b)) (Babs (fz (fnormal p)))).
(** 43-60: DistanceToPlane of an axis-aligned box *)
Definition fdistance_box (alt : bool) (p : fplane) (b : fbox) : b64 := b64_sub (fdistance_point alt p (fbox_center b)) (fbox_radius p b).

(** 77-81: ClosestPointOnPlane *)
Definition fclosest_on_plane (alt : bool) (p : fplane) (x : fvec) : fvec :=
  let s := fsgn_distance alt p x in let n := fnormal p in
  FV (b64_sub (fx x) (b64_mul (fx n) s)) (b64_sub (fy x) (b64_mul (fy n) s)) (b64_sub (fz x) (b64_mul (fz n) s)).
