(** Model of the distance of oriented boxes to planes (PlaneCollision.h) in C++ [double]: IEEE binary64 with rounding to nearest. *)
From Coq Require Import ZArith Bool.
From Flocq Require Import IEEE754.BinarySingleNaN.
From Verif Require Import Model.Scalar Model.BoxFloat Model.PlaneFloat Model.BoxPlaneFloat.

(** OBB.h 60-62 *)
Record fobb := mkFObb { focenter : fvec; foaxx : fvec; foaxy : fvec; foaxz : fvec; fohalf : fvec }.

(** PlaneCollision.h 67-70 *)
Definition fobb_radius (p : fplane) (b : fobb) : b64 :=
  b64_add (b64_add (b64_mul (fx (fohalf b)) (Babs (fdot (fnormal p) (foaxx b)))) (b64_mul (fy (fohalf b)) (Babs (fdot (fnormal p) (foaxy b)))))
          (b64_mul (fz (fohalf b)) (Babs (fdot (fnormal p) (foaxz b)))).
(** 63-74: DistanceToPlane of an oriented box *)
Definition fdistance_obb (alt : bool) (p : fplane) (b : fobb) : b64 := b64_sub (fdistance_point alt p (focenter b)) (fobb_radius p b).
