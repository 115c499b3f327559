(** Model of building and flipping planes (Plane.h) in C++ [double]: IEEE binary64 with rounding to nearest. *)
From Coq Require Import ZArith Bool.
From Flocq Require Import IEEE754.BinarySingleNaN.
From Verif Require Import Model.Scalar Model.BoxFloat Model.PlaneFloat Model.ClipFloat Model.TriFloat Model.FrustumFloat.

(** Plane.h 150-161: Build with a normal and a member point, and UpdateDistance *)
Definition fbuild_member (alt : bool) (n a : fvec) : fplane := mkFPlane n (fsign alt (fdot n a)).
(** Plane.h 141-147: Build with three points.  [Gs::Vector3T::Normalize] is not in the repository: [normalize] is a parameter. *)
Definition fbuild (normalize : fvec -> fvec) (alt : bool) (a b c : fvec) : fplane := fbuild_member alt (normalize (fcross (fminus b a) (fminus c a))) a.
(** One way to normalize a vector: it is multiplied by one over its length *)
Definition fnormalize (v : fvec) : fvec := fnormal (fplane_normalize (mkFPlane v b64_0)).
(** Plane.h 185-195: Flip, Flipped *)
Definition fvec_opp (v : fvec) : fvec := FV (Bopp (fx v)) (Bopp (fy v)) (Bopp (fz v)).
Definition fflipped (p : fplane) : fplane := mkFPlane (fvec_opp (fnormal p)) (Bopp (fdistance p)).
