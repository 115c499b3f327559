(** Model of the classification of points and boxes by a plane (PlaneCollision.h) in C++ [double]: IEEE binary64 with rounding to nearest.
    [Gs::Dot] is not in the repository; its products are taken to be added from left to right. *)
From Coq Require Import Bool.
From Flocq Require Import IEEE754.BinarySingleNaN.
From Verif Require Import Model.Scalar Model.Plane.

(** Gs::Vector3T<double> *)
Record fvec := FV { fx : b64; fy : b64; fz : b64 }.
(** Plane.h 210-211 *)
Record fplane := mkFPlane { fnormal : fvec; fdistance : b64 }.
(** AABB.h 240 (data members min and max) *)
Record fbox := mkFBox { fmin : fvec; fmax : fvec }.

(** Gs::Dot *)
Definition fdot (a b : fvec) : b64 := b64_add (b64_add (b64_mul (fx a) (fx b)) (b64_mul (fy a) (fy b))) (b64_mul (fz a) (fz b)).

(** Plane.h 43-50, 70-77: DistanceSign *)
Definition fsign (alt : bool) (d : b64) : b64 := if alt then Bopp d else d.

(** PlaneCollision.h 30-33 *)
Definition fsgn_distance (alt : bool) (p : fplane) (x : fvec) : b64 := b64_sub (fdot (fnormal p) x) (fsign alt (fdistance p)).

(** PlaneCollision.h 215-225 *)
Definition frelation_point (alt : bool) (p : fplane) (x : fvec) (eps : b64) : relation :=
  let d := fsgn_distance alt p x in
  if Bltb eps d then InFrontOf else if Bltb d (Bopp eps) then Behind else Onto.

(** PlaneCollision.h 229-232 *)
Definition fis_front (alt : bool) (p : fplane) (x : fvec) : bool := Bltb (fsign alt (fdistance p)) (fdot (fnormal p) x).

(** PlaneCollision.h 183-211 *)
Definition frelation_box (alt : bool) (p : fplane) (b : fbox) : relation :=
  let n := fnormal p in
  let far_near (c : fvec -> b64) := if Bltb b64_0 (c n) then (c (fmax b), c (fmin b)) else (c (fmin b), c (fmax b)) in
  let near := FV (snd (far_near fx)) (snd (far_near fy)) (snd (far_near fz)) in
  let far := FV (fst (far_near fx)) (fst (far_near fy)) (fst (far_near fz)) in
  if fis_front alt p near then InFrontOf
  else if fis_front alt p far then Clipped
  else Behind.
