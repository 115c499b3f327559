(** Model of hulls and view frusta (ConvexHull.h, Frustum.h) and of normalizing planes (Plane.h) in C++ [double]: IEEE binary64 with rounding to nearest.
    [Gs::Vector3T::Length] is not in the repository; it is taken to be the rounded square root of the dot product of the vector with itself. *)
From Coq Require Import ZArith List Bool.
From Flocq Require Import IEEE754.BinarySingleNaN.
From Verif Require Import Model.Scalar Model.BoxFloat Model.PlaneFloat Model.ClipFloat.
Import ListNotations.

(** std::sqrt *)
Definition b64_sqrt : b64 -> b64 := @Bsqrt 53%Z 1024%Z b64_prec_gt_0 b64_prec_lt_emax mode_NE.
(** Gs::Vector3T::Length *)
Definition flength (v : fvec) : b64 := b64_sqrt (fdot v v).

(** Plane.h 164-173 *)
Definition fplane_normalize (p : fplane) : fplane :=
  let l := flength (fnormal p) in
  if Bltb b64_0 l then
    let k := b64_div b64_1 l in
    mkFPlane (FV (b64_mul (fx (fnormal p)) k) (b64_mul (fy (fnormal p)) k) (b64_mul (fz (fnormal p)) k)) (b64_mul (fdistance p) k)
  else p.

(** Plane.h 118-122 *)
Definition fplane_4 (alt : bool) (x y z d : b64) : fplane := mkFPlane (FV x y z) (fsign alt d).

(** ConvexHull.h 55-63 *)
Fixpoint fhull_point (alt : bool) (planes : list fplane) (x : fvec) : bool :=
  match planes with
  | [] => true
  | p :: l => if fis_front alt p x then false else fhull_point alt l x
  end.

(** ConvexHull.h 66-74 *)
Fixpoint fhull_sphere (alt : bool) (planes : list fplane) (c : fvec) (radius : b64) : bool :=
  match planes with
  | [] => true
  | p :: l => if Bltb radius (fsgn_distance alt p c) then false else fhull_sphere alt l c radius
  end.

(** Rows of Gs::Matrix4T<double> *)
Record frow := FRow { fxyz : fvec; fw : b64 }.
Record fmat := mkFMat { fm0 : frow; fm1 : frow; fm2 : frow; fm3 : frow }.

(** Frustum.h 53-106: the plane of a row or of a sum or difference of two rows *)
Definition frow_op (op : b64 -> b64 -> b64) (a b : frow) : frow :=
  FRow (FV (op (fx (fxyz a)) (fx (fxyz b))) (op (fy (fxyz a)) (fy (fxyz b))) (op (fz (fxyz a)) (fz (fxyz b)))) (op (fw a) (fw b)).
Definition ffrustum_plane (alt : bool) (r : frow) : fplane :=
  fplane_normalize (fplane_4 alt (Bopp (fx (fxyz r))) (Bopp (fy (fxyz r))) (Bopp (fz (fxyz r))) (Bopp (fw r))).
(** Frustum.h 53-106: near, left, right, top, bottom, far *)
Definition ffrustum (alt : bool) (m : fmat) : list fplane :=
  map (ffrustum_plane alt)
    [fm2 m; frow_op b64_add (fm3 m) (fm0 m); frow_op b64_sub (fm3 m) (fm0 m); frow_op b64_sub (fm3 m) (fm1 m); frow_op b64_add (fm3 m) (fm1 m); frow_op b64_sub (fm3 m) (fm2 m)].
