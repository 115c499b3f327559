(** Where lines and rays meet planes (PlaneCollision.h 78-131) in C++ [double]: IEEE binary64 with rounding to nearest.
    [Gs::Lerp] and [Gs::Dot] are not in the repository; see Model/KeyframeFloat.v and Model/PlaneFloat.v. *)
From Coq Require Import ZArith Bool.
From Flocq Require Import IEEE754.BinarySingleNaN.
From Verif Require Import Model.Scalar Model.BoxFloat Model.PlaneFloat Model.ClipFloat Model.KeyframeFloat Model.BezierFloat Model.TriFloat Model.SphereFloat Model.LineFloat.

(** PlaneCollision.h 78-81, ClosestPointOnPlane *)
Definition fclosest_on_plane (alt : bool) (p : fplane) (x : fvec) : fvec := fminus x (fweigh (fnormal p) (fsgn_distance alt p x)).
(** PlaneCollision.h 118-131, IntersectionWithPlane of a segment; Line.h 132-141, Direction and Lerp *)
Definition fplane_line (alt : bool) (p : fplane) (l : fline) : option fvec :=
  let t := fplane_interp alt p (fla l) (fminus (flb l) (fla l)) in
  if Bleb b64_0 t && Bleb t b64_1 then Some (flerp3 (fla l) (flb l) t) else None.
(** PlaneCollision.h 102-115, IntersectionWithPlane of a ray *)
Definition fplane_ray (alt : bool) (p : fplane) (r : fray) : option fvec :=
  let t := fplane_interp alt p (frorigin r) (frdirection r) in
  if Bleb b64_0 t then Some (fray_lerp r t) else None.
