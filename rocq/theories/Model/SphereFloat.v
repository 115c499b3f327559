(** Model of the intersection of rays with spheres (SphereCollision.h) in C++ [double]: IEEE binary64 with rounding to nearest.
    [Gs::Dot] and [Gs::LengthSq] are not in the repository; products are taken to be added from left to right. *)
From Coq Require Import ZArith Bool.
From Flocq Require Import IEEE754.BinarySingleNaN.
From Verif Require Import Model.Scalar Model.BoxFloat Model.PlaneFloat Model.ClipFloat Model.FrustumFloat Model.TriFloat.

(** Sphere.h (origin, radius) *)
Record fsphere := mkFSphere { fsorigin : fvec; fsradius : b64 }.

(** 39 *)
Definition fdif (s : fsphere) (o : fvec) : fvec := fminus o (fsorigin s).
(** 40 *)
Definition fouter (s : fsphere) (o : fvec) : b64 := b64_sub (fdot (fdif s o) (fdif s o)) (b64_mul (fsradius s) (fsradius s)).
(** 46 *)
Definition fahead (s : fsphere) (o d : fvec) : b64 := fdot (fdif s o) d.
(** 52 *)
Definition fdisc (s : fsphere) (o d : fvec) : b64 := b64_sub (b64_mul (fahead s o d) (fahead s o d)) (fouter s o).
(** 36-62; [None]: false *)
Definition fsphere_interp (s : fsphere) (o d : fvec) : option b64 :=
  if Bltb (fouter s o) b64_0 then None else
  if Bltb b64_0 (fahead s o d) then None else
  if Bltb (fdisc s o d) b64_0 then None else
  Some (b64_sub (Bopp (fahead s o d)) (b64_sqrt (fdisc s o d))).

(** Ray.h 44-50 *)
Definition fray_lerp (r : fray) (t : b64) : fvec :=
  let c (f : fvec -> b64) := b64_add (b64_mul (f (frdirection r)) t) (f (frorigin r)) in FV (c fx) (c fy) (c fz).
(** 66-78 *)
Definition fsphere_ray (s : fsphere) (r : fray) : option fvec :=
  match fsphere_interp s (frorigin r) (frdirection r) with Some t => Some (fray_lerp r t) | None => None end.
