(** Model of the intersection of rays with triangles (TriangleCollision.h) in C++ [double]: IEEE binary64 with rounding to nearest.
    [Gs::Dot] and [Gs::Cross] are not in the repository; products are taken to be added from left to right, and the components of a cross product to be
    differences of two products. *)
From Coq Require Import ZArith Bool.
From Flocq Require Import IEEE754.BinarySingleNaN.
From Verif Require Import Model.Scalar Model.BoxFloat Model.PlaneFloat Model.ClipFloat.

(** Triangle.h (a, b, c), Ray.h (origin, direction) *)
Record ftri := mkFTri { fta : fvec; ftb : fvec; ftc : fvec }.
Record fray := mkFRay { frorigin : fvec; frdirection : fvec }.

(** Gs::operator - *)
Definition fminus (a b : fvec) : fvec := FV (b64_sub (fx a) (fx b)) (b64_sub (fy a) (fy b)) (b64_sub (fz a) (fz b)).
(** Gs::Cross *)
Definition fcross (a b : fvec) : fvec :=
  FV (b64_sub (b64_mul (fy a) (fz b)) (b64_mul (fz a) (fy b)))
     (b64_sub (b64_mul (fz a) (fx b)) (b64_mul (fx a) (fz b)))
     (b64_sub (b64_mul (fx a) (fy b)) (b64_mul (fy a) (fx b))).

(** 262-264 *)
Definition from_origin (r : fray) (p : fvec) : fvec := fminus p (frorigin r).
(** 267-279: barycentric.x, barycentric.y and barycentric.z before they are scaled *)
Definition fweight_a (t : ftri) (r : fray) : b64 := fdot (from_origin r (ftb t)) (fcross (frdirection r) (from_origin r (ftc t))).
Definition fweight_b (t : ftri) (r : fray) : b64 := Bopp (fdot (from_origin r (fta t)) (fcross (frdirection r) (from_origin r (ftc t)))).
Definition fweight_c (t : ftri) (r : fray) : b64 := fdot (from_origin r (fta t)) (fcross (frdirection r) (from_origin r (ftb t))).
(** 282 *)
Definition ftri_normal (t : ftri) : fvec := fcross (fminus (ftb t) (fta t)) (fminus (ftc t) (fta t)).

(** 259-295; [None]: false *)
Definition fhit_barycentric (t : ftri) (r : fray) : option fvec :=
  let x := fweight_a t r in
  if Bltb x b64_0 then None else
  let y := fweight_b t r in
  if Bltb y b64_0 then None else
  let z := fweight_c t r in
  if Bltb z b64_0 then None else
  let n := ftri_normal t in
  if Bleb b64_0 (fdot n (frdirection r)) then None else
  if Bleb (fdot n (frorigin r)) (fdot n (fta t)) then None else
  let denom := b64_div b64_1 (b64_add (b64_add x y) z) in
  Some (FV (b64_mul x denom) (b64_mul y denom) (b64_mul z denom)).
