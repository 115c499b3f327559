(** Model of the conversions between cartesian and barycentric coordinates (Triangle.h) in C++ [double]: IEEE binary64 with rounding to nearest. *)
From Coq Require Import ZArith Bool.
From Flocq Require Import IEEE754.BinarySingleNaN.
From Verif Require Import Model.Scalar Model.BoxFloat Model.PlaneFloat Model.ClipFloat Model.TriFloat.

(** Triangle.h 145-148, 264-267 (one coordinate), MeshModifier.cpp 123-127 (one component of an attribute) *)
Definition fmix3 (a b c : b64) (w : fvec) : b64 := b64_add (b64_add (b64_mul a (fx w)) (b64_mul b (fy w))) (b64_mul c (fz w)).
(** Triangle.h 264-267: BarycentricToCartesian; products and sums of [Gs::Vector3T] are taken componentwise *)
Definition fto_cartesian (t : ftri) (w : fvec) : fvec :=
  FV (fmix3 (fx (fta t)) (fx (ftb t)) (fx (ftc t)) w) (fmix3 (fy (fta t)) (fy (ftb t)) (fy (ftc t)) w) (fmix3 (fz (fta t)) (fz (ftb t)) (fz (ftc t)) w).

(** Triangle.h 26-29: Details::TriangleArea2D *)
Definition farea (x1 y1 x2 y2 x3 y3 : b64) : b64 :=
  b64_sub (b64_mul (b64_sub x1 x2) (b64_sub y2 y3)) (b64_mul (b64_sub x2 x3) (b64_sub y1 y2)).

(** 303-324: the plane of largest projection: nu, nv, ood *)
Definition fprojected (t : ftri) (p : fvec) : b64 * b64 * b64 :=
  let n := ftri_normal t in let a := fta t in let b := ftb t in let c := ftc t in
  let x := Babs (fx n) in let y := Babs (fy n) in let z := Babs (fz n) in
  if Bleb y x && Bleb z x then
    (farea (fy p) (fz p) (fy b) (fz b) (fy c) (fz c), farea (fy p) (fz p) (fy c) (fz c) (fy a) (fz a), b64_div b64_1 (fx n))
  else if Bleb x y && Bleb z y then
    (farea (fx p) (fz p) (fx b) (fz b) (fx c) (fz c), farea (fx p) (fz p) (fx c) (fz c) (fx a) (fz a), b64_div b64_1 (Bopp (fy n)))
  else
    (farea (fx p) (fy p) (fx b) (fy b) (fx c) (fy c), farea (fx p) (fy p) (fx c) (fy c) (fx a) (fy a), b64_div b64_1 (fz n)).
(** 290-331: CartesianToBarycentric *)
Definition fto_barycentric (t : ftri) (p : fvec) : fvec :=
  let '(nu, nv, ood) := fprojected t p in
  let u := b64_mul nu ood in let v := b64_mul nv ood in
  FV u v (b64_sub (b64_sub b64_1 u) v).
