(** Model of the closest point on a segment (LineCollision.h) in C++ [double]: IEEE binary64 with rounding to nearest.
    [Gs::Dot] and [Length] are not in the repository; products are taken to be added from left to right. *)
From Coq Require Import ZArith Bool.
From Flocq Require Import IEEE754.BinarySingleNaN.
From Verif Require Import Model.Scalar Model.BoxFloat Model.PlaneFloat Model.ClipFloat Model.FrustumFloat Model.TriFloat Model.BezierFloat.

(** Line.h (a, b) *)
Record fline := mkFLine { fla : fvec; flb : fvec }.

(** LineCollision.h 27-47, ClosestPointOnLine *)
Definition fclosest_on_line (l : fline) (point : fvec) : fvec :=
  let pos := fminus point (fla l) in
  let dir := fminus (flb l) (fla l) in
  let len := flength dir in
  let dir := fweigh dir (b64_div b64_1 len) in
  let factor := fdot dir pos in
  if Bltb factor b64_0 then fla l else
  if Bltb len factor then flb l else
  fplus (fla l) (fweigh dir factor).
(** 51-54, DistanceToLine *)
Definition fdistance_to_line (l : fline) (point : fvec) : b64 := flength (fminus (fclosest_on_line l point) point).
