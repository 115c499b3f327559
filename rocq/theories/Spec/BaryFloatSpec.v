(** Barycentric coordinates of numbers of double precision. *)
From Coq Require Import Reals ZArith.
From Flocq Require Import Core IEEE754.BinarySingleNaN.
From Verif Require Import Model.Scalar Model.BoxFloat Model.PlaneFloat Model.ClipFloat Model.TriFloat Spec.ClipFloatSpec.
Local Open Scope R_scope.

Definition tame_tri (t : ftri) : Prop := tame_vec (fta t) /\ tame_vec (ftb t) /\ tame_vec (ftc t).
Definition finite_vec (v : fvec) : Prop := is_finite (fx v) = true /\ is_finite (fy v) = true /\ is_finite (fz v) = true.
(** [v] has the components [x], [y], [z] (the sign of zero does not matter). *)
Definition is_vec (v : fvec) (x y z : R) : Prop := B2R (fx v) = x /\ B2R (fy v) = y /\ B2R (fz v) = z.
Definition same_vec (v w : fvec) : Prop := B2R (fx v) = B2R (fx w) /\ B2R (fy v) = B2R (fy w) /\ B2R (fz v) = B2R (fz w).

(** The mean of three numbers with the weights [w], and the sum of the magnitudes of its terms *)
Definition mean3 (a b c : b64) (w : fvec) : R := B2R a * B2R (fx w) + B2R b * B2R (fy w) + B2R c * B2R (fz w).
Definition mean3_size (a b c : b64) (w : fvec) : R := Rabs (B2R a * B2R (fx w)) + Rabs (B2R b * B2R (fy w)) + Rabs (B2R c * B2R (fz w)).
(** What rounding may change in a mean: one part in 2^51 of its terms, and 2^-1070 for products that underflow *)
Definition mean3_slack (a b c : b64) (w : fvec) : R := bpow radix2 (-51) * mean3_size a b c w + bpow radix2 (-1070).
(** Weights of a point of the triangle *)
Definition weights (w : fvec) : Prop := 0 <= B2R (fx w) /\ 0 <= B2R (fy w) /\ 0 <= B2R (fz w) /\ B2R (fx w) + B2R (fy w) + B2R (fz w) = 1.

(** The projection to the coordinate plane perpendicular to an axis, and twice the signed area of a projected triangle *)
Inductive axis := AxisX | AxisY | AxisZ.
Definition project (k : axis) (v : fvec) : R * R :=
  match k with AxisX => (B2R (fy v), B2R (fz v)) | AxisY => (B2R (fz v), B2R (fx v)) | AxisZ => (B2R (fx v), B2R (fy v)) end.
Definition area2 (k : axis) (p q r : fvec) : R :=
  let (px, py) := project k p in let (qx, qy) := project k q in let (rx, ry) := project k r in (qx - px) * (ry - py) - (qy - py) * (rx - px).
(** All coordinates of [v] and [w] are within [d] of each other. *)
Definition within (d : R) (v w : fvec) : Prop := Rabs (B2R (fx v) - B2R (fx w)) <= d /\ Rabs (B2R (fy v) - B2R (fy w)) <= d /\ Rabs (B2R (fz v) - B2R (fz w)) <= d.
(** What rounding may change in an area of triangles of size [d]; the constant is for products that underflow. *)
Definition area_slack (d : R) : R := bpow radix2 (-48) * (d * d + bpow radix2 (-1020)).
(** All coordinates of the corners of the triangle and of the point [p] are within [d] of each other. *)
Definition extent (d : R) (t : ftri) (p : fvec) : Prop :=
  within d (fta t) (ftb t) /\ within d (ftb t) (ftc t) /\ within d (ftc t) (fta t) /\ within d p (fta t) /\ within d p (ftb t) /\ within d p (ftc t).
