(** Oriented boxes of double precision, and how far rounding can move their distance to a plane. *)
From Coq Require Import Reals ZArith.
From Flocq Require Import Core IEEE754.BinarySingleNaN.
From Verif Require Import Model.Scalar Model.Vec Model.Plane Model.PlaneFloat Model.ObbPlaneFloat Spec.FloatSpec Spec.ClipFloatSpec Spec.BoxPlaneFloatSpec.
Local Open Scope R_scope.

Definition exact_obb (b : fobb) : obb := mkObb (exact_vec (focenter b)) (exact_vec (foaxx b)) (exact_vec (foaxy b)) (exact_vec (foaxz b)) (exact_vec (fohalf b)).
(** Center with coordinates up to [m], axes with components up to [a], half sizes from 0 up to [h].  The axes need neither have length 1 nor be perpendicular. *)
Definition obb_of_size (m a h : R) (b : fobb) : Prop :=
  (tame_vec (focenter b) /\ bounded_vec m (focenter b)) /\ (tame_vec (foaxx b) /\ bounded_vec a (foaxx b)) /\ (tame_vec (foaxy b) /\ bounded_vec a (foaxy b)) /\ (tame_vec (foaxz b) /\ bounded_vec a (foaxz b)) /\
  (tame_vec (fohalf b) /\ bounded_vec h (fohalf b)) /\ 0 <= B2R (fx (fohalf b)) /\ 0 <= B2R (fy (fohalf b)) /\ 0 <= B2R (fz (fohalf b)).
(** What rounding may change: one part in 2^46 of the terms, and a constant for products that underflow *)
Definition obb_slack (k m a h d : R) : R := bpow radix2 (-46) * (k * m + h * (k * a) + Rabs d) + bpow radix2 (-1069) * (1 + h).
