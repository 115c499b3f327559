(** Distances of boxes to planes, and how far rounding can move them. *)
From Coq Require Import Reals ZArith.
From Flocq Require Import Core IEEE754.BinarySingleNaN.
From Verif Require Import Model.Scalar Model.Vec Model.Plane Model.PlaneFloat Spec.FloatSpec Spec.ClipFloatSpec.
Local Open Scope R_scope.

Definition bounded_vec (m : R) (v : fvec) : Prop := Rabs (B2R (fx v)) <= m /\ Rabs (B2R (fy v)) <= m /\ Rabs (B2R (fz v)) <= m.
(** A plane whose normal has components up to [k] and a box with coordinates up to [m] that is not empty *)
Definition plane_of_size (k : R) (p : fplane) : Prop := tame_vec (fnormal p) /\ tame (fdistance p) /\ bounded_vec k (fnormal p).
Definition box_of_size (m : R) (b : fbox) : Prop :=
  tame_vec (fmin b) /\ tame_vec (fmax b) /\ bounded_vec m (fmin b) /\ bounded_vec m (fmax b) /\
  B2R (fx (fmin b)) <= B2R (fx (fmax b)) /\ B2R (fy (fmin b)) <= B2R (fy (fmax b)) /\ B2R (fz (fmin b)) <= B2R (fz (fmax b)).
(** What rounding may change: one part in 2^47 of the terms, and a constant for products that underflow *)
Definition gap_slack (k m d : R) : R := bpow radix2 (-47) * (k * m + Rabs d) + bpow radix2 (-1069) * (1 + k).
Definition foot_slack (k m d : R) : R := bpow radix2 (-47) * (m + k * (k * m + Rabs d)) + bpow radix2 (-1069) * (1 + k).
