(** Rays and boxes with floating point components as exact ones, and how far rounding can move the sides of a box. *)
From Coq Require Import Reals ZArith List.
From Flocq Require Import Core IEEE754.BinarySingleNaN.
From Verif Require Import Model.Scalar Model.BoxRayFloat Spec.FloatSpec.
Local Open Scope R_scope.

(** Finite components without overflow, in a box that is not empty *)
Definition regular (s : fslab) : Prop := moderate (fo s) /\ moderate (fd s) /\ moderate (flo s) /\ moderate (fhi s) /\ B2R (flo s) <= B2R (fhi s).
(** A component of the direction that is smaller than the tolerance is taken to be zero. *)
Definition small (eps : b64) (s : fslab) : Prop := Rabs (B2R (fd s)) < B2R eps.
(** A component of the point of the ray at the parameter t *)
Definition place (s : fslab) (t : R) : R := B2R (fo s) + t * B2R (fd s).
(** One part in 2^51 of the distance between the origin and the side of the box, and a term for underflow *)
Definition wobble (s : fslab) (side : b64) : R := bpow radix2 (-51) * Rabs (B2R side - B2R (fo s)) + bpow radix2 (-1074) * (1 + Rabs (B2R (fd s))).
(** The ray is in this component of the box, with both sides moved apart or together by the wobble. *)
Definition roughly_in (eps : b64) (t : R) (s : fslab) : Prop :=
  (small eps s -> B2R (flo s) <= B2R (fo s) <= B2R (fhi s)) /\
  (~ small eps s -> B2R (flo s) - wobble s (flo s) <= place s t <= B2R (fhi s) + wobble s (fhi s)).
Definition deep_in (eps : b64) (t : R) (s : fslab) : Prop :=
  (small eps s -> B2R (flo s) <= B2R (fo s) <= B2R (fhi s)) /\
  (~ small eps s -> B2R (flo s) + wobble s (flo s) <= place s t <= B2R (fhi s) - wobble s (fhi s)).
