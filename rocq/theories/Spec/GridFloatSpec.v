(** Points of the image, and functions with values between -1 and 1. *)
From Coq Require Import Reals ZArith.
From Flocq Require Import Core IEEE754.BinarySingleNaN.
From Verif Require Import Model.Scalar Model.BoxFloat Model.GridFloat.
Local Open Scope R_scope.

Definition in_unit (x : b64) : Prop := is_finite x = true /\ 0 <= B2R x <= 1.
Definition in_fimage (t : fvec2) : Prop := in_unit (f2x t) /\ in_unit (f2y t).
(** For the angles that occur *)
Definition bounded (f : b64 -> b64) : Prop := forall x, is_finite x = true -> Rabs (B2R x) <= 7 -> is_finite (f x) = true /\ Rabs (B2R (f x)) <= 1.
