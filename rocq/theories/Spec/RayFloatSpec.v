(** Points of rays of double precision. *)
From Coq Require Import Reals ZArith.
From Flocq Require Import Core IEEE754.BinarySingleNaN.
From Verif Require Import Model.Scalar Model.PlaneFloat Model.TriFloat Spec.FloatSpec Spec.ClipFloatSpec.
Local Open Scope R_scope.

Definition tame_ray (r : fray) : Prop := tame_vec (frorigin r) /\ tame_vec (frdirection r).
(** [x] is the coordinate o + d * t up to rounding. *)
Definition coordinate_near (x o d t : b64) : Prop :=
  is_finite x = true /\ Rabs (B2R x - (B2R o + B2R d * B2R t)) <= bpow radix2 (-51) * (Rabs (B2R o) + Rabs (B2R d * B2R t)) + bpow radix2 (-1070).
(** From [x] to [y] a coordinate does not move against the direction [d]. *)
Definition not_against (d x y : b64) : Prop := (0 <= B2R d -> B2R x <= B2R y) /\ (B2R d <= 0 -> B2R y <= B2R x).
