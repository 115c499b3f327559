(** The texture coordinates that the covers of generated pipes should have. *)
From Coq Require Import Reals ZArith.
From Flocq Require Import Core IEEE754.BinarySingleNaN.
From Verif Require Import Model.Scalar Model.BoxFloat Model.GridFloat.
Local Open Scope R_scope.

(** An inner radius [i] that is not larger than the outer radius [o] *)
Definition radii (o i : b64) : Prop := is_finite o = true /\ is_finite i = true /\ bpow radix2 (-990) <= B2R o <= bpow radix2 990 /\ Rabs (B2R i) <= B2R o.

(** The outer rim is the circle inscribed in the image.  [s] is the sine or cosine of the angle, [q] the share of the way from the inner to the outer rim. *)
Definition pipe_tex (flip : bool) (o i s q : R) : R :=
  let x := 1 / 2 + (i + q * (o - i)) / (2 * o) * s in if flip then 1 - x else x.
