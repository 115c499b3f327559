(** The points that generated pipes should have. *)
From Coq Require Import Reals ZArith.
From Flocq Require Import Core IEEE754.BinarySingleNaN.
From Verif Require Import Model.Scalar Model.BoxFloat Model.Vec Spec.MeshFloatSpec.
Local Open Scope R_scope.

Definition pipe_radius (r : b64) : Prop := is_finite r = true /\ Rabs (B2R r) <= bpow radix2 498.

(** part [v] of [c] of the way from the inner ellipse to the outer one, at half of the height above or below the center *)
Definition pipe_cover_point (top : bool) (n c : Z) (ox oz ix iz h : R) (u v : Z) : vec3 :=
  let q := IZR v / IZR c in
  V3 ((ix + q * (ox - ix)) * sin (part n u)) (if top then h / 2 else - (h / 2)) ((iz + q * (oz - iz)) * cos (part n u)).
