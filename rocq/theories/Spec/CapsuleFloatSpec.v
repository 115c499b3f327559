(** The points that the half-spheres of generated capsules should have. *)
From Coq Require Import Reals ZArith.
From Flocq Require Import Core IEEE754.BinarySingleNaN.
From Verif Require Import Model.Scalar Model.BoxFloat Model.Vec Spec.MeshFloatSpec.
Local Open Scope R_scope.

(** Like [trigonometry] of Spec/MeshFloatSpec.v, but for angles up to 8: here the angles go up to five quarters of a turn. *)
Definition accurate8 (f : b64 -> b64) (g : R -> R) : Prop :=
  forall x, is_finite x = true -> Rabs (B2R x) <= 8 ->
    is_finite (f x) = true /\ Rabs (B2R (f x) - g (B2R x)) <= bpow radix2 (-52) * Rabs (g (B2R x)) + bpow radix2 (-1074).
Definition trigonometry8 (fsin fcos : b64 -> b64) : Prop := accurate8 fsin sin /\ accurate8 fcos cos /\ B2R (fcos b64_0) = 1.

(** The upper half of an ellipsoid, moved up by half of the height, or the lower half, moved down.  Its columns go around backwards at the top. *)
Definition cap_point (top : bool) (n c : Z) (rx ry rz h : R) (u v : Z) : vec3 :=
  let theta := PI / 2 * (IZR v / IZR c) in
  V3 (rx * (sin theta * (if top then - sin (part n u) else sin (part n u))))
     (if top then h / 2 + ry * cos theta else - (h / 2 + ry * cos theta))
     (rz * (sin theta * cos (part n u))).
