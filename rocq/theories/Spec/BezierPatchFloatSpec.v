(** What Bezier patches should be in double precision (C104). *)
From Coq Require Import ZArith Reals List.
From Flocq Require Import Core IEEE754.BinarySingleNaN.
From Verif Require Import Model.Scalar Model.Vec Model.PlaneFloat Model.Bezier Model.BezierPatchFloat Spec.FloatSpec Spec.UniformSplineFloatSpec.
Local Open Scope R_scope.

(** the same patch with real numbers *)
Definition exact_patch (p : fpatch) : patch := mkPatch (forder p) (map exact_vec (fcpoints p)).
(** a patch of order 1 to 20 whose control points have finite coordinates up to [M] *)
Definition patch_within (M : R) (p : fpatch) : Prop :=
  (1 <= forder p <= 20)%Z /\ forall q, In q (fcpoints p) -> point_within M q.
(** a parameter from 0 to 1 *)
Definition parameter (t : b64) : Prop := is_finite t = true /\ 0 <= B2R t <= 1.
(** the control points along one side *)
Definition side (p : fpatch) (address : Z -> Z * Z) : list fvec :=
  map (fun k => fpatch_get p (fst (address (Z.of_nat k))) (snd (address (Z.of_nat k)))) (seq 0 (S (Z.to_nat (forder p)))).
