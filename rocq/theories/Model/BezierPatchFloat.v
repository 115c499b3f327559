(** Bezier patches in IEEE binary64: include/Geom/BezierPatch.h 28-124, on top of Model/BezierFloat.v and with the addresses of Model/Bezier.v. *)
From Coq Require Import ZArith List Bool.
From Flocq Require Import IEEE754.BinarySingleNaN.
From Verif Require Import Model.Scalar Model.BoxFloat Model.PlaneFloat Model.Bezier Model.BezierFloat.
Import ListNotations.

(** BezierPatch.h 120-122: the order and the control points. *)
Record fpatch := mkFPatch { forder : Z; fcpoints : list fvec }.
(** A point made by the default constructor of Gs::Vector3 *)
Definition fzero : fvec := FV b64_0 b64_0 b64_0.
(** BezierPatch.h 85-89, GetControlPoint: a default point when the index is out of range. *)
Definition fpatch_get (p : fpatch) (u v : Z) : fvec :=
  let i := patch_index (forder p) u v in
  if (i <? Z.of_nat (length (fcpoints p)))%Z then nth (Z.to_nat i) (fcpoints p) fzero else fzero.

Section Eval.
(** std::pow(x, int), called by BernsteinPolynomial *)
Variable fpow : b64 -> nat -> b64.

(** BezierPatch.h 49-65, Evaluate: the inner loop over j for one i, and the outer loop over i. *)
Fixpoint fpatch_inner (p : fpatch) (u v : b64) (i : nat) (js : list nat) (result : fvec) : option fvec :=
  match js with
  | [] => Some result
  | j :: js' =>
    let n := Z.to_nat (forder p) in
    match fbernstein fpow u i n, fbernstein fpow v j n with
    | Some a, Some b =>
      fpatch_inner p u v i js' (fplus result (fweigh (fpatch_get p (Z.of_nat i) (Z.of_nat j)) (b64_mul a b)))
    | _, _ => None
    end
  end.
Fixpoint fpatch_outer (p : fpatch) (u v : b64) (is : list nat) (result : fvec) : option fvec :=
  match is with
  | [] => Some result
  | i :: is' =>
    match fpatch_inner p u v i (seq 0 (S (Z.to_nat (forder p)))) result with
    | None => None
    | Some r => fpatch_outer p u v is' r
    end
  end.
Definition fpatch_eval (p : fpatch) (u v : b64) : option fvec :=
  fpatch_outer p u v (seq 0 (S (Z.to_nat (forder p)))) fzero.
End Eval.
