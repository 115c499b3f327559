(** Bernstein polynomials and Bezier curves in IEEE binary64: include/Geom/BernsteinPolynomial.h 43-52 and BezierCurve.h 35-48, on top of Model/Bezier.v.
    std::pow is a parameter: the C++ standard does not say how it rounds. *)
From Coq Require Import ZArith List Bool.
From Flocq Require Import IEEE754.BinarySingleNaN.
From Verif Require Import Model.Scalar Model.BoxFloat Model.PlaneFloat Model.Bezier.
Import ListNotations.

Section Bezier.
(** std::pow(x, int), called twice at 49 *)
Variable fpow : b64 -> nat -> b64.

(** BernsteinPolynomial.h 43-52.  [None]: integer division by zero. *)
Definition fbernstein (t : b64) (i n : nat) : option b64 :=
  if (i <=? n)%nat && (0 <? n)%nat then
    match binomial64 i n with
    | None => None
    | Some c => Some (b64_mul (b64_mul (b64_of_Z c) (fpow t i)) (fpow (b64_sub (b64_of_Z 1) t) (n - i)))
    end
  else Some b64_0.

(** controlPoints[i] * b and point += ..., BezierCurve.h 40, for each component *)
Definition fweigh (p : fvec) (b : b64) : fvec := FV (b64_mul (fx p) b) (b64_mul (fy p) b) (b64_mul (fz p) b).
Definition fplus (p q : fvec) : fvec := FV (b64_add (fx p) (fx q)) (b64_add (fy p) (fy q)) (b64_add (fz p) (fz q)).

(** BezierCurve.h 35-43, the loop of Evaluate from index i on. *)
Fixpoint fcurve_from (t : b64) (n i : nat) (ps : list fvec) (point : fvec) : option fvec :=
  match ps with
  | [] => Some point
  | p :: ps' =>
    match fbernstein t i n with
    | None => None
    | Some b => fcurve_from t n (S i) ps' (fplus point (fweigh p b))
    end
  end.
(** BezierCurve.h 35-48, Evaluate and operator() *)
Definition fcurve (ps : list fvec) (t : b64) : option fvec := fcurve_from t (length ps - 1) 0 ps (FV b64_0 b64_0 b64_0).
End Bezier.
