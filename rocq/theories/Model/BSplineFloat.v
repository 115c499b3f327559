(** include/Geom/Spline.h in IEEE binary64, for 3D vectors, on top of Model/Spline.v. *)
From Coq Require Import ZArith List Bool.
From Flocq Require Import IEEE754.BinarySingleNaN.
From Verif Require Import Model.Scalar Model.BoxFloat Model.PlaneFloat Model.Spline Model.BezierFloat.
Import ListNotations.

(** Spline.h 124-127, Interval, with Idx (110-117) as in Model/Spline.v; [None]: read out of range *)
Definition finterval (l : list (fvec * b64)) (i : Z) : option b64 := option_map snd (nth_error l (idx (length l) i)).

(** Spline.h 129-151, BernsteinPolynomial(q, i, t) for q >= 0; dx > 0 is 0 < dx *)
Fixpoint fbasis (l : list (fvec * b64)) (q : nat) (i : Z) (t : b64) : option b64 :=
  obind (finterval l i) (fun xi =>
  obind (finterval l (i + 1)) (fun xi1 =>
  match q with
  | O => Some (if Bleb xi t && Bltb t xi1 then b64_of_Z 1 else b64_0)
  | S q' =>
    obind (finterval l (i + Z.of_nat q)) (fun xiq =>
    obind (finterval l (i + Z.of_nat q + 1)) (fun xiq1 =>
    let dx1 := b64_sub xiq xi in
    let dx2 := b64_sub xiq1 xi1 in
    obind (if Bltb b64_0 dx1 then option_map (fun b => b64_mul (b64_div (b64_sub t xi) dx1) b) (fbasis l q' i t) else Some b64_0) (fun r1 =>
    obind (if Bltb b64_0 dx2 then option_map (fun b => b64_mul (b64_div (b64_sub xiq1 t) dx2) b) (fbasis l q' (i + 1) t) else Some b64_0) (fun r2 =>
    Some (b64_add r1 r2)))))
  end)).

(** Spline.h 61-73, Evaluate, for a spline with the control points [l] and the order [q] >= 0: the loop over the points [rest], with j counted along. *)
Fixpoint fevaluate_from (l : list (fvec * b64)) (q : nat) (t : b64) (rest : list (fvec * b64)) (j : Z) (result : fvec) : option fvec :=
  match rest with
  | [] => Some result
  | (p, _) :: rest' =>
    obind (fbasis l q j t) (fun b => fevaluate_from l q t rest' (j + 1) (fplus result (fweigh p b)))
  end.
Definition fevaluate (l : list (fvec * b64)) (q : nat) (t : b64) : option fvec :=
  fevaluate_from l q t l (- Z.of_nat q) (FV b64_0 b64_0 b64_0).
