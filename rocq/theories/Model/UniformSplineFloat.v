(** include/Geom/UniformSpline.h in IEEE binary64, for 3D vectors, on top of Model/UniformSpline.v. *)
From Coq Require Import ZArith List Bool Arith.
From Flocq Require Import IEEE754.BinarySingleNaN.
From Verif Require Import Model.Scalar Model.BoxFloat Model.PlaneFloat Model.BoxRayFloat Model.BezierFloat.
Import ListNotations.

(** UniformSpline.h 41-60, Polynomial and its Evaluate: the products of vectors and scalars from left to right, then the sums. *)
Record fpolynomial := mkFPoly { fc0 : fvec; fc1 : fvec; fc2 : fvec; fc3 : fvec }.
Definition fcubic (a b c d t : b64) : b64 :=
  b64_add (b64_add (b64_add a (b64_mul b t)) (b64_mul (b64_mul c t) t)) (b64_mul (b64_mul (b64_mul d t) t) t).
Definition fpoly_eval (p : fpolynomial) (t : b64) : fvec :=
  FV (fcubic (fx (fc0 p)) (fx (fc1 p)) (fx (fc2 p)) (fx (fc3 p)) t)
     (fcubic (fy (fc0 p)) (fy (fc1 p)) (fy (fc2 p)) (fy (fc3 p)) t)
     (fcubic (fz (fc0 p)) (fz (fc1 p)) (fz (fc2 p)) (fz (fc3 p)) t).

(** BuildDimension, UniformSpline.h 134-172, for the list [x] of the coordinates of the points in one dimension; the integers 2, 3 and 4 are
    converted to double.  The arrays y, v, q, s have as many elements as there are points, at least two; all indices below are in range. *)
Section Dimension.
Variable x : list b64.
Variable expansion : b64.
Definition fnum : nat := length x.
Definition fpx (i : nat) : b64 := nth i x b64_0.
(** 140-145 *)
Definition fsy (i : nat) : b64 :=
  b64_mul (b64_of_Z 3)
    (if (i =? 0)%nat then b64_sub (fpx 1) (fpx 0)
     else if (i =? fnum - 1)%nat then b64_sub (fpx (fnum - 1)) (fpx (fnum - 2))
     else b64_sub (fpx (i + 1)) (fpx (i - 1))).
(** T(0.5) *)
Definition fspline_half : b64 := b64_div (b64_of_Z 1) (b64_of_Z 2).
(** 147 and 152 *)
Fixpoint fsv (i : nat) : b64 := match i with O => fspline_half | S j => b64_div (b64_of_Z 1) (b64_sub (b64_of_Z 4) (fsv j)) end.
(** 148, 150-156 *)
Fixpoint fsq (i : nat) : b64 :=
  match i with
  | O => b64_mul fspline_half (fsy 0)
  | S j =>
    if (i =? fnum - 1)%nat then b64_mul (b64_mul expansion (b64_div (b64_of_Z 1) (b64_sub (b64_of_Z 2) (fsv j)))) (b64_sub (fsy i) (fsq j))
    else b64_mul (b64_mul expansion (fsv i)) (b64_sub (fsy i) (fsq j))
  end.
(** 158-161: [fsdown k] is s[numPoints - 1 - k] *)
Fixpoint fsdown (k : nat) : b64 :=
  match k with
  | O => fsq (fnum - 1)
  | S j => b64_sub (fsq (fnum - 1 - k)) (b64_mul (fsv (fnum - 1 - k)) (fsdown j))
  end.
Definition fss (i : nat) : b64 := fsdown (fnum - 1 - i).
(** 163-171 *)
Definition fcoeff0 (i : nat) : b64 := fpx i.
Definition fcoeff1 (i : nat) : b64 := fss i.
Definition fcoeff2 (i : nat) : b64 :=
  b64_sub (b64_sub (b64_sub (b64_mul (b64_of_Z 3) (fpx (i + 1))) (b64_mul (b64_of_Z 3) (fpx i))) (b64_mul (b64_of_Z 2) (fss i))) (fss (i + 1)).
Definition fcoeff3 (i : nat) : b64 :=
  b64_add (b64_add (b64_sub (b64_mul (b64_of_Z 2) (fpx i)) (b64_mul (b64_of_Z 2) (fpx (i + 1)))) (fss i)) (fss (i + 1)).
End Dimension.

(** Build, 73-82: fewer than two points leave the spline as it is. *)
Definition fdims (f : list b64 -> b64) (points : list fvec) : fvec := FV (f (map fx points)) (f (map fy points)) (f (map fz points)).
Definition fbuild (old : list fpolynomial) (points : list fvec) (expansion : b64) : list fpolynomial :=
  if (2 <=? length points)%nat
  then map (fun i => mkFPoly (fdims (fun x => fcoeff0 x i) points) (fdims (fun x => fcoeff1 x expansion i) points)
                             (fdims (fun x => fcoeff2 x expansion i) points) (fdims (fun x => fcoeff3 x expansion i) points))
           (seq 0 (length points - 1))
  else old.

(** std::floor *)
Definition ffloor (t : b64) : b64 := @Bnearbyint 53 1024 b64_prec_lt_emax mode_DN t.
(** Evaluate, 102-124.  [None]: the index is out of range, or a NaN is converted to an integer (undefined behaviour). *)
Definition fspline_eval (ps : list fpolynomial) (t : b64) : option fvec :=
  match ps with
  | [] => Some (FV b64_0 b64_0 b64_0)
  | p :: _ =>
    if b64_leb t b64_0 then Some (fpoly_eval p b64_0)
    else if b64_leb (b64_of_Z 1) t then Some (fpoly_eval (last ps p) (b64_of_Z 1))
    else
      let t := b64_mul t (b64_of_Z (Z.of_nat (length ps))) in
      let trimed := ffloor t in
      let t := b64_sub t trimed in
      if is_finite trimed then
        match nth_error ps (Z.to_nat (Btrunc trimed)) with
        | Some q => Some (fpoly_eval q t)
        | None => None
        end
      else None
  end.
