(** include/Geom/UniformSpline.h over exact reals, for 3D vectors (the class builds every dimension on its own). *)
From Coq Require Import ZArith Reals List Bool Arith.
From Flocq Require Import Core IEEE754.BinarySingleNaN.
From Verif Require Import Model.Scalar Model.Vec.
Import ListNotations.
Local Open Scope R_scope.

(** UniformSpline.h 41-60, Polynomial and its Evaluate. *)
Record polynomial := mkPoly { c0 : vec3; c1 : vec3; c2 : vec3; c3 : vec3 }.
Definition poly_eval (p : polynomial) (t : R) : vec3 :=
  vadd (vadd (vadd (c0 p) (vscale t (c1 p))) (vscale t (vscale t (c2 p)))) (vscale t (vscale t (vscale t (c3 p)))).

(** BuildDimension, UniformSpline.h 134-172, for the list [x] of the coordinates of the points in one dimension.  The arrays y, v, q, s
    have as many elements as there are points, at least two; all indices below are in range. *)
Section Dimension.
Variable x : list R.
Variable expansion : R.
Definition num : nat := length x.
Definition px (i : nat) : R := nth i x 0.
(** 140-145 *)
Definition sy (i : nat) : R :=
  if (i =? 0)%nat then 3 * (px 1 - px 0)
  else if (i =? num - 1)%nat then 3 * (px (num - 1) - px (num - 2))
  else 3 * (px (i + 1) - px (i - 1)).
(** 147 and 152 *)
Fixpoint sv (i : nat) : R := match i with O => 1 / 2 | S j => 1 / (4 - sv j) end.
(** 148, 150-156 *)
Fixpoint sq (i : nat) : R :=
  match i with
  | O => 1 / 2 * sy 0
  | S j =>
    if (i =? num - 1)%nat then expansion * (1 / (2 - sv j)) * (sy i - sq j)
    else expansion * sv i * (sy i - sq j)
  end.
(** 158-161: [sdown k] is s[numPoints - 1 - k] *)
Fixpoint sdown (k : nat) : R :=
  match k with
  | O => sq (num - 1)
  | S j => sq (num - 1 - k) - sv (num - 1 - k) * sdown j
  end.
Definition ss (i : nat) : R := sdown (num - 1 - i).
(** 163-171 *)
Definition coeff0 (i : nat) : R := px i.
Definition coeff1 (i : nat) : R := ss i.
Definition coeff2 (i : nat) : R := 3 * px (i + 1) - 3 * px i - 2 * ss i - ss (i + 1).
Definition coeff3 (i : nat) : R := 2 * px i - 2 * px (i + 1) + ss i + ss (i + 1).
End Dimension.

(** Build, 73-82: fewer than two points leave the spline as it is. *)
Definition dims (f : list R -> R) (points : list vec3) : vec3 := V3 (f (map vx points)) (f (map vy points)) (f (map vz points)).
Definition build (old : list polynomial) (points : list vec3) (expansion : R) : list polynomial :=
  if (2 <=? length points)%nat
  then map (fun i => mkPoly (dims (fun x => coeff0 x i) points) (dims (fun x => coeff1 x expansion i) points)
                            (dims (fun x => coeff2 x expansion i) points) (dims (fun x => coeff3 x expansion i) points))
           (seq 0 (length points - 1))
  else old.

(** Evaluate, 102-124.  std::floor is [Int_part]; [None]: the index is out of range. *)
Definition spline_eval (ps : list polynomial) (t : R) : option vec3 :=
  match ps with
  | [] => Some vzero
  | p :: _ =>
    if Rleb t 0 then Some (poly_eval p 0)
    else if Rleb 1 t then Some (poly_eval (last ps p) 1)
    else
      let t := t * INR (length ps) in
      let trimed := Int_part t in
      let t := t - IZR trimed in
      match nth_error ps (Z.to_nat trimed) with
      | Some q => Some (poly_eval q t)
      | None => None
      end
  end.

(** Evaluate, 113-118, in IEEE binary64: the index of the polynomial for a parameter between 0 and 1 and [n] polynomials. *)
Definition spline_index64 (t : b64) (n : Z) : Z := Zfloor (B2R (b64_mul t (b64_of_Z n))).
