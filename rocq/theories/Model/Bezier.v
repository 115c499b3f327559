(** Bernstein polynomials, Bezier curves, Bezier patches and Bezier triangles.
    include/Geom/BernsteinPolynomial.h, BezierCurve.h, BezierPatch.h, BezierTriangle.h.
    Control points are 3D vectors (the 2D classes are the same template); the scalar is an exact real, integers are
    the 32- and 64-bit unsigned integers of the code with their wrap-around.  Default-constructed vectors are zero. *)
From Coq Require Import ZArith Reals List Bool.
From Verif Require Import Model.Vec.
Import ListNotations.

Definition w32 : Z := 2 ^ 32.
Definition w64 : Z := 2 ^ 64.

(** BernsteinPolynomial.h 24-27, Details::Factorial: 64-bit unsigned. *)
Fixpoint factorial64 (n : nat) : Z :=
  match n with
  | O => 1%Z
  | S m => match m with O => 1%Z | S _ => ((Z.of_nat n * factorial64 m) mod w64)%Z end
  end.

(** BernsteinPolynomial.h 29-32, Details::BinomialCoefficient for i <= n.  [None]: integer division by zero. *)
Definition binomial64 (i n : nat) : option Z :=
  let d := ((factorial64 i * factorial64 (n - i)) mod w64)%Z in
  if (d =? 0)%Z then None else Some (factorial64 n / d)%Z.

(** BernsteinPolynomial.h 43-52.  std::pow with an integer exponent is [pow]; the exponents fit an int whenever the
    coefficient exists. *)
Definition bernstein (t : R) (i n : nat) : option R :=
  if (i <=? n)%nat && (0 <? n)%nat then
    match binomial64 i n with
    | None => None
    | Some c => Some (IZR c * t ^ i * (1 - t) ^ (n - i))%R
    end
  else Some 0%R.

(** BezierCurve.h 35-43, the loop of Evaluate from index i on. *)
Fixpoint curve_from (t : R) (n i : nat) (ps : list vec3) (point : vec3) : option vec3 :=
  match ps with
  | [] => Some point
  | p :: ps' =>
    match bernstein t i n with
    | None => None
    | Some b => curve_from t n (S i) ps' (vadd point (vscale b p))
    end
  end.
(** BezierCurve.h 35-48, Evaluate and operator(). *)
Definition curve (ps : list vec3) (t : R) : option vec3 := curve_from t (length ps - 1) 0 ps vzero.

(** BezierPatch.h 28-124: the order and the control points. *)
Record patch := mkPatch { order : Z; cpoints : list vec3 }.

(** BezierPatch.h 98-103, SetOrder: the number of points is computed in 32 bits. *)
Definition patch_count (n : Z) : Z := ((((n + 1) mod w32) * ((n + 1) mod w32)) mod w32)%Z.
Definition patch_of_order (n : Z) : patch := mkPatch n (repeat vzero (Z.to_nat (patch_count n))).
(** BezierPatch.h 34-37, the constructor. *)
Definition patch_new : patch := patch_of_order 0.
(** BezierPatch.h 114-117, GetIndex, in 32 bits. *)
Definition patch_index (n u v : Z) : Z := ((v * ((n + 1) mod w32) + u) mod w32)%Z.

(** Assignment to an element of a std::vector. *)
Fixpoint set_at {A} (l : list A) (k : nat) (x : A) : list A :=
  match l, k with
  | [], _ => []
  | _ :: r, O => x :: r
  | y :: r, S k' => y :: set_at r k' x
  end.

(** BezierPatch.h 73-78, SetControlPoint. *)
Definition patch_set (p : patch) (u v : Z) (x : vec3) : patch :=
  let i := patch_index (order p) u v in
  if (i <? Z.of_nat (length (cpoints p)))%Z then mkPatch (order p) (set_at (cpoints p) (Z.to_nat i) x) else p.
(** BezierPatch.h 85-89, GetControlPoint: a default point when the index is out of range. *)
Definition patch_get (p : patch) (u v : Z) : vec3 :=
  let i := patch_index (order p) u v in
  if (i <? Z.of_nat (length (cpoints p)))%Z then nth (Z.to_nat i) (cpoints p) vzero else vzero.

(** BezierPatch.h 49-65, Evaluate: the inner loop over j for one i, and the outer loop over i. *)
Fixpoint patch_inner (p : patch) (u v : R) (i : nat) (js : list nat) (result : vec3) : option vec3 :=
  match js with
  | [] => Some result
  | j :: js' =>
    let n := Z.to_nat (order p) in
    match bernstein u i n, bernstein v j n with
    | Some a, Some b =>
      patch_inner p u v i js' (vadd result (vscale (a * b) (patch_get p (Z.of_nat i) (Z.of_nat j))))
    | _, _ => None
    end
  end.
Fixpoint patch_outer (p : patch) (u v : R) (is : list nat) (result : vec3) : option vec3 :=
  match is with
  | [] => Some result
  | i :: is' =>
    match patch_inner p u v i (seq 0 (S (Z.to_nat (order p)))) result with
    | None => None
    | Some r => patch_outer p u v is' r
    end
  end.
Definition patch_eval (p : patch) (u v : R) : option vec3 :=
  patch_outer p u v (seq 0 (S (Z.to_nat (order p)))) vzero.

(** A client's calls to SetOrder and SetControlPoint, in any order. *)
Inductive patch_op := POrder (n : Z) | PSet (u v : Z) (x : vec3).
Definition patch_step (p : patch) (o : patch_op) : patch :=
  match o with POrder n => patch_of_order n | PSet u v x => patch_set p u v x end.
Definition patch_run (ops : list patch_op) : patch := fold_left patch_step ops patch_new.

(** BezierTriangle.h 85-90, SetOrder; Gs::GaussianSum(n) = 1 + ... + n. *)
Definition triangle_count (n : Z) : Z := ((((n + 1) * (n + 2)) / 2) mod w32)%Z.
Definition triangle_of_order (n : Z) : patch := mkPatch n (repeat vzero (Z.to_nat (triangle_count n))).
Definition triangle_new : patch := triangle_of_order 0.
(** BezierTriangle.h 104-107, GetIndex, in 32 bits. *)
Definition triangle_index (n i j : Z) : Z :=
  if (0 <? j)%Z then ((j * ((n + 1) mod w32) - j + 1 + i) mod w32)%Z else i.
(** BezierTriangle.h 59-64 and 72-76, SetControlPoint and GetControlPoint. *)
Definition triangle_set (p : patch) (i j : Z) (x : vec3) : patch :=
  let k := triangle_index (order p) i j in
  if (k <? Z.of_nat (length (cpoints p)))%Z then mkPatch (order p) (set_at (cpoints p) (Z.to_nat k) x) else p.
Definition triangle_get (p : patch) (i j : Z) : vec3 :=
  let k := triangle_index (order p) i j in
  if (k <? Z.of_nat (length (cpoints p)))%Z then nth (Z.to_nat k) (cpoints p) vzero else vzero.

Inductive triangle_op := TOrder (n : Z) | TSet (i j : Z) (x : vec3).
Definition triangle_step (p : patch) (o : triangle_op) : patch :=
  match o with TOrder n => triangle_of_order n | TSet i j x => triangle_set p i j x end.
Definition triangle_run (ops : list triangle_op) : patch := fold_left triangle_step ops triangle_new.
