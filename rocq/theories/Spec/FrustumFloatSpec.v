(** View volumes of matrices of floating point numbers, and how far rounding can move their sides. *)
From Coq Require Import Reals ZArith List.
From Flocq Require Import Core IEEE754.BinarySingleNaN.
From Verif Require Import Model.Scalar Model.Vec Model.Plane Model.PlaneFloat Model.FrustumFloat Spec.PlaneSpec Spec.FloatSpec.
Import ListNotations.
Local Open Scope R_scope.

Definition exact_row (r : frow) : vec4 := V4 (exact_vec (fxyz r)) (B2R (fw r)).
Definition exact_mat (m : fmat) : mat4 := mkMat4 (exact_row (fm0 m)) (exact_row (fm1 m)) (exact_row (fm2 m)) (exact_row (fm3 m)).

(** The six linear forms of clip coordinates that are not negative in the view volume: z, w + x, w - x, w - y, w + y, w - z. *)
Definition forms (m : mat4) : list vec4 :=
  let plus a b := V4 (V3 (vx (xyz a) + vx (xyz b)) (vy (xyz a) + vy (xyz b)) (vz (xyz a) + vz (xyz b))) (w4 a + w4 b) in
  let minus a b := V4 (V3 (vx (xyz a) - vx (xyz b)) (vy (xyz a) - vy (xyz b)) (vz (xyz a) - vz (xyz b))) (w4 a - w4 b) in
  [m2 m; plus (m3 m) (m0 m); minus (m3 m) (m0 m); minus (m3 m) (m1 m); plus (m3 m) (m1 m); minus (m3 m) (m2 m)].

(** Finite numbers whose products stay far from overflow, and matrices of them whose six forms are not nearly constant. *)
Definition mild (x : b64) : Prop := is_finite x = true /\ Rabs (B2R x) <= bpow radix2 200.
Definition mild_row (r : frow) : Prop := mild (fx (fxyz r)) /\ mild (fy (fxyz r)) /\ mild (fz (fxyz r)) /\ mild (fw r).
Definition proper (r : vec4) : Prop := bpow radix2 (-200) <= len (xyz r).
Definition good_mat (m : fmat) : Prop := mild_row (fm0 m) /\ mild_row (fm1 m) /\ mild_row (fm2 m) /\ mild_row (fm3 m) /\ Forall proper (forms (exact_mat m)).

(** What rounding can change in the value of a form: one part in 2^48 of its terms. *)
Definition blur (r : vec4) (x : vec3) : R := bpow radix2 (-48) * magnitude (xyz r) x (w4 r) + bpow radix2 (-500) * len (xyz r).
