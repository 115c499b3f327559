(** Scalars used by the model.

    GeometronLib computes with [Gs::Real] or with a template parameter [T], which is [float] or
    [double] ([/repo/include/Geom/Config.h], [GM_ASSERT_FLOAT_TYPE]).  Most of the model uses exact
    real numbers ([RScalar]); rounding is then not modelled.  Code whose behaviour depends on
    rounding is written over an arbitrary [scalar], so that the same definitions can be run over
    IEEE-754 binary64 numbers ([B64Scalar], Flocq's [binary_float 53 1024]). *)
From Coq Require Import Reals ZArith Bool.
From Flocq Require Import IEEE754.BinarySingleNaN.

(** A scalar type: carrier, the constants 0 and 1, the arithmetic operators and the comparison
    [x <= y] of C++ (false when an operand is NaN). *)
Record scalar := mkScalar {
  car  : Type;
  s0   : car;
  s1   : car;
  sadd : car -> car -> car;
  ssub : car -> car -> car;
  smul : car -> car -> car;
  sle  : car -> car -> bool
}.

Definition Rleb (x y : R) : bool := if Rle_dec x y then true else false.
Definition Rltb (x y : R) : bool := if Rlt_dec x y then true else false.
Definition Reqb (x y : R) : bool := if Req_EM_T x y then true else false.

(** Exact real arithmetic. *)
Definition RScalar : scalar := mkScalar R 0%R 1%R Rplus Rminus Rmult Rleb.

Canonical RScalar.

(** C++ [double] with round-to-nearest-even. *)
Definition b64 := binary_float 53 1024.
Definition b64_prec_gt_0 : FLX.Prec_gt_0 53 := eq_refl.
Definition b64_prec_lt_emax : Prec_lt_emax 53 1024 := eq_refl.
Definition b64_0 : b64 := B754_zero false.
Definition b64_of_Z (z : Z) : b64 :=
  binary_normalize 53 1024 b64_prec_gt_0 b64_prec_lt_emax mode_NE z 0 false.
Definition b64_add : b64 -> b64 -> b64 := @Bplus 53 1024 b64_prec_gt_0 b64_prec_lt_emax mode_NE.
Definition b64_sub : b64 -> b64 -> b64 := @Bminus 53 1024 b64_prec_gt_0 b64_prec_lt_emax mode_NE.
Definition b64_mul : b64 -> b64 -> b64 := @Bmult 53 1024 b64_prec_gt_0 b64_prec_lt_emax mode_NE.
Definition b64_leb (x y : b64) : bool := Bleb x y.

Definition B64Scalar : scalar :=
  mkScalar b64 b64_0 (b64_of_Z 1) b64_add b64_sub b64_mul b64_leb.
