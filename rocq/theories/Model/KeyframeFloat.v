(** Interpolation of keyframes in IEEE binary64: sources/KeyframeSequence.cpp 35-50, 149-151, on top of Model/Keyframe.v. *)
From Coq Require Import ZArith Reals.
From Flocq Require Import Core IEEE754.BinarySingleNaN.
From Verif Require Import Model.Scalar Model.BoxFloat Model.PlaneFloat Model.Keyframe.

(** FrameInterpolator, 35-38: both std::size_t values are converted to Gs::Real *)
Definition fframe_interp (from to current : Z) : b64 := b64_div (b64_of_Z (size_wrap (current - from))) (b64_of_Z (size_wrap (to - from))).

(** Gs::Lerp for one component, called at 43, 149 and 151: x = b; x -= a; x *= t; x += a *)
Definition flerp (a b t : b64) : b64 := b64_add (b64_mul (b64_sub b a) t) a.
Definition flerp3 (a b : fvec) (t : b64) : fvec := FV (flerp (fx a) (fx b) t) (flerp (fy a) (fy b) t) (flerp (fz a) (fz b) t).

(** The nearest number in double precision.  Model/Keyframe.v passes the exact quotient to the interpolation; rounded it is what [fframe_interp] computes
    (Props/KeyframeFloatProps.v C94_interpolator). *)
Definition b64_of_R (t : R) : b64 :=
  let r := round radix2 (FLT_exp (3 - 1024 - 53) 53) ZnearestE t in
  binary_normalize 53 1024 b64_prec_gt_0 b64_prec_lt_emax mode_NE (Ztrunc (scaled_mantissa radix2 (FLT_exp (3 - 1024 - 53) 53) r)) (cexp radix2 (FLT_exp (3 - 1024 - 53) 53) r) false.

(** Positions and scalings of keyframes.  With an infinite parameter the result is infinite or not a number. *)
Definition float_interp : interp fvec := mkInterp (fun a b t => flerp3 a b (b64_of_R t)) (fun _ _ => FV B754_nan B754_nan B754_nan).
