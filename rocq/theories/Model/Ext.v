(** Results of C++ floating-point divisions over exact reals: a zero divisor gives an infinity or not-a-number instead of
    a real number. *)
From Coq Require Import Reals Bool.
From Verif Require Import Model.Scalar.
Local Open Scope R_scope.

Inductive ext := Fin (r : R) | PInf | NInf | NaN.

(** operator / of float and double without rounding; [neg] is the sign of a zero divisor, which the reals do not record. *)
Definition ediv (neg : bool) (a b : R) : ext :=
  if Reqb b 0
  then if Reqb a 0 then NaN else if eqb (Rltb 0 a) neg then NInf else PInf
  else Fin (a / b).

(** [t >= c] and [t <= c] for a real constant c; comparisons with not-a-number are false. *)
Definition ext_ge (t : ext) (c : R) : bool := match t with Fin r => Rleb c r | PInf => true | _ => false end.
Definition ext_le (t : ext) (c : R) : bool := match t with Fin r => Rleb r c | NInf => true | _ => false end.
