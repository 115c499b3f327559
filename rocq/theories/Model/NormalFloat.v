(** Model of the normal of a triangle (Triangle.h) in C++ [double]: IEEE binary64 with rounding to nearest. *)
From Flocq Require Import IEEE754.BinarySingleNaN.
From Verif Require Import Model.Scalar Model.BoxFloat Model.PlaneFloat Model.TriFloat.

(** Triangle.h 248-251; [fcross] computes each component of Gs::Cross as a difference of two products. *)
Definition ftriangle_normal (t : ftri) : fvec := fcross (fminus (ftb t) (fta t)) (fminus (ftc t) (fta t)).
