(** Normals of triangles of double precision. *)
From Coq Require Import Reals ZArith.
From Flocq Require Import Core IEEE754.BinarySingleNaN.
From Verif Require Import Model.Scalar Model.Vec Model.PlaneFloat Model.TriFloat Spec.FloatSpec Spec.ClipFloatSpec Spec.BaryFloatSpec.
Local Open Scope R_scope.

(** The exact normal (b - a) x (c - a) *)
Definition exact_normal (t : ftri) : vec3 := cross (vsub (exact_vec (ftb t)) (exact_vec (fta t))) (vsub (exact_vec (ftc t)) (exact_vec (fta t))).
(** All coordinates of the corners are within [d] of each other. *)
Definition tri_extent (d : R) (t : ftri) : Prop := within d (ftb t) (fta t) /\ within d (ftc t) (fta t).
(** The other orientation *)
Definition swapped (t : ftri) : ftri := mkFTri (fta t) (ftc t) (ftb t).
Definition rotated (t : ftri) : ftri := mkFTri (ftb t) (ftc t) (fta t).
