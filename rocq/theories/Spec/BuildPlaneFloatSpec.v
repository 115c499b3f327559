(** What building and flipping a plane should mean for the classification of points. *)
From Coq Require Import Reals ZArith.
From Flocq Require Import Core IEEE754.BinarySingleNaN.
From Verif Require Import Model.Scalar Model.Plane Model.PlaneFloat.
Local Open Scope R_scope.

(** A tolerance: a finite number that is not negative *)
Definition tolerance (e : b64) : Prop := is_finite e = true /\ 0 <= B2R e.
(** Front and back exchanged *)
Definition turned_over (r : relation) : relation := match r with InFrontOf => Behind | Behind => InFrontOf | r => r end.
