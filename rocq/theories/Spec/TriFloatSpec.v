(** Rays and triangles of floating point numbers as exact ones, and how far rounding can move a triple product. *)
From Coq Require Import Reals ZArith.
From Flocq Require Import Core IEEE754.BinarySingleNaN.
From Verif Require Import Model.Scalar Model.Vec Model.Plane Model.Tri Model.PlaneFloat Model.TriFloat Spec.TriSpec Spec.FloatSpec Spec.FrustumFloatSpec.
Local Open Scope R_scope.

Definition exact_tri (t : ftri) : triangle := mkTri (exact_vec (fta t)) (exact_vec (ftb t)) (exact_vec (ftc t)).
Definition exact_ray (r : fray) : ray := mkRay (exact_vec (frorigin r)) (exact_vec (frdirection r)).
Definition mild_vec (v : fvec) : Prop := mild (fx v) /\ mild (fy v) /\ mild (fz v).
Definition mild_tri (t : ftri) : Prop := mild_vec (fta t) /\ mild_vec (ftb t) /\ mild_vec (ftc t).
Definition mild_ray (r : fray) : Prop := mild_vec (frorigin r) /\ mild_vec (frdirection r).

(** On which side of the edge from [p] to [q] a ray passes: positive on the inner side of the edges of a triangle that is seen anticlockwise. *)
Definition beside (r : ray) (p q : vec3) : R := dot (vsub p (rorigin r)) (cross (rdirection r) (vsub q (rorigin r))).

(** The six products of a triple product, all positive; and what rounding can change in it: one part in 2^49 of them. *)
Definition size (a b c : vec3) : R :=
  Rabs (vx a * vy b * vz c) + Rabs (vx a * vz b * vy c) + Rabs (vy a * vz b * vx c) + Rabs (vy a * vx b * vz c) + Rabs (vz a * vx b * vy c) + Rabs (vz a * vy b * vx c).
Definition unsure (a b c : vec3) : R := bpow radix2 (-49) * size a b c + bpow radix2 (-700).
Definition edge_unsure (r : ray) (p q : vec3) : R := unsure (vsub p (rorigin r)) (rdirection r) (vsub q (rorigin r)).
(** The same for the side of the triangle that a direction or a point faces. *)
Definition facing (t : triangle) (d : vec3) : R := dot (cross (vsub (pb t) (pa t)) (vsub (pc t) (pa t))) d.
Definition face_unsure (t : triangle) (d : vec3) : R := unsure (vsub (pb t) (pa t)) (vsub (pc t) (pa t)) d.
(** A ray enters through the front and starts before it, or passes an edge on its inner side, by more than the slack. *)
Definition sure_face (t : triangle) (r : ray) : Prop :=
  facing t (rdirection r) < - face_unsure t (rdirection r) /\ face_unsure t (rorigin r) + face_unsure t (pa t) < above t (rorigin r).
Definition sure_edge (r : ray) (p q : vec3) : Prop := edge_unsure r p q <= beside r p q.
