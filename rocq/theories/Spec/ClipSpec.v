(** Points of triangles and of polygons given as triangle fans. *)
From Coq Require Import Reals List.
From Verif Require Import Model.Vec Model.Plane Spec.PlaneSpec Spec.InterpSpec.
Import ListNotations.
Local Open Scope R_scope.

(** Barycentric coordinates of a point of a triangle: not negative, with sum 1. *)
Definition bary (w : vec3) : Prop := 0 <= vx w /\ 0 <= vy w /\ 0 <= vz w /\ vx w + vy w + vz w = 1.

(** [x] is a point of the triangle p q r. *)
Definition in_tri (p q r x : vec3) : Prop := exists w, bary w /\ x = combine3 w p q r.

(** The triangles of a polygon p0 p1 p2 ... drawn as a fan: (p0, p1, p2), (p0, p2, p3), ... *)
Fixpoint fan_from (p q : vec3) (l : list vec3) : list (vec3 * vec3 * vec3) :=
  match l with [] => [] | r :: l' => (p, q, r) :: fan_from p r l' end.
Definition fan (l : list vec3) : list (vec3 * vec3 * vec3) :=
  match l with p :: q :: l' => fan_from p q l' | _ => [] end.
Definition in_fan (l : list vec3) (x : vec3) : Prop := exists p q r, In (p, q, r) (fan l) /\ in_tri p q r x.

(** Twice the signed area of p q r, relative to the triangle the coordinates refer to. *)
Definition orientation (p q r : vec3) : R := dot p (cross q r).
