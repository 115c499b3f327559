(** Gs::Vector2T, Gs::Vector3T and the functions of GaussianLib used by GeometronLib, over exact reals.  GaussianLib is not
    part of /repo: these definitions give its functions their mathematical meaning (trusted, see DESIGN.md). *)
From Coq Require Import Reals.
From Verif Require Import Model.Scalar.
Local Open Scope R_scope.

Record vec2 := V2 { x2 : R; y2 : R }.
Record vec3 := V3 { vx : R; vy : R; vz : R }.

Definition add2 (a b : vec2) : vec2 := V2 (x2 a + x2 b) (y2 a + y2 b).
Definition sub2 (a b : vec2) : vec2 := V2 (x2 a - x2 b) (y2 a - y2 b).
Definition scale2 (s : R) (a : vec2) : vec2 := V2 (s * x2 a) (s * y2 a).
Definition dot2 (a b : vec2) : R := x2 a * x2 b + y2 a * y2 b.

Definition vzero : vec3 := V3 0 0 0.
Definition vadd (a b : vec3) : vec3 := V3 (vx a + vx b) (vy a + vy b) (vz a + vz b).
Definition vsub (a b : vec3) : vec3 := V3 (vx a - vx b) (vy a - vy b) (vz a - vz b).
Definition vopp (a : vec3) : vec3 := V3 (- vx a) (- vy a) (- vz a).
Definition vscale (s : R) (a : vec3) : vec3 := V3 (s * vx a) (s * vy a) (s * vz a).
(** Gs::Dot, Gs::Cross *)
Definition dot (a b : vec3) : R := vx a * vx b + vy a * vy b + vz a * vz b.
Definition cross (a b : vec3) : vec3 :=
  V3 (vy a * vz b - vz a * vy b) (vz a * vx b - vx a * vz b) (vx a * vy b - vy a * vx b).
(** LengthSq(), Length() *)
Definition len_sq (a : vec3) : R := dot a a.
Definition len (a : vec3) : R := sqrt (dot a a).
(** Gs::Normalize: vectors of length 0 or 1 are left alone, others are scaled by 1/length. *)
Definition normalize (a : vec3) : vec3 :=
  if Reqb (dot a a) 0 then a else if Reqb (dot a a) 1 then a else vscale (/ len a) a.
(** Gs::Lerp *)
Definition lerp3 (a b : vec3) (t : R) : vec3 := vadd a (vscale t (vsub b a)).
