(** Vocabulary for the intersection and closest-point properties. *)
From Coq Require Import Reals.
From Verif Require Import Model.Scalar Model.Vec Model.Plane Spec.PlaneSpec.
Local Open Scope R_scope.

(** A direction component is zero or not smaller than eps; components that are not are replaced by zero. *)
Definition clear_cut (eps x : R) : Prop := x = 0 \/ eps <= Rabs x.
Definition clear_direction (eps : R) (d : vec3) : Prop := clear_cut eps (vx d) /\ clear_cut eps (vy d) /\ clear_cut eps (vz d).
Definition flush (eps x : R) : R := if Rltb (Rabs x) eps then 0 else x.
Definition flush_ray (eps : R) (r : ray) : ray :=
  mkRay (rorigin r) (V3 (flush eps (vx (rdirection r))) (flush eps (vy (rdirection r))) (flush eps (vz (rdirection r)))).

Definition nonempty_box (b : aabb) : Prop := exists x, in_box b x.
(** The point of a ray (or of the line through a segment) at parameter t *)
Definition ray_at (r : ray) (t : R) : vec3 := vadd (rorigin r) (vscale t (rdirection r)).
Definition segment_at (l : line) (t : R) : vec3 := vadd (vscale (1 - t) (la l)) (vscale t (lb l)).

(** The surface of a sphere *)
Definition on_sphere (s : sphere) (x : vec3) : Prop := dist x (sorigin s) = sradius s.

(** [x] is a point of the set [P] nearest to [y]. *)
Definition nearest (P : vec3 -> Prop) (y x : vec3) : Prop := P x /\ forall z, P z -> dist x y <= dist z y.
(** [l] connects the sets [P] and [Q] by the shortest way. *)
Definition shortest (P Q : vec3 -> Prop) (l : line) : Prop :=
  P (la l) /\ Q (lb l) /\ forall x y, P x -> Q y -> dist (la l) (lb l) <= dist x y.
