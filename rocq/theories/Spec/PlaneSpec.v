(** What planes, boxes, cones, spheres and convex hulls are as sets of points; independent of the functions of the model. *)
From Coq Require Import Reals List.
From Verif Require Import Model.Vec Model.Plane.
Local Open Scope R_scope.

(** The two documented plane equations: n*x = d, and n*x + d = 0. *)
Definition side (alt : bool) (p : plane) (x : vec3) : R :=
  if alt then dot (normal p) x + distance p else dot (normal p) x - distance p.
Definition on_plane (alt : bool) (p : plane) (x : vec3) : Prop := side alt p x = 0.
Definition in_front (alt : bool) (p : plane) (x : vec3) : Prop := 0 < side alt p x.

Definition unit (v : vec3) : Prop := dot v v = 1.
Definition dist (a b : vec3) : R := len (vsub a b).

(** Points of a box, an oriented box, a solid sphere, a segment, a ray. *)
Definition in_box (b : aabb) (x : vec3) : Prop :=
  vx (bmin b) <= vx x <= vx (bmax b) /\ vy (bmin b) <= vy x <= vy (bmax b) /\ vz (bmin b) <= vz x <= vz (bmax b).
Definition in_obb (b : obb) (x : vec3) : Prop :=
  exists u v w, Rabs u <= vx (ohalf b) /\ Rabs v <= vy (ohalf b) /\ Rabs w <= vz (ohalf b) /\
  x = vadd (ocenter b) (vadd (vscale u (oaxx b)) (vadd (vscale v (oaxy b)) (vscale w (oaxz b)))).
Definition in_ball (s : sphere) (x : vec3) : Prop := dist x (sorigin s) <= sradius s.
Definition on_segment (l : line) (x : vec3) : Prop :=
  exists t, 0 <= t <= 1 /\ x = vadd (vscale (1 - t) (la l)) (vscale t (lb l)).
Definition on_ray (r : ray) (x : vec3) : Prop := exists t, 0 <= t /\ x = vadd (rorigin r) (vscale t (rdirection r)).
Definition on_line (r : ray) (x : vec3) : Prop := exists t, x = vadd (rorigin r) (vscale t (rdirection r)).

(** Points of a solid cone: at the fraction [s] of its height, up to [s] times its radius away from its axis. *)
Definition in_cone (c : cone) (x : vec3) : Prop :=
  exists s e, 0 <= s <= 1 /\ dot e (cdirection c) = 0 /\ len e <= s * cradius c /\
  x = vadd (cpoint c) (vadd (vscale (s * cheight c) (cdirection c)) e).

(** The hull of planes whose normals point outwards. *)
Definition in_hull (alt : bool) (planes : list plane) (x : vec3) : Prop :=
  forall p, In p planes -> ~ in_front alt p x.

(** Rigid motions *)
Definition rigid (m : affine) : Prop :=
  forall u v, dot (rotate_vector m u) (rotate_vector m v) = dot u v.

(** Clip coordinates of a point and the view volume |x| <= w, |y| <= w, 0 <= z <= w. *)
Definition clip (r : vec4) (x : vec3) : R := dot (xyz r) x + w4 r.
Definition in_view_volume (m : mat4) (x : vec3) : Prop :=
  - clip (m3 m) x <= clip (m0 m) x <= clip (m3 m) x /\
  - clip (m3 m) x <= clip (m1 m) x <= clip (m3 m) x /\
  0 <= clip (m2 m) x <= clip (m3 m) x.
