(** Far corners of a view frustum and what a bounding box of it has to contain. *)
From Coq Require Import Reals List.
From Verif Require Import Model.Vec Model.Plane Spec.PlaneSpec.
Import ListNotations.
Local Open Scope R_scope.

(** Upper or lower side plane, left or right side plane of a frustum. *)
Definition upper (top : bool) (f : frustum) : plane := if top then ftop f else fbottom f.
Definition lateral (left : bool) (f : frustum) : plane := if left then fleft f else fright f.

(** [q] is the only common point of the far plane and two side planes, which are not parallel within the tolerance. *)
Definition is_corner (alt : bool) (f : frustum) (eps : R) (top left : bool) (q : vec3) : Prop :=
  on_plane alt (ffar f) q /\ on_plane alt (upper top f) q /\ on_plane alt (lateral left f) q /\
  dot (normal (lateral left f)) (cross (normal (ffar f)) (normal (upper top f))) <> 0 /\
  eps < dot (cross (normal (ffar f)) (normal (upper top f))) (cross (normal (ffar f)) (normal (upper top f))).

(** The foot of the perpendicular from the world origin to the line through a and b is strictly between them. *)
Definition foot_between (a b : vec3) : Prop := exists t, 0 < t < 1 /\ dot (vadd a (vscale t (vsub b a))) (vsub b a) = 0 /\ a <> b.

(** Convex combinations of the viewer's position and the four far corners. *)
Definition in_pyramid (o lt lb rt rb x : vec3) : Prop :=
  exists w0 w1 w2 w3 w4, 0 <= w0 /\ 0 <= w1 /\ 0 <= w2 /\ 0 <= w3 /\ 0 <= w4 /\ w0 + w1 + w2 + w3 + w4 = 1 /\
  x = vadd (vscale w0 o) (vadd (vscale w1 lt) (vadd (vscale w2 lb) (vadd (vscale w3 rt) (vscale w4 rb)))).

(** The smallest box that contains all given points. *)
Definition least_box (b : aabb) (ps : list vec3) : Prop :=
  (forall p, In p ps -> in_box b p) /\ forall c, (forall p, In p ps -> in_box c p) -> forall x, in_box b x -> in_box c x.
