(** Texture directions on a triangle, for C60. *)
From Coq Require Import Reals.
From Verif Require Import Model.Vec Model.Tri.
Local Open Scope R_scope.

(** [S] and [T]: how the position changes with the first and the second texture coordinate. *)
Definition texture_directions (t : triangle) (st : triangle2) (S T : vec3) : Prop :=
  vsub (pb t) (pa t) = vadd (vscale (x2 (b2 st) - x2 (a2 st)) S) (vscale (y2 (b2 st) - y2 (a2 st)) T) /\
  vsub (pc t) (pa t) = vadd (vscale (x2 (c2 st) - x2 (a2 st)) S) (vscale (y2 (c2 st) - y2 (a2 st)) T).
(** Twice the signed area of the texture triangle: negative for mirrored textures. *)
Definition texture_area (st : triangle2) : R :=
  (x2 (b2 st) - x2 (a2 st)) * (y2 (c2 st) - y2 (a2 st)) - (x2 (c2 st) - x2 (a2 st)) * (y2 (b2 st) - y2 (a2 st)).
Definition direction_of (v : vec3) : vec3 := vscale (/ len v) v.
