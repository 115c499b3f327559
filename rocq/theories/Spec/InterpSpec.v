(** Linear combinations of vertices; which scalars a vertex description covers. *)
From Coq Require Import Reals List Arith.
From Verif Require Import Model.Vec Model.Mesh Model.Interp.
Import ListNotations.
Local Open Scope R_scope.

(** Position [p] of a vertex belongs to one of the described attributes. *)
Definition covered (l : list attrib) (p : nat) : Prop :=
  exists a, In a l /\ (offset a <= p < offset a + components a)%nat.

Definition combine3 (w : vec3) (a b c : vec3) : vec3 := vadd (vadd (vscale (vx w) a) (vscale (vy w) b)) (vscale (vz w) c).
Definition combine2 (w : vec3) (a b c : vec2) : vec2 := add2 (add2 (scale2 (vx w) a) (scale2 (vy w) b)) (scale2 (vz w) c).
(** w.x * a + w.y * b + w.z * c, attribute by attribute. *)
Definition combine_vertices (w : vec3) (a b c : vertex) : vertex :=
  mkVertex (combine3 w (position a) (position b) (position c)) (combine3 w (normal a) (normal b) (normal c))
           (combine2 w (tex_coord a) (tex_coord b) (tex_coord c)).
