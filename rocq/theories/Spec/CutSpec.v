(** What it means that a mesh is cut open along a plane (C90). *)
From Coq Require Import Reals List.
From Verif Require Import Model.Vec Model.Plane Model.Mesh Model.Interp Spec.PlaneSpec Spec.ClosedSpec.
From Verif Require Spec.MeshGenSpec Spec.VolumeSpec.
Import ListNotations.
Local Open Scope R_scope.

(** The triangles of a mesh as triangles in space *)
Definition faces (m : mesh vertex) : list (vec3 * vec3 * vec3) := geometry m (tris m).

(** The edge from p to q is a border: it is used more often in one direction than in the other. *)
Definition border (l : list (vec3 * vec3 * vec3)) (p q : vec3) : Prop := uses l p q <> uses l q p.

(** Both ends are on the plane n * x = d. *)
Definition in_plane (pl : plane) (p q : vec3) : Prop := on_plane false pl p /\ on_plane false pl q.

(** p and q are on the segment between a and b. *)
Definition between (a b p : vec3) : Prop := exists t, 0 <= t <= 1 /\ p = vadd (vscale (1 - t) a) (vscale t b).
Definition part_of_edge (a b p q : vec3) : Prop := between a b p /\ between a b q.

(** The volume between the triangles and a point p: the tetrahedra of the triangles and p *)
Definition volume_from (p : vec3) (l : list (vec3 * vec3 * vec3)) : R := VolumeSpec.volume (map (MeshGenSpec.tmap (fun x => vsub x p)) l).
