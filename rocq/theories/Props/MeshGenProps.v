(** C51-C56: the mesh generators. *)
From Coq Require Import ZArith Reals List Bool Arith Lia Lra.
From Verif Require Import Model.Scalar Model.Vec Model.Aabb Model.Mesh Model.Interp Model.Bezier Model.Transforms Model.MeshGen Spec.MeshGenSpec Spec.SurfaceSpec
  Proofs.MeshGenTotal Proofs.MeshGenResult Proofs.MeshGenMain Proofs.MeshGenSurface Proofs.MeshGenWrap.
Import ListNotations.
Local Open Scope nat_scope.

(** C51: a generator that returns has only appended, and the new triangles use new vertices only. *)
Theorem C51_only_append d m m' : valid d -> generate d m = Ok m' ->
  verts m' = verts m ++ new_vertices m m' /\ tris m' = tris m ++ new_triangles m m' /\
  forall a b c, In (a, b, c) (new_triangles m m') ->
    length (verts m) <= a < length (verts m') /\ length (verts m) <= b < length (verts m') /\ length (verts m) <= c < length (verts m').
Proof. exact (extends_holds d m m'). Qed.
Print Assumptions C51_only_append.

(** Generators do return, without assertion or undefined behaviour, if the numbers stay below 2^32. *)
Theorem C51_returns d m : valid d -> defined d -> (Z.of_nat (vertex_count d) < 2 ^ 32)%Z -> exists m', generate d m = Ok m'.
Proof. exact (succeeds_holds d m). Qed.
Print Assumptions C51_returns.

(** They do not if a segment count is 2^32 - 1: the loop never ends. *)
Theorem C51_returns_refuted : exists d, valid d /\ defined d /\ forall m, generate d m = Endless.
Proof. exact endless_hold. Qed.
Print Assumptions C51_returns_refuted.

(** C52 *)
Theorem C52_counts d m m' : valid d -> generate d m = Ok m' ->
  length (verts m') = length (verts m) + vertex_count d /\ length (tris m') = length (tris m) + triangle_count d.
Proof. exact (counts_holds d m m'). Qed.
Print Assumptions C52_counts.

(** C53: up to 2^32 vertices, no directed edge belongs to two triangles. *)
Theorem C53_oriented_partial d m m' : valid d -> (Z.of_nat (vertex_count d) <= 2 ^ 32)%Z -> generate d m = Ok m' ->
  NoDup (directed_edges (new_triangles m m')).
Proof. exact (edges_holds d m m'). Qed.
Print Assumptions C53_oriented_partial.

(** Beyond, grid indices wrap and triangles are generated twice. *)
Theorem C53_oriented_refuted : exists d, valid d /\ defined d /\
  forall m, exists m', generate d m = Ok m' /\ ~ NoDup (directed_edges (new_triangles m m')).
Proof. exact doubled_hold. Qed.
Print Assumptions C53_oriented_refuted.

(** Curves and torus knots are watertight. *)
Theorem C53_watertight_partial d m m' : valid d -> (Z.of_nat (vertex_count d) <= 2 ^ 32)%Z ->
  (exists c, d = DCurve c) \/ (exists k, d = DKnot k) -> generate d m = Ok m' -> watertight (new_triangles m m').
Proof. exact (watertight_holds d m m'). Qed.
Print Assumptions C53_watertight_partial.

(** C54 *)
Theorem C54_alternate_grid alternate d m m1 : valid d -> generate d m = Ok m1 ->
  exists m2, generate (set_alternate alternate d) m = Ok m2 /\ verts m2 = verts m1 /\ length (tris m2) = length (tris m1) /\
    same_but_diagonals (new_triangles m m1) (new_triangles m m2).
Proof. exact (alternate_holds alternate d m m1). Qed.
Print Assumptions C54_alternate_grid.

(** C55 *)
Theorem C55_on_surface d m m' v : valid d -> regular d -> generate d m = Ok m' -> In v (new_vertices m m') -> on_surface d (position v).
Proof. exact (surface_holds d m m' v). Qed.
Print Assumptions C55_on_surface.

(** The usual equation of the torus follows for circular rings. *)
Theorem C55_torus_equation (R r h : R) p : (h <> 0 -> on_torus (V2 R R) (V3 r h r) p ->
  (vx p ^ 2 + vz p ^ 2 + R ^ 2 - r ^ 2 * (1 - (vy p / h) ^ 2)) ^ 2 = 4 * R ^ 2 * (vx p ^ 2 + vz p ^ 2))%R.
Proof. exact (torus_equation R r h p). Qed.
Print Assumptions C55_torus_equation.

Theorem C55_unit_normals_partial d m m' v : valid d -> regular d -> (forall c, d <> DCone c) -> generate d m = Ok m' ->
  In v (new_vertices m m') -> len (normal v) = 1%R.
Proof. exact (normals_hold d m m' v). Qed.
Print Assumptions C55_unit_normals_partial.

(** The mantle of a cone: only the rows at the tip and at the base have unit normals. *)
Theorem C55_cone_normals d half H V angle u v : v <= V -> 0 < V ->
  len (normal (cone_vertex d half H V angle u v)) = 1%R <-> v = 0 \/ v = V.
Proof. exact (cone_normals_hold d half H V angle u v). Qed.
Print Assumptions C55_cone_normals.

Theorem C55_cone_normals_refuted : exists d m m' v, valid d /\ regular d /\ generate d m = Ok m' /\ In v (new_vertices m m') /\ len (normal v) <> 1%R.
Proof. exact cone_refuted. Qed.
Print Assumptions C55_cone_normals_refuted.

(** C56: up to 2^32 vertices the corners of the new triangles are the points of the surface they are meant to be. *)
Theorem C56_indices_partial d m m' : valid d -> (Z.of_nat (vertex_count d) <= 2 ^ 32)%Z -> generate d m = Ok m' ->
  map (corners m') (new_triangles m m') = map Some (surface d).
Proof. exact (indices_hold d m m'). Qed.
Print Assumptions C56_indices_partial.

(** The limit is sharp for ellipsoids. *)
Theorem C56_ellipsoid_wraps d m m' : valid (DEllipsoid d) -> (2 ^ 32 < Z.of_nat (vertex_count (DEllipsoid d)))%Z ->
  generate (DEllipsoid d) m = Ok m' -> map (corners m') (new_triangles m m') <> map Some (surface (DEllipsoid d)).
Proof. exact (wraps_hold d m m'). Qed.
Print Assumptions C56_ellipsoid_wraps.

Theorem C56_indices_refuted : exists d, valid d /\
  forall m, exists m', generate d m = Ok m' /\ map (corners m') (new_triangles m m') <> map Some (surface d).
Proof. exact wraps_refuted. Qed.
Print Assumptions C56_indices_refuted.

(** ** Examples *)
Definition ex_cylinder : descriptor := DCylinder (mkCylinder (V2 1 2) 3 0 0 1 2 false).
Definition ex_mesh : gmesh := mkMesh [mkVertex vzero vzero (V2 0 0)] [(0, 0, 0)].
Example ex_cylinder_ok : valid ex_cylinder /\ defined ex_cylinder /\ regular ex_cylinder /\
  vertex_count ex_cylinder = 22 /\ triangle_count ex_cylinder = 18.
Proof.
  repeat split; try (cbn; lra). intros n. cbn [ex_cylinder segment_counts cy_u cy_v cy_top cy_bottom In]. lia.
Qed.
Example ex_cylinder_generated : exists m', generate ex_cylinder ex_mesh = Ok m' /\ length (verts m') = 23 /\ length (tris m') = 19 /\
  nth_error (new_triangles ex_mesh m') 0 = Some (3, 1, 2).
Proof.
  destruct ex_cylinder_ok as (W & D & _ & EV & ET). destruct (C51_returns ex_cylinder ex_mesh W D ltac:(rewrite EV; lia)) as [m' G]. exists m'.
  destruct (C52_counts _ _ _ W G) as [A B]. rewrite EV in A. rewrite ET in B. repeat split; try assumption.
  rewrite (Proofs.MeshGenInv.generate_result _ _ _ W G), new_triangles_result. reflexivity.
Qed.
(** The two ways to cut the cells of a torus *)
Definition ex_torus : descriptor := DTorus (mkTorus (V2 2 2) (V3 1 1 1) 3 3 false).
Example ex_torus_alternate : exists m1 m2, generate ex_torus ex_mesh = Ok m1 /\ generate (set_alternate true ex_torus) ex_mesh = Ok m2 /\ tris m1 <> tris m2.
Proof.
  assert (W : valid ex_torus) by (intros n; cbn [ex_torus segment_counts to_u to_v In]; lia).
  assert (S : (Z.of_nat (vertex_count ex_torus) < 2 ^ 32)%Z) by (vm_compute; reflexivity).
  destruct (C51_returns ex_torus ex_mesh W I S) as [m1 G]. destruct (C54_alternate_grid true _ _ _ W G) as (m2 & G2 & _). exists m1, m2.
  repeat split; try assumption. rewrite (Proofs.MeshGenInv.generate_result _ _ _ W G).
  rewrite (Proofs.MeshGenInv.generate_result (set_alternate true ex_torus) ex_mesh m2 W G2). vm_compute. discriminate.
Qed.
Example ex_knot : exists m', generate (DKnot (mkKnot (V3 1 1 1) 1 2 2 3 16 8 true None)) ex_mesh = Ok m' /\ length (tris m') = 257.
Proof.
  set (d := DKnot _). assert (W : valid d) by (intros n; cbn [d segment_counts kn_u kn_v kn_loops kn_turns In]; lia).
  assert (S : (Z.of_nat (vertex_count d) < 2 ^ 32)%Z) by (vm_compute; reflexivity).
  destruct (C51_returns d ex_mesh W I S) as [m1 G]. exists m1. split; [assumption|]. destruct (C52_counts _ _ _ W G) as [_ B]. rewrite B. reflexivity.
Qed.
