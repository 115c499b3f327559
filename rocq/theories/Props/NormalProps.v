(** C74, C75, C77: normals of the generated meshes, meshes of Bezier patches, torus knots. *)
From Coq Require Import ZArith Reals List Bool Arith Lia Lra.
From Verif Require Import Model.Scalar Model.Vec Model.Aabb Model.Mesh Model.Interp Model.Bezier Model.Transforms Model.MeshGen Spec.MeshGenSpec Spec.SurfaceSpec
  Spec.WindingSpec Spec.TextureSpec Spec.ChartSpec Spec.BezierSpec Spec.NormalSpec Spec.KnotSpec
  Proofs.VecLemmas Proofs.NormalTangents Proofs.MeshGenNormals Proofs.MeshGenBezier Proofs.KnotLemmas.
Import ListNotations.
Local Open Scope R_scope.

(** C74: each new vertex lies on a smooth part of the surface at its texture coordinates, and its normal is perpendicular to every motion on that part. *)
Theorem C74_perpendicular_partial d m m' v : valid d -> circular d -> generate d m = Ok m' -> In v (new_vertices m m') ->
  exists P, In P (parts d) /\ shaded_by P v.
Proof. exact (perpendicular_holds d m m' v). Qed.
Print Assumptions C74_perpendicular_partial.
(** On the mantle of a cone the normals are perpendicular at one height only. *)
Theorem C74_cone_refuted d r m m' v : valid (DCone d) -> co_radius d = V2 r r -> 0 < r -> 0 < co_height d -> generate (DCone d) m = Ok m' -> In v (new_vertices m m') ->
  (normal v = V3 0 (-1) 0 /\ shaded_by (bottom_part r r (co_height d)) v) \/
  (lies_on (cone_part r r (co_height d)) v /\ (upright_on (cone_part r r (co_height d)) v <-> (r + co_height d) * sqrt (y2 (tex_coord v)) = co_height d)).
Proof. exact (cone_normals_iff d r m m' v). Qed.
Print Assumptions C74_cone_refuted.
(** On the tube of a spiral they point away from the center line and are perpendicular only where the tube is vertical;
    those of the bottom cover are perpendicular, those of the top cover only after multiples of quarter turns. *)
Theorem C74_spiral_refuted d r Rg m m' v : valid (DSpiral d) -> sp_tube d = V3 r r r -> 0 < r -> sp_ring d = V2 Rg Rg -> generate (DSpiral d) m = Ok m' -> In v (new_vertices m m') ->
  let top := 2 * PI * Rmax 0 (sp_turns d) in
  (lies_on (spiral_part d) v /\ position v = vadd (center_line d (- (2 * PI * x2 (tex_coord v)))) (vscale r (normal v)) /\
   (upright_on (spiral_part d) v <-> sp_displacement d * cos (2 * PI * y2 (tex_coord v)) = 0)) \/
  (normal v = V3 (-1) 0 0 /\ shaded_by (section_part d 0 1) v) \/
  (normal v = V3 (cos top) 0 (sin top) /\ lies_on (section_part d top (-1)) v /\ (upright_on (section_part d top (-1)) v <-> sin (2 * top) = 0)).
Proof. exact (spiral_normals_iff d r Rg m m' v). Qed.
Print Assumptions C74_spiral_refuted.
(** Without circular cross sections the normals are slanted. *)
Theorem C74_ellipsoid_refuted : exists d, valid (DEllipsoid d) /\ regular (DEllipsoid d) /\ forall m, exists m' v, generate (DEllipsoid d) m = Ok m' /\ In v (new_vertices m m') /\
  forall P, In P (parts (DEllipsoid d)) -> lies_on P v /\ ~ upright_on P v.
Proof. exact ellipsoid_slanted. Qed.
Print Assumptions C74_ellipsoid_refuted.
Theorem C74_cylinder_refuted : exists d, valid (DCylinder d) /\ regular (DCylinder d) /\ forall m, exists m' v, generate (DCylinder d) m = Ok m' /\ In v (new_vertices m m') /\
  lies_on (mantle_part 1 2 (cy_height d)) v /\ vy (normal v) = 0 /\ ~ upright_on (mantle_part 1 2 (cy_height d)) v /\ cy_radius d = V2 1 2.
Proof. exact cylinder_slanted. Qed.
Print Assumptions C74_cylinder_refuted.

(** C75: the normal of a vertex of a Bezier patch is perpendicular to the two chords that lead from it to nearby points of the patch. *)
Theorem C75_normals d m m' v : valid (DBezier d) -> generate (DBezier d) m = Ok m' -> In v (new_vertices m m') ->
  let x := x2 (tex_coord v) in let y := y2 (tex_coord v) in let s := if bp_back d then 1 else -1 in
  exists a b, bezier_at d (x + 1 / 100) y = Some (vadd (position v) a) /\ bezier_at d x (y + s * (1 / 100)) = Some (vadd (position v) b) /\
    (cross a b = vzero -> normal v = vzero) /\ (cross a b <> vzero -> unit_normal s a b (normal v)).
Proof. exact (bezier_normals d m m' v). Qed.
Print Assumptions C75_normals.
(** On a flat patch it is perpendicular to the plane, and the front of each triangle is on the side of its normals. *)
Theorem C75_flat_normals d o a b m m' v : let n := Z.to_nat (Bezier.order (bp_patch d)) in (1 <= n <= 20)%nat -> flat_sheet (bp_patch d) o a b -> cross a b <> vzero ->
  valid (DBezier d) -> generate (DBezier d) m = Ok m' -> In v (new_vertices m m') -> normal v = vscale (if bp_back d then 1 else -1) (normalize (cross a b)).
Proof. exact (flat_normals d o a b m m' v). Qed.
Print Assumptions C75_flat_normals.
Theorem C75_flat_front d o a b m m' : let n := Z.to_nat (Bezier.order (bp_patch d)) in (1 <= n <= 20)%nat -> flat_sheet (bp_patch d) o a b -> cross a b <> vzero ->
  valid (DBezier d) -> (Z.of_nat (vertex_count (DBezier d)) <= 2 ^ 32)%Z -> generate (DBezier d) m = Ok m' ->
  forall t, In t (new_triangles m m') -> exists c, corners m' t = Some c /\ faces normal c.
Proof. exact (flat_faces d o a b m m'). Qed.
Print Assumptions C75_flat_front.

(** C77: the curve of a torus knot goes around the torus as often as its descriptor says. *)
Theorem C77_winds d : vx (kn_ring d) <> 0 -> vy (kn_ring d) <> 0 -> vz (kn_ring d) <> 0 -> 1 <= kn_inner d ->
  winds (kn_inner d) (kn_ring d) (knot_curve d) (INR (kn_loops d)) (INR (kn_turns d)).
Proof. exact (knot_winds d). Qed.
Print Assumptions C77_winds.
Theorem C77_on_torus d t : vx (kn_ring d) <> 0 -> vy (kn_ring d) <> 0 -> vz (kn_ring d) <> 0 -> 1 <= kn_inner d -> on_knot_torus (kn_inner d) (kn_ring d) (knot_curve d t).
Proof. exact (knot_on_torus d t). Qed.
Print Assumptions C77_on_torus.
(** It meets itself iff the numbers of loops and turns have a common divisor. *)
Theorem C77_knot_iff_coprime d : vx (kn_ring d) <> 0 -> vy (kn_ring d) <> 0 -> vz (kn_ring d) <> 0 -> 1 < kn_inner d ->
  (simple_curve (knot_curve d) <-> Nat.gcd (kn_loops d) (kn_turns d) = 1%nat).
Proof. exact (knot_simple_iff d). Qed.
Print Assumptions C77_knot_iff_coprime.

(** ** Examples *)
Example ex_circular : let d := DTorus (mkTorus (V2 3 3) (V3 1 2 1) 8 8 true) in valid d /\ circular d.
Proof. cbn zeta. split; [intros n; cbn; lia|cbn; lra]. Qed.
(** Perpendicularity is no empty condition. *)
Example ex_perpendicular x y : perpendicular (V3 0 1 0) (top_part 1 1 1) x y /\ ~ perpendicular (V3 1 0 0) (top_part 1 1 1) x y.
Proof.
  assert (T : spanned (top_part 1 1 1) x y (V3 2 0 0) (V3 0 0 (-2))).
  { apply (spanned_ext (fun x y => V3 (-1 + 2 * x + 0 * y) (1 / 2 + 0 * x + 0 * y) (1 + 0 * x + -2 * y))); [intros; unfold top_part; f_equal; field|]. apply flat_tangents. }
  rewrite !(perpendicular_iff _ _ _ _ _ _ T). unfold dot. cbn [vx vy vz]. lra.
Qed.
(** On a cone of radius and height 1 the normals are right at a quarter of the texture's height. *)
Example ex_cone : (1 + 1) * sqrt (1 / 4) = 1 /\ (1 + 1) * sqrt 1 <> 1.
Proof. replace (1 / 4) with ((1 / 2) * (1 / 2)) by field. rewrite sqrt_square by lra. rewrite sqrt_1. lra. Qed.
(** After an eighth of a turn the top cover of a spiral is slanted. *)
Example ex_spiral_cover : sin (2 * (2 * PI * Rmax 0 (1 / 8))) <> 0.
Proof. rewrite Rmax_right by lra. replace (2 * (2 * PI * (1 / 8))) with (PI / 2) by field. rewrite sin_PI2. lra. Qed.
(** A square patch of order 1 *)
Definition ex_patch : Bezier.patch := Bezier.mkPatch 1 [V3 0 0 0; V3 1 0 0; V3 0 1 0; V3 1 1 0].
Example ex_patch_flat : (1 <= Z.to_nat (Bezier.order ex_patch) <= 20)%nat /\ flat_sheet ex_patch (V3 0 0 0) (V3 1 0 0) (V3 0 1 0) /\ cross (V3 1 0 0) (V3 0 1 0) <> vzero.
Proof.
  split; [cbn; lia|]. split.
  - intros i j I J. change (Z.to_nat (Bezier.order ex_patch)) with 1%nat in *. destruct i as [|[|i]]; [| |lia]; (destruct j as [|[|j]]; [| |lia]);
      cbn [patch_get ex_patch Bezier.order cpoints Z.of_nat INR]; (etransitivity; [vm_compute; reflexivity|]); unfold vadd, vscale; cbn [vx vy vz]; f_equal; ring.
  - unfold cross, vzero. cbn [vx vy vz]. intros E. apply (f_equal vz) in E. cbn [vz] in E. lra.
Qed.
(** The default descriptor of torus knots *)
Example ex_knot : Nat.gcd 2 3 = 1%nat /\ 1 < 2 /\ Nat.gcd 4 6 <> 1%nat.
Proof. split; [reflexivity|]. split; [lra|discriminate]. Qed.
