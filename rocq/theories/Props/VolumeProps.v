(** C83: the volumes of the solids of the mesh generators. *)
From Coq Require Import ZArith Reals List Bool Arith Lia Lra.
From Verif Require Import Model.Scalar Model.Vec Model.Aabb Model.Mesh Model.Interp Model.Bezier Model.Transforms Model.MeshGen Spec.MeshGenSpec Spec.ClosedSpec
  Spec.WindingSpec Spec.VolumeSpec Spec.SpiralVolumeSpec Proofs.MeshGenMain Proofs.MeshGenClosed Proofs.MeshGenVolume Proofs.MeshGenSpiralVolume.
Import ListNotations.
Local Open Scope R_scope.

(** What [volume] measures: a tetrahedron between the axes *)
Example C83_tetrahedron a b c : volume [(V3 0 0 0, V3 0 b 0, V3 a 0 0); (V3 0 0 0, V3 0 0 c, V3 0 b 0); (V3 0 0 0, V3 a 0 0, V3 0 0 c); (V3 a 0 0, V3 0 b 0, V3 0 0 c)] = a * b * c / 6.
Proof. unfold volume. cbn. unfold dot, cross. cbn. field. Qed.

(** The origin does not matter: moving closed triangles does not change the volume. *)
Theorem C83_origin_irrelevant l v : closed l -> volume (map (tmap (vadd v)) l) = volume l.
Proof. exact (volume_moved l v). Qed.
Print Assumptions C83_origin_irrelevant.

(** C83: the volume of the generated triangles, for all extents and numbers of segments.  Partial: up to 2^32 vertices; not for
    knots and tubes around curves; for spirals see below. *)
Theorem C83_volume_partial d m m' : valid d -> (Z.of_nat (vertex_count d) <= 2 ^ 32)%Z -> measured d -> generate d m = Ok m' ->
  volume (geometry m' (new_triangles m m')) = mesh_volume d.
Proof. exact (volume_holds d m m'). Qed.
Print Assumptions C83_volume_partial.

(** With positive extents it is at most the volume of the solid and lacks only a fraction that shrinks with the square of the number of segments. *)
Theorem C83_volume_converges_partial d m m' : valid d -> (Z.of_nat (vertex_count d) <= 2 ^ 32)%Z -> measured d -> positive_extents d -> generate d m = Ok m' ->
  exact_volume d * (1 - lacks d) <= volume (geometry m' (new_triangles m m')) <= exact_volume d.
Proof. intros W L M P G. rewrite (volume_holds d m m' W L M G). now apply mesh_volume_bounds. Qed.
Print Assumptions C83_volume_converges_partial.

(** A cylinder with four segments is a cuboid with a square of area two as its base. *)
Definition square_column : descriptor := DCylinder (mkCylinder (V2 1 1) 3 4 2 1 1 true).
Example C83_cylinder m : exists m', generate square_column m = Ok m' /\ volume (geometry m' (new_triangles m m')) = 6.
Proof.
  assert (W : valid square_column) by (intros n; cbn; lia). assert (S : (Z.of_nat (vertex_count square_column) < 2 ^ 32)%Z) by (vm_compute; reflexivity).
  destruct (succeeds_holds square_column m W I S) as [m' G]. exists m'. split; [exact G|].
  rewrite (C83_volume_partial _ _ _ W ltac:(lia) ltac:(split; [split; discriminate|exact I]) G). cbn [mesh_volume square_column cy_radius cy_height cy_u x2 y2 Nat.max].
  unfold ngon, sector. replace (2 * PI / INR 4) with (PI / 2) by (cbn; field). rewrite sin_PI2. cbn. field.
Qed.
(** A sphere with a hundred segments lacks less than two in a thousand. *)
Definition fine_sphere : descriptor := DEllipsoid (mkEllipsoid (V3 1 1 1) 100 100 false).
Example C83_sphere m : exists m', generate fine_sphere m = Ok m' /\ 4 / 3 * PI * (998 / 1000) <= volume (geometry m' (new_triangles m m')) <= 4 / 3 * PI.
Proof.
  assert (W : valid fine_sphere) by (intros n; cbn [fine_sphere segment_counts el_u el_v In]; lia). assert (S : (Z.of_nat (vertex_count fine_sphere) < 2 ^ 32)%Z) by (vm_compute; reflexivity).
  destruct (succeeds_holds fine_sphere m W I S) as [m' G]. exists m'. split; [exact G|].
  pose proof (C83_volume_converges_partial _ _ _ W ltac:(lia) (conj I I) ltac:(cbn; unfold WindingSpec.positive3; cbn; lra) G) as [A B].
  cbn [exact_volume fine_sphere el_radius vx vy vz] in A, B. split; [|lra].
  eapply Rle_trans; [|exact A]. pose proof PI_RGT_0 as PP. pose proof PI_4. replace (4 / 3 * PI * (1 * 1 * 1)) with (4 / 3 * PI) by ring. apply Rmult_le_compat_l; [lra|].
  cbn [lacks fine_sphere el_u el_v]. replace (Nat.max 3 100) with 100%nat by reflexivity. replace (Nat.max 2 100) with 100%nat by reflexivity.
  replace (INR 100) with 100 by (rewrite INR_IZR_INZ; reflexivity). assert (PI ^ 2 <= 16) by nra. lra.
Qed.
(** Where diagonals matter: the same torus with four segments both ways, whose ring is deeper than wide, with uniform and with alternating diagonals *)
Definition square_torus (alt : bool) : descriptor := DTorus (mkTorus (V2 4 5) (V3 1 1 1) 4 4 alt).
Example C83_torus alt m : exists m', generate (square_torus alt) m = Ok m' /\ volume (geometry m' (new_triangles m m')) = if alt then 36 - 4 / 3 else 36.
Proof.
  assert (W : valid (square_torus alt)) by (intros n; cbn; lia). assert (S : (Z.of_nat (vertex_count (square_torus alt)) < 2 ^ 32)%Z) by (vm_compute; reflexivity).
  destruct (succeeds_holds (square_torus alt) m W I S) as [m' G]. exists m'. split; [exact G|].
  rewrite (C83_volume_partial _ _ _ W ltac:(lia) (conj I I) G). unfold square_torus. cbn [mesh_volume to_ring to_tube to_u to_v x2 y2 vx vy vz Nat.max].
  unfold ngon, sector, bent_torus. replace (2 * PI / INR 4) with (PI / 2) by (cbn; field). rewrite sin_PI2. destruct alt; cbn; field.
Qed.

(** Spirals with rings and tubes of any extents, any displacement and any number of turns that ends with a segment *)
Theorem C83_spiral_partial d m m' : valid (DSpiral d) -> (Z.of_nat (vertex_count (DSpiral d)) <= 2 ^ 32)%Z -> solid (DSpiral d) -> generate (DSpiral d) m = Ok m' ->
  volume (geometry m' (new_triangles m m')) = spiral_volume d.
Proof. exact (spiral_volume_holds d m m'). Qed.
Print Assumptions C83_spiral_partial.
(** The displacement does not matter for the solid itself, and the mesh comes close to it with more segments (if spiral and tube have different proportions, with other than four alternating segments around the tube). *)
Theorem C83_spiral_converges_partial d m m' : let U := INR (Nat.max 3 (sp_u d)) in let V := INR (Nat.max 3 (sp_v d)) in
  valid (DSpiral d) -> (Z.of_nat (vertex_count (DSpiral d)) <= 2 ^ 32)%Z -> solid (DSpiral d) ->
  0 < x2 (sp_ring d) -> 0 < y2 (sp_ring d) -> 0 < vx (sp_tube d) -> 0 < vy (sp_tube d) -> 0 < vz (sp_tube d) -> ~ (sp_alt d = true /\ Nat.max 3 (sp_v d) = 4%nat /\ skewed d <> 0) ->
  generate (DSpiral d) m = Ok m' ->
  Rabs (volume (geometry m' (new_triangles m m')) - exact_spiral d) <=
    PI ^ 2 * (x2 (sp_ring d) * vz (sp_tube d) + y2 (sp_ring d) * vx (sp_tube d)) * vy (sp_tube d) * Rmax 0 (sp_turns d) * (2 * PI ^ 2 / (3 * U ^ 2) + 2 * PI ^ 2 / (3 * V ^ 2)) +
    PI / 4 * Rabs (skewed d) * vy (sp_tube d) * (2 * PI ^ 2 / (3 * V ^ 2)) +
    Rabs (sp_displacement d) * (vx (sp_tube d) * vz (sp_tube d)) * Rmax 0 (sp_turns d) * PI ^ 3 / (3 * U * V).
Proof. intros U V W L S P1 P2 P3 P4 P5 NB G. rewrite (spiral_volume_holds d m m' W L S G). now apply spiral_volume_bounds. Qed.
Print Assumptions C83_spiral_converges_partial.

(** Two turns of a square spiral: with all diagonals the same way a rising spiral has a little more volume. *)
Definition square_spiral (alt : bool) : spiral := mkSpiral (V2 3 3) (V3 1 1 1) 6 2 4 4 1 2 alt.
Lemma square_spiral_ok alt : valid (DSpiral (square_spiral alt)) /\ defined (DSpiral (square_spiral alt)) /\ solid (DSpiral (square_spiral alt)) /\ spiral_segments (square_spiral alt) = 8%nat.
Proof.
  assert (M : Rmax 0 2 = 2) by (apply Rmax_right; lra). assert (E : Rmax 0 2 * INR (Nat.max 3 4) = INR 8) by (rewrite M; cbn; ring).
  split; [intros n; cbn; lia|]. split; [cbn [defined square_spiral sp_turns sp_u]; rewrite E; cbn; lra|].
  split; [split; [discriminate|split; [discriminate|exists 8%nat; exact E]]|]. 
  unfold spiral_segments. cbn [square_spiral sp_turns sp_u]. rewrite E, Int_part_8. reflexivity.
Qed.
Example C83_spiral alt m : exists m', generate (DSpiral (square_spiral alt)) m = Ok m' /\ volume (geometry m' (new_triangles m m')) = if alt then 48 else 52.
Proof.
  destruct (square_spiral_ok alt) as (W & D & S & T). assert (C : (Z.of_nat (vertex_count (DSpiral (square_spiral alt))) < 2 ^ 32)%Z) by (cbn [vertex_count]; rewrite T; vm_compute; reflexivity).
  destruct (succeeds_holds (DSpiral (square_spiral alt)) m W D C) as [m' G]. exists m'. split; [exact G|].
  rewrite (C83_spiral_partial _ _ _ W ltac:(lia) S G). unfold spiral_volume, bent_spiral, bent_skew, skewed, ngon, sector. rewrite T. cbn [square_spiral sp_ring sp_tube sp_displacement sp_turns sp_u sp_v sp_alt x2 y2 vx vy vz Nat.max].
  rewrite Rmax_right by lra. replace (2 * PI / INR 4) with (PI / 2) by (cbn; field). rewrite sin_PI2.
  destruct alt; cbn [Nat.odd Nat.even negb andb]; [cbn; field|].
  replace (PI / INR 4) with (PI / 4) by (cbn; field). rewrite sin_PI4. assert (Q : sqrt 2 * sqrt 2 = 2) by (apply sqrt_def; lra). assert (sqrt 2 <> 0) by (intros Z; rewrite Z in Q; lra).
  replace ((1 / sqrt 2) ^ 2) with (1 / (sqrt 2 * sqrt 2)) by (field; assumption). rewrite Q. cbn. field.
Qed.

(** An eighth of a turn of an elliptic spiral: it has more than its share *)
Definition eighth_spiral : spiral := mkSpiral (V2 5 3) (V3 1 1 1) 0 (1 / 8) 8 4 1 1 false.
Example C83_elliptic_spiral m : exists m', generate (DSpiral eighth_spiral) m = Ok m' /\ volume (geometry m' (new_triangles m m')) = 4 * sqrt 2 + 1.
Proof.
  assert (M : Rmax 0 (1 / 8) = 1 / 8) by (apply Rmax_right; lra). assert (E : Rmax 0 (1 / 8) * INR (Nat.max 3 8) = INR 1) by (rewrite M; cbn; field).
  assert (T : spiral_segments eighth_spiral = 1%nat) by (unfold spiral_segments; cbn [eighth_spiral sp_turns sp_u]; rewrite E, R_Ifp.Int_part_INR; reflexivity).
  assert (W : valid (DSpiral eighth_spiral)) by (intros n; cbn; lia). assert (D : defined (DSpiral eighth_spiral)) by (cbn [defined eighth_spiral sp_turns sp_u]; rewrite E; cbn; lra).
  assert (S : solid (DSpiral eighth_spiral)) by (split; [discriminate|split; [discriminate|exists 1%nat; exact E]]). assert (C : (Z.of_nat (vertex_count (DSpiral eighth_spiral)) < 2 ^ 32)%Z) by (cbn [vertex_count]; rewrite T; vm_compute; reflexivity).
  destruct (succeeds_holds (DSpiral eighth_spiral) m W D C) as [m' G]. exists m'. split; [exact G|].
  rewrite (C83_spiral_partial _ _ _ W ltac:(lia) S G). unfold spiral_volume, bent_spiral, bent_skew, skewed, ngon, sector. rewrite T. cbn [eighth_spiral sp_ring sp_tube sp_displacement sp_turns sp_u sp_v sp_alt x2 y2 vx vy vz Nat.max andb].
  rewrite M. replace (2 * PI / INR 4) with (PI / 2) by (cbn; field). replace (2 * PI / INR 8) with (PI / 4) by (cbn; field). replace (4 * PI * (1 / 8)) with (PI / 2) by field. rewrite sin_PI2, sin_PI4. assert (Q : sqrt 2 * sqrt 2 = 2) by (apply sqrt_def; lra). assert (NZ : sqrt 2 <> 0) by (intros Z; rewrite Z in Q; lra).
  replace (1 / sqrt 2) with (sqrt 2 / 2) by (rewrite <- Q at 2; field; exact NZ). cbn [INR]. field.
Qed.
