(** Normals perpendicular to the smooth surface *)
From Coq Require Import FunctionalExtensionality ZArith Reals List Bool Arith Lia Lra.
From Verif Require Import Model.Scalar Model.Vec Model.Aabb Model.Mesh Model.Interp Model.Bezier Model.Transforms Model.MeshGen Spec.MeshGenSpec Spec.SurfaceSpec
  Spec.WindingSpec Spec.TextureSpec Spec.ChartSpec Spec.NormalSpec Proofs.VecLemmas Proofs.MeshGenLoops Proofs.MeshGenResult Proofs.MeshGenInv Proofs.MeshGenTotal Proofs.MeshGenMain Proofs.MeshGenSurface
  Proofs.MeshGenChains Proofs.MeshGenClosed Proofs.MeshGenWinding Proofs.MeshGenTexture Proofs.MeshGenCharts Proofs.NormalTangents.
Import ListNotations.
Local Open Scope R_scope.

Lemma shaded_intro P v Tx Ty : position v = P (x2 (tex_coord v)) (y2 (tex_coord v)) -> spanned P (x2 (tex_coord v)) (y2 (tex_coord v)) Tx Ty -> dot (normal v) Tx = 0 -> dot (normal v) Ty = 0 -> shaded_by P v.
Proof. intros E S A B. split; [now symmetry|]. apply (perpendicular_iff _ _ _ _ _ _ S). now split. Qed.
Lemma flat_shaded P v c0 c1 c2 p0 p1 p2 q0 q1 q2 : position v = P (x2 (tex_coord v)) (y2 (tex_coord v)) ->
  (forall x y, V3 (c0 + p0 * x + q0 * y) (c1 + p1 * x + q1 * y) (c2 + p2 * x + q2 * y) = P x y) -> dot (normal v) (V3 p0 p1 p2) = 0 -> dot (normal v) (V3 q0 q1 q2) = 0 -> shaded_by P v.
Proof. intros E F A B. eapply shaded_intro; [exact E| |exact A|exact B]. eapply spanned_ext; [exact F|]. apply flat_tangents. Qed.
Ltac dots := unfold dot; cbn [vx vy vz]; ring.
Ltac flat E N c0 c1 c2 p0 p1 p2 q0 q1 q2 := apply (flat_shaded _ _ c0 c1 c2 p0 p1 p2 q0 q1 q2); [exact E|intros; f_equal; field|rewrite N; dots|rewrite N; dots].
Lemma bottom_shaded rx rz h v : bottom_cover rx rz h v -> shaded_by (bottom_part rx rz h) v.
Proof. intros (N & E). unfold bottom_part. flat E N (- rx) (- (h / 2)) (- rz) (2 * rx) 0 0 0 0 (2 * rz). Qed.
Lemma top_shaded rx rz h v : top_cover rx rz h v -> shaded_by (top_part rx rz h) v.
Proof. intros (N & E). unfold top_part. flat E N (- rx) (h / 2) rz (2 * rx) 0 0 0 0 (- (2 * rz)). Qed.
Lemma mantle_shaded r h s v : let turn := 2 * PI * (1 - x2 (tex_coord v)) in normal v = V3 (s * sin turn) 0 (s * cos turn) -> position v = around r r h turn 1 (y2 (tex_coord v)) -> shaded_by (mantle_part r r h) v.
Proof. cbn zeta. intros N E. eapply shaded_intro; [exact E|apply mantle_tangents| |]; rewrite N; dots. Qed.
Lemma normalize_parallel w : exists k, normalize w = vscale k w.
Proof.
  unfold normalize. destruct (Reqb _ 0); [|destruct (Reqb _ 1)]; try (exists 1; destruct w as [wa wb wc]; unfold vscale; cbn [vx vy vz]; f_equal; ring). exists (/ len w). reflexivity.
Qed.
Lemma dot_normalize w t : dot w t = 0 -> dot (normalize w) t = 0.
Proof. intros E. destruct (normalize_parallel w) as (k & ->). transitivity (k * dot w t); [unfold vscale; dots|]. rewrite E. ring. Qed.

Ltac part n := eexists; split; [eapply (nth_error_In _ n); cbn [nth_error]; reflexivity|].
(** The products of the normal of a torus, before it is normalized, and its tangents *)
Lemma ring_dot_gen (ring : vec2) (tube : vec3) up a b : vx tube <> 0 -> vy tube <> 0 -> vz tube <> 0 -> x2 ring * vz tube = y2 ring * vx tube ->
  dot (V3 (sin a * sin b / vx tube) (cos b / vy tube) (cos a * sin b / vz tube)) (V3 (- (2 * PI * cos a * (x2 ring + sin b * vx tube))) (- up) (2 * PI * sin a * (y2 ring + sin b * vz tube))) = - (up * cos b / vy tube).
Proof.
  intros X Y Z E. unfold dot. cbn [vx vy vz]. transitivity (2 * PI * (sin a * cos a * sin b) / (vx tube * vz tube) * (y2 ring * vx tube - x2 ring * vz tube) - up * cos b / vy tube); [field; auto|]. rewrite E. field. auto.
Qed.
Lemma ring_dot (ring : vec2) (tube : vec3) a b : vx tube <> 0 -> vy tube <> 0 -> vz tube <> 0 -> x2 ring * vz tube = y2 ring * vx tube ->
  dot (V3 (sin a * sin b / vx tube) (cos b / vy tube) (cos a * sin b / vz tube)) (V3 (- (2 * PI * cos a * (x2 ring + sin b * vx tube))) (- 0) (2 * PI * sin a * (y2 ring + sin b * vz tube))) = 0.
Proof. intros. rewrite ring_dot_gen by assumption. field. assumption. Qed.
Lemma tube_dot (tube : vec3) a b : vx tube <> 0 -> vy tube <> 0 -> vz tube <> 0 ->
  dot (V3 (sin a * sin b / vx tube) (cos b / vy tube) (cos a * sin b / vz tube)) (V3 (2 * PI * sin a * cos b * vx tube) (- (2 * PI * sin b * vy tube)) (2 * PI * cos a * cos b * vz tube)) = 0.
Proof.
  intros X Y Z. unfold dot. cbn [vx vy vz]. transitivity (2 * PI * (sin b * cos b) * ((sin a)² + (cos a)² - 1)); [unfold Rsqr; field; auto|]. rewrite sin2_cos2. ring.
Qed.
Lemma cap_unit t p side : side = 1 \/ side = -1 -> normalize (V3 (sin t * cos p) (cos t * side) (sin t * sin p)) = V3 (sin t * cos p) (cos t * side) (sin t * sin p).
Proof.
  intros S. apply normalize_id. unfold dot. cbn [vx vy vz]. transitivity ((sin t)² * ((sin p)² + (cos p)²) + (cos t)² * (side * side)); [unfold Rsqr; ring|].
  rewrite sin2_cos2. replace (side * side) with 1 by (destruct S; subst; ring). rewrite !Rmult_1_r. apply sin2_cos2.
Qed.
Lemma cap_shaded d r s H C i j : ca_radius d = V3 r r r -> s = 1 \/ s = -1 ->
  shaded_by (fun x y => V3 (- s * (r * (sin (PI / 2 * y) * sin (2 * PI * x)))) (- - s * (r * cos (PI / 2 * y) + ca_height d / 2)) (r * (sin (PI / 2 * y) * cos (2 * PI * x))))
    (cap_vertex d (ca_height d * (1 / 2)) s H C i j).
Proof.
  intros R0 S. unfold cap_vertex. cbn zeta. unfold spherical. cbn [vx vy vz]. rewrite cap_unit by assumption. rewrite R0, cos_half, sin_half. unfold pi_0_5, pi_2. set (y := frac i _). set (x := frac j _).
  replace (y * (PI * (1 / 2))) with (PI / 2 * y) by field.
  assert (sin (x * (PI * 2) * s) = s * sin (2 * PI * x)) as ->.
  { destruct S as [-> | ->]; [replace (x * (PI * 2) * 1) with (2 * PI * x) by ring; ring|]. replace (x * (PI * 2) * -1) with (- (2 * PI * x)) by ring. rewrite sin_neg. ring. }
  assert (cos (x * (PI * 2) * s) = cos (2 * PI * x)) as ->.
  { destruct S as [-> | ->]; [replace (x * (PI * 2) * 1) with (2 * PI * x) by ring; ring|]. replace (x * (PI * 2) * -1) with (- (2 * PI * x)) by ring. now rewrite cos_neg. }
  assert (s * s = 1) as SS by (destruct S; subst; ring).
  eapply shaded_intro; cbn [position normal tex_coord x2 y2]; [|apply (cap_tangents (V3 r r r) (ca_height d) (- s))| |].
  - unfold vmul. cbn [vx vy vz]. f_equal; field.
  - unfold dot. cbn [vx vy vz]. transitivity (2 * PI * r * (sin (PI / 2 * y) * sin (PI / 2 * y) * (sin (2 * PI * x) * cos (2 * PI * x))) * (s * s - 1)); [ring|]. rewrite SS. ring.
  - unfold dot. cbn [vx vy vz]. transitivity (PI / 2 * r * (sin (PI / 2 * y) * cos (PI / 2 * y)) * (s * s * (sin (2 * PI * x))² + (cos (2 * PI * x))² - s * s)); [unfold Rsqr; field|]. rewrite SS, Rmult_1_l, sin2_cos2. ring.
Qed.
Lemma shaded_ext P Q v : (forall x y, P x y = Q x y) -> shaded_by P v -> shaded_by Q v.
Proof.
  intros E (A & B). split; [unfold lies_on in *; now rewrite <- E|]. intros a b T (U & V & X). apply (B a b T).
  assert (forall (g : vec3 -> R), (fun t => g (P (x2 (tex_coord v) + a * t) (y2 (tex_coord v) + b * t))) = (fun t => g (Q (x2 (tex_coord v) + a * t) (y2 (tex_coord v) + b * t)))) as F
    by (intros g; apply FunctionalExtensionality.functional_extensionality; intros; now rewrite E).
  split; [|split]; rewrite F; assumption.
Qed.

Theorem perpendicular_holds d m m' v : valid d -> circular d -> generate d m = Ok m' -> In v (new_vertices m m') ->
  exists P, In P (parts d) /\ shaded_by P v.
Proof.
  intros W CR G Hn.
  destruct d; cbn [circular] in CR; try contradiction.
  - assert (charted (DCuboid d) v) as C by (eapply charted_holds; eauto; left; exact I). unfold charted, cuboid_chart in C. cbn zeta in C.
    set (s := cu_size d) in *. destruct C as [(N & E)|[(N & E)|[(N & E)|[(N & E)|[(N & E)|(N & E)]]]]]; cbn [parts]; cbn zeta; fold s.
    + part 0%nat. flat E N (- (vx s / 2)) (vy s / 2) (- (vz s / 2)) (vx s) 0 0 0 (- vy s) 0.
    + part 1%nat. flat E N (vx s / 2) (vy s / 2) (vz s / 2) (- vx s) 0 0 0 (- vy s) 0.
    + part 2%nat. flat E N (vx s / 2) (vy s / 2) (- (vz s / 2)) 0 0 (vz s) 0 (- vy s) 0.
    + part 3%nat. flat E N (- (vx s / 2)) (vy s / 2) (vz s / 2) 0 0 (- vz s) 0 (- vy s) 0.
    + part 4%nat. flat E N (- (vx s / 2)) (vy s / 2) (vz s / 2) (vx s) 0 0 0 0 (- vz s).
    + part 5%nat. flat E N (- (vx s / 2)) (- (vy s / 2)) (- (vz s / 2)) (vx s) 0 0 0 0 (vz s).
  - destruct CR as (r & R0). rewrite (generate_result _ _ _ W G), new_vertices_result in Hn. cbn [pieces] in Hn. apply in_flat_map in Hn. destruct Hn as (p & Hp & Hv).
    unfold ellipsoid_pieces in Hp. cbn zeta in Hp. in_pieces Hp; subst p; cbn [pv] in Hv; apply in_grid_verts in Hv; destruct Hv as (i & j & Hi & Hj & ->).
    unfold ellipsoid_vertex. cbn zeta. rewrite spherical_unit. cbn [parts]. cbn zeta. part 0%nat. set (y := frac i _). set (x := frac j _).
    eapply shaded_intro; cbn [position normal tex_coord x2 y2]; [|apply ball_tangents| |]; unfold spherical, vmul, pi_2; rewrite R0; replace (y * PI) with (PI * y) by ring;
      replace (x * (PI * 2)) with (2 * PI * x) by ring; [cbn [vx vy vz]; f_equal; ring|dots|].
    unfold dot; cbn [vx vy vz]. transitivity (r * PI * (sin (PI * y) * cos (PI * y) * ((sin (2 * PI * x))² + (cos (2 * PI * x))² - 1))); [unfold Rsqr; ring|]. rewrite sin2_cos2. ring.
  - destruct CR as (r & R1 & R0). assert (charted (DCylinder d) v) as C by (eapply charted_holds; eauto; left; cbn; rewrite R0; now split). unfold charted in C. cbn zeta in C. cbn [parts]. cbn zeta.
    rewrite R0 in *. cbn [x2 y2] in *. destruct C as [(N & E)|[C|C]].
    + part 0%nat. apply (mantle_shaded _ _ 1); [rewrite N; f_equal; ring|exact E].
    + part 1%nat. now apply bottom_shaded.
    + part 2%nat. now apply top_shaded.
  - destruct CR as (r & R0). assert (charted (DPie d) v) as C by (eapply charted_holds; eauto; left; exact I). unfold charted in C. cbn zeta in C. cbn [parts]. cbn zeta.
    rewrite R0 in *. cbn [x2 y2] in *. set (angle := clampR (pi_angle d) 0 (2 * PI)) in *. destruct C as [(N & E)|[(N & E)|[(N & E)|[C|C]]]].
    + part 0%nat. eapply shaded_intro; [exact E|apply around_tangents| |]; rewrite N; dots.
    + part 1%nat. eapply shaded_intro; [exact E|eapply spanned_ext; [|apply (wall_tangents r r (pi_height d) (pi_offset d + angle) 1 (-1))]| |]; [intros; cbv beta; f_equal; ring| |]; rewrite N; dots.
    + part 2%nat. eapply shaded_intro; [exact E|eapply spanned_ext; [|apply (wall_tangents r r (pi_height d) (pi_offset d) 0 1)]| |]; [intros; cbv beta; f_equal; ring| |]; rewrite N; dots.
    + part 3%nat. now apply bottom_shaded.
    + part 4%nat. now apply top_shaded.
  - destruct CR as (r & Ro & P0 & P1 & R0 & R1). assert (charted (DPipe d) v) as C by (eapply charted_holds; eauto; left; cbn; rewrite R0, R1; now repeat split). unfold charted in C. cbn zeta in C. cbn [parts]. cbn zeta.
    rewrite R0, R1 in *. cbn [x2 y2] in *. destruct C as [(N & E)|[(N & E)|[C|C]]].
    + part 0%nat. apply (mantle_shaded _ _ 1); [rewrite N; f_equal; ring|exact E].
    + part 1%nat. apply (mantle_shaded _ _ (-1)); [rewrite N; f_equal; ring|exact E].
    + part 2%nat. now apply bottom_shaded.
    + part 3%nat. now apply top_shaded.
  - destruct CR as (r & R0). rewrite (generate_result _ _ _ W G), new_vertices_result in Hn. cbn [pieces] in Hn. apply in_flat_map in Hn. destruct Hn as (p & Hp & Hv).
    unfold capsule_pieces in Hp. cbn zeta in Hp. cbn [parts]. cbn zeta. rewrite R0 in *. cbn [vx vy vz] in *. in_pieces Hp; subst p.
    + part 0%nat. pose proof (fun PH => mantle_chart _ _ _ _ _ _ _ _ _ PH Hv) as Q; destruct (Q ltac:(lia)) as (N & P). now apply (mantle_shaded _ _ 1).
    + part 1%nat. cbn [pv] in Hv; apply in_grid_verts in Hv; destruct Hv as (i & j & Hi & Hj & ->). eapply shaded_ext; [|apply (cap_shaded d r 1 _ _ i j R0); now left]. intros. cbv beta. f_equal; field.
    + part 2%nat. cbn [pv] in Hv; apply in_grid_verts in Hv; destruct Hv as (i & j & Hi & Hj & ->). eapply shaded_ext; [|apply (cap_shaded d r (-1) _ _ i j R0); now right]. intros. cbv beta. f_equal; field.
  - destruct CR as (T0 & T1 & T2 & RT). rewrite (generate_result _ _ _ W G), new_vertices_result in Hn. cbn [pieces] in Hn. apply in_flat_map in Hn. destruct Hn as (p & Hp & Hv).
    unfold torus_pieces in Hp. cbn zeta in Hp. in_pieces Hp; subst p; cbn [pv] in Hv; apply in_grid_verts in Hv; destruct Hv as (i & j & Hi & Hj & ->). cbn [parts]. part 0%nat.
    unfold torus_vertex. cbn zeta. set (y := frac i _). set (x := frac j _). eapply shaded_intro; cbn [position normal tex_coord x2 y2].
    + unfold ring_point, pi_2. replace (- (2 * PI * - x)) with (x * (PI * 2)) by ring. replace (2 * PI * y) with (y * (PI * 2)) by ring. f_equal; ring.
    + eapply spanned_ext; [|apply (ring_tangents (to_ring d) (to_tube d) 0 0)]. intros. cbv beta. f_equal. ring.
    + apply dot_normalize. unfold pi_2. replace (- (2 * PI * - x)) with (x * (PI * 2)) by ring. replace (2 * PI * y) with (y * (PI * 2)) by ring. apply (ring_dot (to_ring d) (to_tube d)); assumption.
    + apply dot_normalize. unfold pi_2. replace (- (2 * PI * - x)) with (x * (PI * 2)) by ring. replace (2 * PI * y) with (y * (PI * 2)) by ring. apply (tube_dot (to_tube d)); assumption.
Qed.

(** Normals of cones *)
Theorem cone_normals_iff d r m m' v : valid (DCone d) -> co_radius d = V2 r r -> 0 < r -> 0 < co_height d -> generate (DCone d) m = Ok m' -> In v (new_vertices m m') ->
  (normal v = V3 0 (-1) 0 /\ shaded_by (bottom_part r r (co_height d)) v) \/
  (lies_on (cone_part r r (co_height d)) v /\ (upright_on (cone_part r r (co_height d)) v <-> (r + co_height d) * sqrt (y2 (tex_coord v)) = co_height d)).
Proof.
  intros W R0 PR PH G Hn. rewrite (generate_result _ _ _ W G), new_vertices_result in Hn. cbn [pieces] in Hn. apply in_flat_map in Hn. destruct Hn as (p & Hp & Hv).
  unfold cone_pieces in Hp. cbn zeta in Hp. in_pieces Hp; subst p.
  - right. assert (X : lies_on (cone_part r r (co_height d)) v /\ exists a, a = 2 * PI * (1 - x2 (tex_coord v)) /\ normal v = V3 (sqrt (y2 (tex_coord v)) * sin a) (1 - sqrt (y2 (tex_coord v))) (sqrt (y2 (tex_coord v)) * cos a)).
    { cbn [pv] in Hv. apply in_cone_verts in Hv. destruct Hv as [(i & Hi & ->)|(i & j & Hi & Hj & ->)]; unfold cone_tip, cone_vertex, lies_on, cone_part; cbn zeta; rewrite ?R0; cbn [position normal tex_coord x2 y2].
      - split; [unfold around; f_equal; field|]. eexists. split; [reflexivity|]. rewrite sqrt_0. f_equal; ring.
      - rewrite turn_back by lia. split; [unfold around, lerp3, lerp, vadd, vscale, vsub; cbn [vx vy vz]; f_equal; field|]. eexists. split; [reflexivity|]. rewrite unit_xz.
        unfold lerp3, vadd, vscale, vsub; cbn [vx vy vz]; f_equal; ring. }
    destruct X as (L & a & A & N). split; [exact L|]. unfold upright_on. rewrite (perpendicular_iff _ _ _ _ _ _ (cone_tangents _ _ _ _ _)), N, <- A.
    set (s := sqrt _). set (y := y2 _).
    assert (dot (V3 (s * sin a) (1 - s) (s * cos a)) (V3 (- (2 * PI * y * r * cos a)) 0 (2 * PI * y * r * sin a)) = 0) as -> by dots.
    assert (dot (V3 (s * sin a) (1 - s) (s * cos a)) (V3 (r * sin a) (- co_height d) (r * cos a)) = (r + co_height d) * s - co_height d) as ->.
    { unfold dot. cbn [vx vy vz]. transitivity (r * s * ((sin a)² + (cos a)²) + s * co_height d - co_height d); [unfold Rsqr; ring|]. rewrite sin2_cos2. ring. }
    split; [intros [_ Q]; lra|intros Q; split; [reflexivity|lra]].
  - left. rewrite R0 in Hv. cbn [x2 y2] in Hv. assert (BC : bottom_cover r r (co_height d) v) by (eapply down_cover; [|exact Hv]; field). split; [apply BC|now apply bottom_shaded].
Qed.

(** Normals of spirals *)
Lemma unit_tube a b : dot (V3 (sin a * sin b) (cos b) (cos a * sin b)) (V3 (sin a * sin b) (cos b) (cos a * sin b)) = 1.
Proof. unfold dot. cbn [vx vy vz]. transitivity ((sin b)² * ((sin a)² + (cos a)²) + (cos b)²); [unfold Rsqr; ring|]. rewrite sin2_cos2, Rmult_1_r. apply sin2_cos2. Qed.
Theorem spiral_normals_iff d r Rg m m' v : valid (DSpiral d) -> sp_tube d = V3 r r r -> 0 < r -> sp_ring d = V2 Rg Rg -> generate (DSpiral d) m = Ok m' -> In v (new_vertices m m') ->
  let top := 2 * PI * Rmax 0 (sp_turns d) in
  (lies_on (spiral_part d) v /\ position v = vadd (center_line d (- (2 * PI * x2 (tex_coord v)))) (vscale r (normal v)) /\
   (upright_on (spiral_part d) v <-> sp_displacement d * cos (2 * PI * y2 (tex_coord v)) = 0)) \/
  (normal v = V3 (-1) 0 0 /\ shaded_by (section_part d 0 1) v) \/
  (normal v = V3 (cos top) 0 (sin top) /\ lies_on (section_part d top (-1)) v /\ (upright_on (section_part d top (-1)) v <-> sin (2 * top) = 0)).
Proof.
  intros W T0 PR R0 G Hn top. assert (charted (DSpiral d) v) as C by (eapply charted_holds; eauto; now right). pose proof PI_RGT_0.
  rewrite (generate_result _ _ _ W G), new_vertices_result in Hn. cbn [pieces] in Hn. apply in_flat_map in Hn. destruct Hn as (p & Hp & Hv).
  unfold spiral_pieces in Hp. cbn zeta in Hp. in_pieces Hp; subst p.
  - left. cbn [pv] in Hv; apply in_grid_verts in Hv; destruct Hv as (i & j & Hi & Hj & ->).
    set (n := Rmax 0 (sp_turns d)) in *. unfold spiral_vertex, lies_on, upright_on. cbn zeta. cbn [position normal tex_coord x2 y2]. set (y := frac i _). set (x := frac j _). rewrite T0, R0. cbn [vx vy vz x2 y2].
    replace (V3 (sin (x * pi_2) * sin (y * pi_2) / r) (cos (y * pi_2) / r) (cos (x * pi_2) * sin (y * pi_2) / r)) with (vscale (/ r) (V3 (sin (x * pi_2) * sin (y * pi_2)) (cos (y * pi_2)) (cos (x * pi_2) * sin (y * pi_2))))
      by (unfold vscale; cbn [vx vy vz]; f_equal; field; lra).
    rewrite normalize_multiple; [|now apply Rinv_0_lt_compat|apply unit_tube].
    split; [|split].
    + unfold spiral_part, ring_point. rewrite T0, R0. fold n. cbn [vx vy vz x2 y2]. unfold pi_2. replace (- (2 * PI * - x)) with (x * (PI * 2)) by ring. replace (2 * PI * y) with (y * (PI * 2)) by ring. f_equal; field.
    + unfold center_line. rewrite R0. fold n. cbn [x2 y2]. unfold pi_2. replace (- (2 * PI * - x)) with (x * (PI * 2)) by ring. unfold vadd, vscale. cbn [vx vy vz]. f_equal; field; lra.
    + unfold spiral_part. rewrite T0, R0. fold n. rewrite (perpendicular_iff _ _ _ _ _ _ (ring_tangents _ _ _ _ _ _)). cbn [vx vy vz x2 y2]. unfold pi_2. replace (- (2 * PI * - x)) with (x * (PI * 2)) by ring. replace (2 * PI * y) with (y * (PI * 2)) by ring.
      set (a := x * (PI * 2)). set (b := y * (PI * 2)). set (up := sp_displacement d).
      assert (dot (V3 (sin a * sin b) (cos b) (cos a * sin b)) (V3 (- (2 * PI * cos a * (Rg + sin b * r))) (- up) (2 * PI * sin a * (Rg + sin b * r))) = - (up * cos b)) as -> by dots.
      assert (dot (V3 (sin a * sin b) (cos b) (cos a * sin b)) (V3 (2 * PI * sin a * cos b * r) (- (2 * PI * sin b * r)) (2 * PI * cos a * cos b * r)) = 0) as ->.
      { unfold dot. cbn [vx vy vz]. transitivity (2 * PI * r * (sin b * cos b) * ((sin a)² + (cos a)² - 1)); [unfold Rsqr; ring|]. rewrite sin2_cos2. ring. }
      split; [intros [Q _]; lra|intros Q; split; [lra|reflexivity]].
  - right; left. destruct (spiral_disc _ _ _ _ _ _ _ _ Hv) as (N & P). rewrite cos_0, sin_0 in N. assert (N' : normal v = V3 (-1) 0 0) by (rewrite N; unfold vscale; cbn [vx vy vz]; f_equal; ring).
    split; [exact N'|]. eapply shaded_intro; [rewrite P; unfold section_part; reflexivity|apply section_tangents| |]; rewrite N', ?sin_0; dots.
  - right; right. destruct (spiral_disc _ _ _ _ _ _ _ _ Hv) as (N & P). replace (Rmax 0 (sp_turns d) * pi_2) with top in N, P by (unfold top, pi_2; ring).
    assert (N' : normal v = V3 (cos top) 0 (sin top)) by (rewrite N; unfold vscale; cbn [vx vy vz]; f_equal; ring). split; [exact N'|]. split; [unfold lies_on; rewrite P; reflexivity|].
    unfold upright_on. rewrite (perpendicular_iff _ _ _ _ _ _ (section_tangents _ _ _ _ _)), N', T0. cbn [vx vy vz].
    assert (dot (V3 (cos top) 0 (sin top)) (V3 (2 * sin top * r) 0 (2 * cos top * r)) = 2 * r * sin (2 * top)) as -> by (rewrite sin_2a; unfold dot; cbn [vx vy vz]; ring).
    assert (dot (V3 (cos top) 0 (sin top)) (V3 0 (2 * -1 * r) 0) = 0) as -> by dots.
    split; [intros [Q _]; nra|intros Q; split; [rewrite Q; ring|reflexivity]].
Qed.

(** Ellipsoids and cylinders that are not round *)
Lemma ellipsoid_slanted : exists d, valid (DEllipsoid d) /\ regular (DEllipsoid d) /\ forall m, exists m' v, generate (DEllipsoid d) m = Ok m' /\ In v (new_vertices m m') /\
  forall P, In P (parts (DEllipsoid d)) -> lies_on P v /\ ~ upright_on P v.
Proof.
  set (d := mkEllipsoid (V3 1 2 1) 3 4 false). exists d. assert (W : valid (DEllipsoid d)) by (intros n; cbn [d segment_counts el_u el_v In]; lia). split; [exact W|]. split; [unfold regular, nonzero2, nonzero3; cbn [d el_radius cy_radius vx vy vz x2 y2]; lra|]. intros m.
  destruct (succeeds_holds _ m W I ltac:(vm_compute; reflexivity)) as [m' G]. exists m', (ellipsoid_vertex d 3 4 1 0). split; [exact G|]. split.
  - rewrite (generate_result _ _ _ W G), new_vertices_result. cbn [pieces ellipsoid_pieces flat_map pv]. change (Nat.max 3 (el_u d)) with 3%nat. change (Nat.max 2 (el_v d)) with 4%nat.
    unfold grid_verts. cbn [seq flat_map map app]. do 4 right. now left.
  - intros P [<-|[]]. unfold ellipsoid_vertex, lies_on, upright_on. cbn zeta. rewrite spherical_unit. cbn [position normal tex_coord x2 y2 d el_radius vx vy vz].
    replace (frac 0 3) with 0 by (unfold frac; cbn; field). replace (frac 1 4) with (1 / 4) by (unfold frac; cbn; field). unfold pi_2. split.
    + unfold spherical, vmul. cbn [vx vy vz]. replace (1 / 4 * PI) with (PI * (1 / 4)) by ring. replace (0 * (PI * 2)) with (2 * PI * 0) by ring. f_equal; ring.
    + pose proof (ball_tangents (V3 1 2 1) 0 (1 / 4)) as T. cbn zeta in T. cbn [vx vy vz] in T. rewrite (perpendicular_iff _ _ _ _ _ _ T). intros [_ Q]. revert Q. unfold spherical, dot. cbn [vx vy vz].
      replace (1 / 4 * PI) with (PI / 4) by field. replace (PI * (1 / 4)) with (PI / 4) by field. rewrite Rmult_0_l, Rmult_0_r, cos_0, sin_0, cos_PI4, sin_PI4.
      intros Q. pose proof PI_RGT_0. pose proof sqrt2_neq_0 as S2. assert (S : 1 / sqrt 2 * (1 / sqrt 2) = 1 / 2) by (replace (1 / sqrt 2 * (1 / sqrt 2)) with (1 / (sqrt 2 * sqrt 2)) by (field; auto); rewrite sqrt_sqrt; lra).
      assert (PI * (1 / sqrt 2 * (1 / sqrt 2)) = 0) by lra. rewrite S in H0. lra.
Qed.
Lemma cylinder_slanted : exists d, valid (DCylinder d) /\ regular (DCylinder d) /\ forall m, exists m' v, generate (DCylinder d) m = Ok m' /\ In v (new_vertices m m') /\
  lies_on (mantle_part 1 2 (cy_height d)) v /\ vy (normal v) = 0 /\ ~ upright_on (mantle_part 1 2 (cy_height d)) v /\ cy_radius d = V2 1 2.
Proof.
  set (d := mkCylinder (V2 1 2) 1 8 1 0 0 false). exists d. assert (W : valid (DCylinder d)) by (intros n; cbn [d segment_counts cy_u cy_v cy_top cy_bottom In]; lia). split; [exact W|]. split; [unfold regular, nonzero2, nonzero3; cbn [d el_radius cy_radius vx vy vz x2 y2]; lra|]. intros m.
  destruct (succeeds_holds _ m W I ltac:(vm_compute; reflexivity)) as [m' G]. pose proof (mantle_chart false false 1 2 1 1 8 1 (mantle_vertex 1 2 (1 * (1 / 2)) 1 8 1 (at_angle 0 (1 / INR 8 * pi_2) 1) 1 0)) as MC.
  set (v := mantle_vertex _ _ _ _ _ _ _ _ _) in *. exists m', v. split; [exact G|].
  assert (I0 : In v (pv (mantle_piece false false 0 (1 / INR 8 * pi_2) 1 2 (1 * (1 / 2)) 1 8 1))) by (cbn [pv mantle_piece]; unfold grid_verts; cbn [seq flat_map map app]; right; right; now left).
  split.
  - rewrite (generate_result _ _ _ W G), new_vertices_result. cbn [pieces]. unfold cylinder_pieces. cbn zeta. apply in_flat_map. eexists. split; [|exact I0]. left. reflexivity.
  - destruct (MC ltac:(lia) I0) as (N & P). split; [unfold lies_on, mantle_part; rewrite P; reflexivity|]. split; [rewrite N; reflexivity|]. split; [|reflexivity].
    unfold upright_on. rewrite (perpendicular_iff _ _ _ _ _ _ (mantle_tangents _ _ _ _ _)), N. intros [Q _]. revert Q.
    assert (X : 2 * PI * (1 - x2 (tex_coord v)) = PI / 4) by (unfold v, mantle_vertex; cbn [tex_coord x2]; rewrite turn_back by lia; unfold at_angle, pi_2; cbn; field). rewrite X, cos_PI4, sin_PI4. unfold dot. cbn [vx vy vz].
    intros Q. pose proof PI_RGT_0. pose proof sqrt2_neq_0 as S2. assert (S : 1 / sqrt 2 * (1 / sqrt 2) = 1 / 2) by (replace (1 / sqrt 2 * (1 / sqrt 2)) with (1 / (sqrt 2 * sqrt 2)) by (field; auto); rewrite sqrt_sqrt; lra).
    assert (PI * (1 / sqrt 2 * (1 / sqrt 2)) = 0) by lra. rewrite S in H0. lra.
Qed.
