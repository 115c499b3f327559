(** Texture coordinates as parameters of positions *)
From Coq Require Import ZArith Reals List Bool Arith Lia Lra.
From Verif Require Import Model.Scalar Model.Vec Model.Aabb Model.Mesh Model.Interp Model.Bezier Model.Transforms Model.MeshGen Spec.MeshGenSpec Spec.SurfaceSpec
  Spec.WindingSpec Spec.TextureSpec Spec.ChartSpec Proofs.VecLemmas Proofs.MeshGenLoops Proofs.MeshGenResult Proofs.MeshGenInv Proofs.MeshGenTotal Proofs.MeshGenMain Proofs.MeshGenSurface
  Proofs.MeshGenChains Proofs.MeshGenClosed Proofs.MeshGenWinding Proofs.MeshGenTexture.
Import ListNotations.
Local Open Scope R_scope.

Lemma turn_back H i : (i <= H)%nat -> (0 < H)%nat -> 2 * PI * (1 - frac (H - i) H) = at_angle 0 (1 / INR H * pi_2) i.
Proof. intros. rewrite frac_rev by assumption. unfold at_angle, frac, pi_2. ring. Qed.
Lemma mantle_chart alt rev rx rz h side H V v : (0 < H)%nat -> In v (pv (mantle_piece alt rev 0 (1 / INR H * pi_2) rx rz (h * (1 / 2)) side H V)) ->
  let turn := 2 * PI * (1 - x2 (tex_coord v)) in normal v = V3 (side * sin turn) 0 (side * cos turn) /\ position v = around rx rz h turn 1 (y2 (tex_coord v)).
Proof.
  intros PH X. apply in_grid_verts in X. destruct X as (i & j & Hi & Hj & ->). cbn zeta. unfold mantle_vertex. cbn [tex_coord position normal x2 y2].
  rewrite turn_back, unit_xz by assumption. split; [unfold vscale; cbn [vx vy vz]|unfold around, lerp]; f_equal; field.
Qed.
Lemma up_cover alt start step rx rz h H K v : In v (pv (disc_piece alt true start step rx rz (h * (1 / 2) * 1) 1 H K)) -> top_cover rx rz h v.
Proof.
  intros X. apply in_disc_verts in X. unfold top_cover. destruct X as [->|(i & j & Hi & Hj & ->)]; cbn zeta; unfold disc_vertex, disc_center; cbn [position normal tex_coord x2 y2];
    (split; [reflexivity|]); unfold lerp3, lerp, vadd, vscale, vsub; cbn [vx vy vz]; f_equal; field.
Qed.
Lemma down_cover alt start step rx rz h y H K v : y = - (h / 2) -> In v (pv (disc_piece alt false start step rx rz y (-1) H K)) -> bottom_cover rx rz h v.
Proof.
  intros Y X. apply in_disc_verts in X. unfold bottom_cover. destruct X as [->|(i & j & Hi & Hj & ->)]; cbn zeta; unfold disc_vertex, disc_center; cbn [position normal tex_coord x2 y2];
    (split; [reflexivity|]); unfold lerp3, lerp, vadd, vscale, vsub; cbn [vx vy vz]; rewrite Y; f_equal; field.
Qed.
Lemma up_ring d step H K v : x2 (pp_outer d) <> 0 -> y2 (pp_outer d) <> 0 -> In v (pv (ring_piece d true step (pp_height d * (1 / 2) * 1) 1 H K)) ->
  top_cover (x2 (pp_outer d)) (y2 (pp_outer d)) (pp_height d) v.
Proof.
  intros NX NY X. apply in_grid_verts in X. unfold top_cover. destruct X as (i & j & Hi & Hj & ->). cbn zeta. unfold ring_vertex. cbn [position normal tex_coord x2 y2].
  (split; [reflexivity|]). unfold lerp3, lerp, vadd, vscale, vsub. cbn [vx vy vz]. f_equal; field; assumption.
Qed.
Lemma down_ring d step H K v : x2 (pp_outer d) <> 0 -> y2 (pp_outer d) <> 0 -> In v (pv (ring_piece d false step (pp_height d * (1 / 2) * -1) (-1) H K)) ->
  bottom_cover (x2 (pp_outer d)) (y2 (pp_outer d)) (pp_height d) v.
Proof.
  intros NX NY X. apply in_grid_verts in X. unfold bottom_cover. destruct X as (i & j & Hi & Hj & ->). cbn zeta. unfold ring_vertex. cbn [position normal tex_coord x2 y2].
  (split; [reflexivity|]). unfold lerp3, lerp, vadd, vscale, vsub. cbn [vx vy vz]. f_equal; field; assumption.
Qed.
Lemma curve_chart d f v : cv_curve d = Some f -> In v (flat_map pv (curve_pieces d)) ->
  position v = vadd (f (x2 (tex_coord v))) (vscale (cv_radius d * match cv_modifier d with None => 1 | Some g => g (x2 (tex_coord v)) (y2 (tex_coord v)) end) (normal v)).
Proof.
  intros C. unfold curve_pieces. cbn zeta. rewrite C. cbn [flat_map pv]. rewrite app_nil_r. intros X. apply in_tube_verts in X. destruct X as (i & j & Hi & Hj & ->).
  unfold curve_vertex. cbn [position normal tex_coord x2 y2]. unfold curve_sample. f_equal. destruct (cv_modifier d); [reflexivity|]. f_equal. ring.
Qed.
Lemma cos_half a : cos (a + pi_0_5) = - sin a.
Proof. rewrite cos_plus, cos_q, sin_q. ring. Qed.
Lemma sin_half a : sin (a + pi_0_5) = cos a.
Proof. rewrite sin_plus, cos_q, sin_q. ring. Qed.
Lemma spiral_disc d up turns phi side V K v : In v (pv (spiral_piece d up turns phi side V K)) ->
  normal v = vscale side (V3 (cos phi) 0 (sin phi)) /\
  let u := 2 * (x2 (tex_coord v) - 1 / 2) in let w := (if up then -1 else 1) * (2 * (y2 (tex_coord v) - 1 / 2)) in
  position v = V3 (sin phi * (x2 (sp_ring d) + u * vx (sp_tube d))) (w * vy (sp_tube d) + (phi / (2 * PI) - turns / 2) * sp_displacement d) (cos phi * (y2 (sp_ring d) + u * vz (sp_tube d))).
Proof.
  intros X. apply in_disc_verts in X. pose proof PI_RGT_0. destruct X as [->|(i & j & Hi & Hj & ->)]; (split; [reflexivity|]); cbn zeta; unfold spiral_center, spiral_cover_vertex, cover_coord;
    cbn [position tex_coord x2 y2]; unfold lerp3, lerp, vadd, vscale, vsub, pi_2; cbn [vx vy vz]; destruct up; f_equal; field; lra.
Qed.

Theorem charted_holds d m m' v : valid d -> regular d \/ match d with DKnot _ | DSpiral _ | DCurve _ | DBezier _ => True | _ => False end ->
  generate d m = Ok m' -> In v (new_vertices m m') -> charted d v.
Proof.
  intros W RG G H. destruct (generate_inv _ _ _ G) as [DF _]. rewrite (generate_result _ _ _ W G), new_vertices_result in H.
  destruct d; cbn [pieces] in *; try (apply in_flat_map in H; destruct H as (p & Hp & Hv)).
  - unfold cuboid_pieces in Hp. cbn zeta in Hp. unfold charted, cuboid_chart. cbn zeta.
    in_pieces Hp; subst p; cbn [pv] in Hv; apply in_grid_verts in Hv; destruct Hv as (i & j & Hi & Hj & ->); unfold face_vertex; cbn [position normal tex_coord x2 y2];
      rewrite ?rot0, ?rot_x, ?rot_y; cbn [vx vy vz]; rewrite ?cos_PI, ?sin_PI, ?cos_neg, ?sin_neg, ?cos_q, ?sin_q.
    + left; split; f_equal; field.
    + right; left; split; f_equal; field.
    + right; right; left; split; f_equal; field.
    + right; right; right; left; split; f_equal; field.
    + right; right; right; right; left; split; f_equal; field.
    + right; right; right; right; right; split; f_equal; field.
  - unfold ellipsoid_pieces in Hp. cbn zeta in Hp. in_pieces Hp; subst p; cbn [pv] in Hv; apply in_grid_verts in Hv; destruct Hv as (i & j & Hi & Hj & ->).
    unfold charted, ellipsoid_vertex. cbn zeta. cbn [position normal tex_coord x2 y2]. unfold spherical, vmul, pi_2. cbn [vx vy vz].
    set (y := frac i _). set (x := frac j _). replace (y * PI) with (PI * y) by ring. replace (x * (PI * 2)) with (2 * PI * x) by ring. f_equal; ring.
  - unfold cone_pieces in Hp. cbn zeta in Hp. unfold charted. cbn zeta. in_pieces Hp; subst p; [left|right; eapply down_cover; [|exact Hv]; field]. cbn [pv] in Hv. apply in_cone_verts in Hv.
    destruct Hv as [(i & Hi & ->)|(i & j & Hi & Hj & ->)]; unfold cone_tip, cone_vertex; cbn [position tex_coord x2 y2]; unfold around.
    + f_equal; field.
    + rewrite turn_back by lia. unfold lerp3, lerp, vadd, vscale, vsub. cbn [vx vy vz]. f_equal; field.
  - unfold cylinder_pieces in Hp. cbn zeta in Hp. unfold charted. cbn zeta. in_pieces Hp; subst p.
    + left. pose proof (fun PH => mantle_chart _ _ _ _ _ _ _ _ _ PH Hv) as Q; destruct (Q ltac:(lia)) as (N & P). split; [rewrite N; f_equal; ring|exact P].
    + right; left. eapply down_cover; [|exact Hv]. field.
    + right; right. eapply up_cover, Hv.
  - unfold pie_pieces in Hp. cbn zeta in Hp. unfold charted. cbn zeta. fold pi_2. replace (2 * PI) with pi_2 by (unfold pi_2; ring). set (angle := clampR (pi_angle d) 0 pi_2) in *. in_pieces Hp; subst p.
    + left. cbn [pv mantle_piece] in Hv. apply in_grid_verts in Hv. destruct Hv as (i & j & Hi & Hj & ->). unfold mantle_vertex. cbn [tex_coord position normal x2 y2].
      match goal with |- context [at_angle ?s ?t i] => replace (pi_offset d + angle + (pi_2 - angle) * (1 - frac (Nat.max 3 (pi_u d) - i) (Nat.max 3 (pi_u d)))) with (at_angle s t i)
        by (rewrite frac_rev by lia; unfold at_angle, frac; ring) end.
      rewrite unit_xz. split; [unfold vscale; cbn [vx vy vz]|unfold around, lerp]; f_equal; field.
    + right; left. cbn [pv wall_piece] in Hv. apply in_grid_verts in Hv. destruct Hv as (i & j & Hi & Hj & ->). unfold wall_vertex. cbn [tex_coord position normal x2 y2].
      rewrite <- Rplus_assoc, cos_half, sin_half, neg_sin, neg_cos. split; [|unfold around, lerp]; f_equal; field.
    + right; right; left. cbn [pv wall_piece] in Hv. apply in_grid_verts in Hv. destruct Hv as (i & j & Hi & Hj & ->). unfold wall_vertex. cbn [tex_coord position normal x2 y2].
      replace (pi_offset d + angle - angle) with (pi_offset d) by ring. rewrite cos_half, sin_half. split; [|unfold around, lerp]; f_equal; field.
    + right; right; right; left. eapply down_cover; [|exact Hv]. field.
    + right; right; right; right. eapply up_cover, Hv.
  - destruct RG as [(A & B & C & D)|[]]. unfold pipe_pieces in Hp. cbn zeta in Hp. unfold charted. cbn zeta. in_pieces Hp; subst p.
    + left. pose proof (fun PH => mantle_chart _ _ _ _ _ _ _ _ _ PH Hv) as Q; destruct (Q ltac:(lia)) as (N & P). split; [rewrite N; f_equal; ring|exact P].
    + right; left. pose proof (fun PH => mantle_chart _ _ _ _ _ _ _ _ _ PH Hv) as Q; destruct (Q ltac:(lia)) as (N & P). split; [rewrite N; f_equal; ring|exact P].
    + right; right; left. eapply down_ring; [lra|lra|exact Hv].
    + right; right; right. eapply up_ring; [lra|lra|exact Hv].
  - unfold capsule_pieces in Hp. cbn zeta in Hp. unfold charted. cbn zeta. in_pieces Hp; subst p.
    + left. pose proof (fun PH => mantle_chart _ _ _ _ _ _ _ _ _ PH Hv) as Q; destruct (Q ltac:(lia)) as (N & P). split; [rewrite N; f_equal; ring|exact P].
    + right; left. cbn [pv] in Hv; apply in_grid_verts in Hv; destruct Hv as (i & j & Hi & Hj & ->). unfold cap_vertex. cbn [position tex_coord x2 y2]. unfold spherical, vmul. cbn [vx vy vz].
      rewrite cos_half, sin_half. unfold pi_0_5, pi_2. set (y := frac i _). set (x := frac j _). replace (y * (PI * (1 / 2))) with (PI / 2 * y) by field. replace (x * (PI * 2) * 1) with (2 * PI * x) by ring. f_equal; field.
    + right; right. cbn [pv] in Hv; apply in_grid_verts in Hv; destruct Hv as (i & j & Hi & Hj & ->). unfold cap_vertex. cbn [position tex_coord x2 y2]. unfold spherical, vmul. cbn [vx vy vz].
      rewrite cos_half, sin_half. unfold pi_0_5, pi_2. set (y := frac i _). set (x := frac j _). replace (y * (PI * (1 / 2))) with (PI / 2 * y) by field. replace (x * (PI * 2) * -1) with (- (2 * PI * x)) by ring.
      rewrite sin_neg, cos_neg. f_equal; field.
  - unfold torus_pieces in Hp. cbn zeta in Hp. in_pieces Hp; subst p; cbn [pv] in Hv; apply in_grid_verts in Hv; destruct Hv as (i & j & Hi & Hj & ->).
    unfold charted, torus_vertex. cbn zeta. cbn [position normal tex_coord x2 y2]. unfold ring_point, pi_2. set (y := frac i _). set (x := frac j _).
    replace (- (2 * PI * - x)) with (x * (PI * 2)) by ring. replace (2 * PI * y) with (y * (PI * 2)) by ring. f_equal; ring.
  - apply (curve_chart (knot_as_curve d) (knot_curve d)); [reflexivity|]. apply in_flat_map. now exists p.
  - unfold spiral_pieces in Hp. cbn zeta in Hp. unfold charted. cbn zeta. in_pieces Hp; subst p.
    + left. cbn [pv] in Hv; apply in_grid_verts in Hv; destruct Hv as (i & j & Hi & Hj & ->). unfold spiral_vertex. cbn [position tex_coord x2 y2]. unfold ring_point, pi_2. set (y := frac i _). set (x := frac j _).
      replace (- (2 * PI * - x)) with (x * (PI * 2)) by ring. replace (2 * PI * y) with (y * (PI * 2)) by ring. f_equal; field.
    + right; left. destruct (spiral_disc _ _ _ _ _ _ _ _ Hv) as (N & P). rewrite N, P. unfold vscale. cbn [vx vy vz]. rewrite cos_0, sin_0. split; [f_equal; ring|reflexivity].
    + right; right. destruct (spiral_disc _ _ _ _ _ _ _ _ Hv) as (N & P). rewrite N, P. unfold vscale, pi_2. cbn [vx vy vz]. rewrite <- (Rmult_comm (Rmax 0 (sp_turns d))), (Rmult_comm 2 PI).
      split; [f_equal; ring|reflexivity].
  - cbn [defined] in DF. unfold charted. cbn zeta. destruct (cv_curve d) as [f|] eqn:E; [|congruence]. exists f. split; [reflexivity|]. apply curve_chart; [assumption|]. apply in_flat_map. now exists p.
  - unfold bezier_pieces in Hp. cbn zeta in Hp. in_pieces Hp. subst p. cbn [pv] in Hv. apply in_grid_verts in Hv. destruct Hv as (i & j & Hi & Hj & ->). cbn [defined] in DF. specialize (DF i j Hi Hj).
    destruct (bezier_vertex d _ _ i j) as [w|] eqn:E; [|congruence]. unfold bezier_vertex in E.
    destruct (patch_eval (bp_patch d) (frac _ _) (frac _ _)) eqn:E1; [|discriminate]. destruct (patch_eval (bp_patch d) (_ + _) _); [|discriminate]. destruct (patch_eval (bp_patch d) _ (_ + _)); [|discriminate].
    set (Hn := Nat.max 1 (bp_u d)) in *. set (Vn := Nat.max 1 (bp_v d)) in *. injection E as <-. unfold charted. cbn zeta. destruct (bp_back d) eqn:BB; rewrite ?BB; cbn [position tex_coord x2 y2]; [exact E1|].
    replace (1 - (1 - frac i Vn)) with (frac i Vn) by ring. exact E1.
Qed.
