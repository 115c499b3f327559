(** Every mesh generator ends with the result given by its pieces, exactly when the descriptor permits it. *)
From Coq Require Import ZArith Reals List Bool Arith Lia Lra.
From Verif Require Import Model.Scalar Model.Vec Model.Aabb Model.Mesh Model.Interp Model.Bezier Model.Transforms Model.MeshGen Spec.MeshGenSpec
  Proofs.VecLemmas Proofs.MeshGenLoops Proofs.MeshGenPieces Proofs.MeshGenResult.
Import ListNotations.
Local Open Scope nat_scope.

Lemma small_max k n : k < 1000 -> small n -> small (Nat.max k n).
Proof. unfold small. lia. Qed.
Lemma valid_small k n : k < 1000 -> (Z.of_nat n < 2 ^ 32)%Z -> small n -> (Z.of_nat (Nat.max k n + 1) < 2 ^ 32)%Z.
Proof. unfold small. lia. Qed.

Lemma result_one A T m : result [mkPiece A T] m = addT (addV m A) (map (sh (length (verts m))) T).
Proof. unfold result, addT, addV. cbn [flat_map assemble pv pt verts tris]. now rewrite !app_nil_r. Qed.
Lemma assemble_app ps qs off : assemble off (ps ++ qs) = assemble off ps ++ assemble (off + length (flat_map pv ps)) qs.
Proof.
  revert off. induction ps as [|p ps IH]; intros off; cbn; [now rewrite Nat.add_0_r|].
  rewrite IH, app_length, app_assoc. do 2 f_equal. lia.
Qed.
Lemma result_app ps qs m : result (ps ++ qs) m = result qs (result ps m).
Proof. unfold result. cbn. now rewrite flat_map_app, assemble_app, !app_assoc, app_length. Qed.

Ltac lens := rewrite ?addT_len, ?addV_len, ?grid_verts_len, ?disc_verts_len, ?cone_verts_len, ?tube_verts_len in *.

Lemma build_face_ok m rot sh_ sv soz H V alt : (Z.of_nat (H + 1) < 2 ^ 32)%Z -> small H -> small V ->
  build_face m rot sh_ sv soz H V alt = Ok (result [mkPiece (grid_verts (face_vertex rot sh_ sv (soz / 2) H V) V H) (row_tris alt false H V)] m).
Proof.
  intros B SH SV. unfold build_face. rewrite for_grid_V by assumption. cbn [bind].
  rewrite (row_quads_ok _ _ _ _ _ _ _ B eq_refl) by (lens; lia). now rewrite result_one.
Qed.

Lemma cuboid_ok d m : valid (DCuboid d) -> ends (DCuboid d) -> generate_cuboid d m = Ok (result (cuboid_pieces d) m).
Proof.
  intros VD EN. unfold valid, ends in *. cbn in VD, EN.
  assert (Z.of_nat (Nat.max 1 (cu_x d) + 1) < 2 ^ 32)%Z by (apply valid_small; [lia|apply VD|apply EN]; tauto).
  assert (Z.of_nat (Nat.max 1 (cu_y d) + 1) < 2 ^ 32)%Z by (apply valid_small; [lia|apply VD|apply EN]; tauto).
  assert (Z.of_nat (Nat.max 1 (cu_z d) + 1) < 2 ^ 32)%Z by (apply valid_small; [lia|apply VD|apply EN]; tauto).
  assert (small (Nat.max 1 (cu_x d))) by (unfold small; lia).
  assert (small (Nat.max 1 (cu_y d))) by (unfold small; lia).
  assert (small (Nat.max 1 (cu_z d))) by (unfold small; lia).
  unfold generate_cuboid. rewrite !build_face_ok by assumption. cbn [bind].
  rewrite !build_face_ok by assumption. cbn [bind]. rewrite !build_face_ok by assumption. cbn [bind].
  rewrite !build_face_ok by assumption. cbn [bind]. rewrite !build_face_ok by assumption. cbn [bind].
  rewrite !build_face_ok by assumption. rewrite <- !result_app. reflexivity.
Qed.

Lemma ellipsoid_ok d m : valid (DEllipsoid d) -> ends (DEllipsoid d) -> generate_ellipsoid d m = Ok (result (ellipsoid_pieces d) m).
Proof.
  intros VD EN. unfold valid, ends in *. cbn in VD, EN.
  assert (Z.of_nat (Nat.max 3 (el_u d) + 1) < 2 ^ 32)%Z by (apply valid_small; [lia|apply VD|apply EN]; tauto).
  unfold generate_ellipsoid. rewrite for_grid_V by (apply small_max; [lia|apply EN; tauto]). cbn [bind].
  rewrite (uv_quads_ok _ _ _ _ _ _ _ ltac:(eassumption) eq_refl) by (lens; lia). now rewrite <- result_one.
Qed.
Lemma torus_ok d m : valid (DTorus d) -> ends (DTorus d) -> generate_torus d m = Ok (result (torus_pieces d) m).
Proof.
  intros VD EN. unfold valid, ends in *. cbn in VD, EN.
  assert (Z.of_nat (Nat.max 3 (to_u d) + 1) < 2 ^ 32)%Z by (apply valid_small; [lia|apply VD|apply EN]; tauto).
  unfold generate_torus. rewrite for_grid_V by (apply small_max; [lia|apply EN; tauto]). cbn [bind].
  rewrite (uv_quads_ok _ _ _ _ _ _ _ ltac:(eassumption) eq_refl) by (lens; lia). now rewrite <- result_one.
Qed.

Ltac fin :=
  unfold result, addT, addV; cbn [verts tris flat_map assemble pv pt app bind when mantle_piece disc_piece wall_piece ring_piece spiral_piece];
  rewrite ?app_length, ?app_nil_r, <- ?app_assoc, <- ?Nat.add_assoc; reflexivity.

Ltac quads L := erewrite L; [cbn [bind]| ..]; [|try eassumption; try lia; try reflexivity; try (lens; lia) ..].

Lemma cone_ok d m : valid (DCone d) -> ends (DCone d) -> generate_cone d m = Ok (result (cone_pieces d) m).
Proof.
  intros VD EN. unfold valid, ends in *. cbn in VD, EN.
  assert (HU : small (Nat.max 3 (co_u d))) by (apply small_max; [lia|apply EN; tauto]).
  assert (HV : small (Nat.max 1 (co_v d))) by (apply small_max; [lia|apply EN; tauto]).
  assert (HV' : (Z.of_nat (Nat.max 1 (co_v d) + 1) < 2 ^ 32)%Z) by (apply valid_small; [lia|apply VD|apply EN]; tauto).
  assert (HK : small (co_cover d)) by (apply EN; tauto). assert (HP : 0 < Nat.max 1 (co_v d)) by lia.
  unfold generate_cone. rewrite cone_vertices_ok by assumption. cbn [bind]. unfold cone_pieces.
  destruct (Nat.ltb_spec 0 (co_cover d)).
  - rewrite disc_vertices_ok by assumption. cbn [bind].
    rewrite (cone_quads_ok _ _ _ _ _ _ HP HV' eq_refl) by (lens; lia). cbn [bind].
    rewrite (disc_quads_ok _ _ _ _ _ _ _ ltac:(eassumption) eq_refl) by (lens; lia). fin.
  - cbn [bind]. rewrite (cone_quads_ok _ _ _ _ _ _ HP HV' eq_refl) by (lens; lia). fin.
Qed.

Lemma eqb_ltb0 n : (n =? 0) = negb (0 <? n).
Proof. destruct n; reflexivity. Qed.

Lemma cylinder_ok d m : valid (DCylinder d) -> ends (DCylinder d) -> generate_cylinder d m = Ok (result (cylinder_pieces d) m).
Proof.
  intros VD EN. unfold valid, ends in *. cbn in VD, EN.
  assert (HU : small (Nat.max 3 (cy_u d))) by (apply small_max; [lia|apply EN; tauto]).
  assert (HV : small (Nat.max 1 (cy_v d))) by (apply small_max; [lia|apply EN; tauto]).
  assert (HV' : (Z.of_nat (Nat.max 1 (cy_v d) + 1) < 2 ^ 32)%Z) by (apply valid_small; [lia|apply VD|apply EN]; tauto).
  assert (HT : small (cy_top d)) by (apply EN; tauto). assert (HB : small (cy_bottom d)) by (apply EN; tauto).
  unfold generate_cylinder. rewrite mantle_vertices_ok by assumption. cbn [bind]. unfold cylinder_pieces. rewrite !eqb_ltb0.
  destruct (Nat.ltb_spec 0 (cy_bottom d)) as [PB|PB], (Nat.ltb_spec 0 (cy_top d)) as [PT|PT]; cbn [negb];
    rewrite ?disc_vertices_ok by assumption; cbn [bind]; rewrite ?disc_vertices_ok by assumption; cbn [bind];
    rewrite (mantle_quads_ok _ _ _ _ _ _ _ HV' eq_refl) by (lens; lia); cbn [bind];
    rewrite ?(disc_quads_ok _ _ _ _ _ _ _ PB eq_refl) by (lens; lia); cbn [bind];
    rewrite ?(disc_quads_ok _ _ _ _ _ _ _ PT eq_refl) by (lens; lia); fin.
Qed.

Lemma pipe_ok d m : valid (DPipe d) -> ends (DPipe d) -> generate_pipe d m = Ok (result (pipe_pieces d) m).
Proof.
  intros VD EN. unfold valid, ends in *. cbn in VD, EN.
  assert (HU : small (Nat.max 3 (pp_u d))) by (apply small_max; [lia|apply EN; tauto]).
  assert (HV : small (Nat.max 1 (pp_v d))) by (apply small_max; [lia|apply EN; tauto]).
  assert (HV' : (Z.of_nat (Nat.max 1 (pp_v d) + 1) < 2 ^ 32)%Z) by (apply valid_small; [lia|apply VD|apply EN]; tauto).
  assert (HT : small (pp_top d)) by (apply EN; tauto). assert (HB : small (pp_bottom d)) by (apply EN; tauto).
  assert (HT' : (Z.of_nat (pp_top d + 1) < 2 ^ 32)%Z) by (specialize (VD (pp_top d)); unfold small in *; lia).
  assert (HB' : (Z.of_nat (pp_bottom d + 1) < 2 ^ 32)%Z) by (specialize (VD (pp_bottom d)); unfold small in *; lia).
  unfold generate_pipe. rewrite mantle_vertices_ok by assumption. cbn [bind]. rewrite mantle_vertices_ok by assumption. cbn [bind].
  unfold pipe_pieces. rewrite !eqb_ltb0.
  destruct (Nat.ltb_spec 0 (pp_bottom d)), (Nat.ltb_spec 0 (pp_top d)); cbn [negb];
    rewrite ?ring_vertices_ok by assumption; cbn [bind]; rewrite ?ring_vertices_ok by assumption; cbn [bind];
    rewrite (mantle_quads_ok _ _ _ _ _ _ _ HV' eq_refl) by (lens; lia); cbn [bind];
    rewrite (mantle_quads_ok _ _ _ _ _ _ _ HV' eq_refl) by (lens; lia); cbn [bind];
    rewrite ?(ring_quads_ok _ _ _ _ _ _ _ HB' eq_refl) by (lens; lia); cbn [bind];
    rewrite ?(ring_quads_ok _ _ _ _ _ _ _ HT' eq_refl) by (lens; lia); fin.
Qed.

Lemma wall_vertices_ok m rx rz half side noff tc0 tc1 M V : small M -> small V ->
  wall_vertices m rx rz half side noff tc0 tc1 M V = Ok (addV m (grid_verts (wall_vertex rx rz half side (side + noff) tc0 tc1 M V) M V)).
Proof. intros. unfold wall_vertices. now apply for_grid_V. Qed.

Lemma pie_ok d m : valid (DPie d) -> ends (DPie d) -> generate_pie d m = Ok (result (pie_pieces d) m).
Proof.
  intros VD EN. unfold valid, ends in *. cbn in VD, EN.
  assert (HU : small (Nat.max 3 (pi_u d))) by (apply small_max; [lia|apply EN; tauto]).
  assert (HV : small (Nat.max 1 (pi_v d))) by (apply small_max; [lia|apply EN; tauto]).
  assert (HV' : (Z.of_nat (Nat.max 1 (pi_v d) + 1) < 2 ^ 32)%Z) by (apply valid_small; [lia|apply VD|apply EN]; tauto).
  assert (HK : small (pi_cover d)) by (apply EN; tauto). assert (HM : small (Nat.max 1 (pi_cover d))) by (apply small_max; [lia|apply EN; tauto]).
  unfold generate_pie. rewrite mantle_vertices_ok by assumption. cbn [bind]. rewrite wall_vertices_ok by assumption. cbn [bind].
  rewrite wall_vertices_ok by assumption. cbn [bind]. unfold pie_pieces.
  destruct (Nat.ltb_spec 0 (pi_cover d));
    rewrite ?disc_vertices_ok by assumption; cbn [bind]; rewrite ?disc_vertices_ok by assumption; cbn [bind];
    rewrite (mantle_quads_ok _ _ _ _ _ _ _ HV' eq_refl) by (lens; lia); cbn [bind];
    rewrite (mantle_quads_ok _ _ _ _ _ _ _ HV' eq_refl) by (lens; lia); cbn [bind];
    rewrite (mantle_quads_ok _ _ _ _ _ _ _ HV' eq_refl) by (lens; lia); cbn [bind];
    rewrite ?(disc_quads_ok _ _ _ _ _ _ _ ltac:(eassumption) eq_refl) by (lens; lia); cbn [bind];
    rewrite ?(disc_quads_ok _ _ _ _ _ _ _ ltac:(eassumption) eq_refl) by (lens; lia); fin.
Qed.

Lemma capsule_ok d m : valid (DCapsule d) -> ends (DCapsule d) -> generate_capsule d m = Ok (result (capsule_pieces d) m).
Proof.
  intros VD EN. unfold valid, ends in *. cbn in VD, EN.
  assert (HU : small (Nat.max 3 (ca_u d))) by (apply small_max; [lia|apply EN; tauto]).
  assert (HU' : (Z.of_nat (Nat.max 3 (ca_u d) + 1) < 2 ^ 32)%Z) by (apply valid_small; [lia|apply VD|apply EN]; tauto).
  assert (HV : small (Nat.max 1 (ca_v d))) by (apply small_max; [lia|apply EN; tauto]).
  assert (HV' : (Z.of_nat (Nat.max 1 (ca_v d) + 1) < 2 ^ 32)%Z) by (apply valid_small; [lia|apply VD|apply EN]; tauto).
  assert (HC : small (Nat.max 2 (ca_cap d))) by (apply small_max; [lia|apply EN; tauto]).
  unfold generate_capsule. rewrite mantle_vertices_ok by assumption. cbn [bind]. rewrite for_grid_V by assumption. cbn [bind].
  rewrite for_grid_V by assumption. cbn [bind].
  rewrite (mantle_quads_ok _ _ _ _ _ _ _ HV' eq_refl) by (lens; lia). cbn [bind].
  rewrite (uv_quads_ok _ _ _ _ _ _ _ HU' eq_refl) by (lens; lia). cbn [bind].
  rewrite (uv_quads_ok _ _ _ _ _ _ _ HU' eq_refl) by (lens; lia). unfold capsule_pieces. fin.
Qed.

Lemma spiral_segments_bound d : (Rmax 0 (sp_turns d) * INR (Nat.max 3 (sp_u d)) < IZR (2 ^ 32))%R -> (Z.of_nat (spiral_segments d) < 2 ^ 32)%Z.
Proof.
  unfold spiral_segments. set (x := (Rmax 0 (sp_turns d) * INR (Nat.max 3 (sp_u d)))%R). intros Hx.
  assert (0 <= x)%R by (apply Rmult_le_pos; [apply Rmax_l|apply pos_INR]).
  destruct (base_Int_part x) as [B1 B2]. assert (Int_part x < 2 ^ 32)%Z by (apply lt_IZR; lra).
  assert (-1 < Int_part x)%Z by (apply lt_IZR; lra). lia.
Qed.

Lemma spiral_ok d m : valid (DSpiral d) -> defined (DSpiral d) -> ends (DSpiral d) -> generate_spiral d m = Ok (result (spiral_pieces d) m).
Proof.
  intros VD DF (SV & ST & STop & SBot). pose proof (spiral_segments_bound d DF) as TB. unfold valid in VD. cbn in VD. unfold defined in DF.
  assert (HV : small (Nat.max 3 (sp_v d))) by (apply small_max; [lia|assumption]).
  assert (HT' : (Z.of_nat (spiral_segments d + 1) < 2 ^ 32)%Z) by (unfold small in *; lia).
  unfold generate_spiral. unfold to_u32. rewrite (proj2 (Rltb_iff _ _) DF). cbn [bind].
  fold (spiral_segments d). rewrite for_grid_V by assumption. cbn [bind].
  unfold spiral_pieces. rewrite !eqb_ltb0.
  destruct (Nat.ltb_spec 0 (sp_bottom d)) as [PB|PB], (Nat.ltb_spec 0 (sp_top d)) as [PT|PT]; cbn [negb];
    rewrite ?spiral_cover_ok by assumption; cbn [bind]; rewrite ?spiral_cover_ok by assumption; cbn [bind];
    rewrite (uv_quads_ok _ _ _ _ _ _ _ HT' eq_refl) by (lens; lia); cbn [bind];
    rewrite ?(disc_quads_ok _ _ _ _ _ _ _ PB eq_refl) by (lens; lia); cbn [bind];
    rewrite ?(disc_quads_ok _ _ _ _ _ _ _ PT eq_refl) by (lens; lia); fin.
Qed.

Lemma curve_ok d m : cv_curve d <> None -> generate_curve d m = Ok (result (curve_pieces d) m).
Proof.
  intros DF. unfold generate_curve, curve_pieces. destruct (cv_curve d) as [f|]; [|contradiction].
  unfold for_lt at 1. rewrite Nat.sub_0_r.
  rewrite (for_list_V _ _ (fun u => map (curve_vertex d f (Nat.max 3 (cv_u d)) (Nat.max 3 (cv_v d)) u) (seq 0 (Nat.max 3 (cv_v d))))).
  2:{ intros u m' _. unfold for_lt. rewrite Nat.sub_0_r. apply for_list_one. }
  cbn [bind]. fold (tube_verts (curve_vertex d f (Nat.max 3 (cv_u d)) (Nat.max 3 (cv_v d))) (Nat.max 3 (cv_u d)) (Nat.max 3 (cv_v d))).
  rewrite (tube_quads_ok _ _ _ _ _ _ eq_refl) by (lens; lia). fin.
Qed.

Lemma bezier_ok d m : valid (DBezier d) -> defined (DBezier d) -> ends (DBezier d) -> generate_bezier d m = Ok (result (bezier_pieces d) m).
Proof.
  intros VD DF EN. unfold valid, ends in *. cbn in VD, EN. unfold defined in DF. cbn zeta in DF.
  assert (HU : small (Nat.max 1 (bp_u d))) by (apply small_max; [lia|apply EN; tauto]).
  assert (HU' : (Z.of_nat (Nat.max 1 (bp_u d) + 1) < 2 ^ 32)%Z) by (apply valid_small; [lia|apply VD|apply EN]; tauto).
  assert (HV : small (Nat.max 1 (bp_v d))) by (apply small_max; [lia|apply EN; tauto]).
  unfold generate_bezier. rewrite for_le_run by assumption. rewrite Nat.sub_0_r.
  rewrite (for_list_V _ _ (fun i => map (fun j => match bezier_vertex d (Nat.max 1 (bp_u d)) (Nat.max 1 (bp_v d)) i j with Some v => v | None => no_vertex end)
    (seq 0 (S (Nat.max 1 (bp_u d)))))).
  2:{ intros i m' Hi. apply in_seq in Hi. rewrite for_le_run by assumption. rewrite Nat.sub_0_r.
      rewrite (for_list_V _ _ (fun j => [match bezier_vertex d (Nat.max 1 (bp_u d)) (Nat.max 1 (bp_v d)) i j with Some v => v | None => no_vertex end])).
      - reflexivity.
      - intros j m'' Hj. apply in_seq in Hj. specialize (DF i j ltac:(lia) ltac:(lia)). destruct (bezier_vertex _ _ _ i j); [reflexivity|contradiction]. }
  cbn [bind]. erewrite row_quads_ok; [|exact HU'|reflexivity|].
  - unfold bezier_pieces. now rewrite result_one.
  - rewrite addV_len. change (flat_map _ _) with (grid_verts (fun i j => match bezier_vertex d (Nat.max 1 (bp_u d)) (Nat.max 1 (bp_v d)) i j with Some v => v | None => no_vertex end) (Nat.max 1 (bp_v d)) (Nat.max 1 (bp_u d))).
    lens. lia.
Qed.

Theorem generate_ok d m : valid d -> defined d -> ends d -> generate d m = Ok (result (pieces d) m).
Proof.
  destruct d; intros VD DF EN; cbn [generate pieces].
  - now apply cuboid_ok. - now apply ellipsoid_ok. - now apply cone_ok. - now apply cylinder_ok. - now apply pie_ok. - now apply pipe_ok.
  - now apply capsule_ok. - now apply torus_ok. - unfold generate_knot. now apply curve_ok. - now apply spiral_ok. - now apply curve_ok. - now apply bezier_ok.
Qed.
