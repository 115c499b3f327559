(** The result of every mesh generator: a list of pieces. *)
From Coq Require Import ZArith Reals List Bool Arith Lia Lra.
From Verif Require Import Model.Scalar Model.Vec Model.Aabb Model.Mesh Model.Interp Model.Bezier Model.Transforms Model.MeshGen Spec.MeshGenSpec
  Proofs.MeshGenLoops Proofs.MeshGenPieces.
Import ListNotations.
Local Open Scope nat_scope.

Lemma mantle_vertices_ok m start step rx rz half side H V : small H -> small V ->
  mantle_vertices m start step rx rz half side H V
  = Ok (addV m (grid_verts (fun u v => mantle_vertex rx rz half side H V (at_angle start step u) u v) H V)).
Proof.
  intros A B. unfold mantle_vertices. rewrite for_le_run by assumption. rewrite Nat.sub_0_r.
  replace (start, m) with ((start + INR 0 * step)%R, m) by (f_equal; cbn; lra).
  rewrite (for_angle _ (fun u a => map (mantle_vertex rx rz half side H V a u) (seq 0 (S V))) start step (S H)).
  - reflexivity.
  - intros u a m' _. rewrite for_le_run by assumption. rewrite for_list_one. reflexivity.
Qed.

Definition disc_verts (center : vertex) (f : nat -> nat -> vertex) (H K : nat) : list vertex :=
  center :: flat_map (fun u => map (f u) (seq 1 K)) (seq 0 (S H)).

Lemma disc_vertices_ok m start step rx rz y side flip H K : small H -> small K ->
  disc_vertices m start step rx rz y side flip H K
  = Ok (addV m (disc_verts (disc_center y side) (fun u v => disc_vertex rx rz y side flip K (at_angle start step u) v) H K)).
Proof.
  intros A B. unfold disc_vertices. rewrite for_le_run by assumption. rewrite Nat.sub_0_r. rewrite add_v_eq.
  replace (start, addV m [disc_center y side]) with ((start + INR 0 * step)%R, addV m [disc_center y side]) by (f_equal; cbn; lra).
  rewrite (for_angle _ (fun u a => map (disc_vertex rx rz y side flip K a) (seq 1 K)) start step (S H)).
  - cbn [bind snd]. rewrite addV_app. reflexivity.
  - intros u a m' _. rewrite for_le_run by assumption. rewrite for_list_one. cbn [bind]. now replace (S K - 1) with K by lia.
Qed.

Lemma ring_vertices_ok m d step y side flip H K : small H -> small K ->
  ring_vertices m d step y side flip H K
  = Ok (addV m (grid_verts (fun u v => ring_vertex d y side flip K (at_angle 0 step u) v) H K)).
Proof.
  intros A B. unfold ring_vertices. rewrite for_le_run by assumption. rewrite Nat.sub_0_r.
  replace (0%R, m) with ((0 + INR 0 * step)%R, m) by (f_equal; cbn; lra).
  rewrite (for_angle _ (fun u a => map (ring_vertex d y side flip K a) (seq 0 (S K))) 0%R step (S H)).
  - reflexivity.
  - intros u a m' _. rewrite for_le_run by assumption. rewrite for_list_one. reflexivity.
Qed.

Lemma spiral_cover_ok m d turns phi side flip V K : small V -> small K ->
  spiral_cover m d turns phi side flip V K
  = Ok (addV m (disc_verts (spiral_center d turns phi side)
      (fun v j => spiral_cover_vertex d turns phi side flip K (at_angle 0 (1 / INR V * pi_2) v) j) V K)).
Proof.
  intros A B. unfold spiral_cover. rewrite for_le_run by assumption. rewrite Nat.sub_0_r. rewrite add_v_eq.
  replace (0%R, addV m [spiral_center d turns phi side]) with ((0 + INR 0 * (1 / INR V * pi_2))%R, addV m [spiral_center d turns phi side]) by (f_equal; cbn; lra).
  rewrite (for_angle _ (fun u a => map (spiral_cover_vertex d turns phi side flip K a) (seq 1 K)) 0%R (1 / INR V * pi_2)%R (S V)).
  - cbn [bind snd]. rewrite addV_app. reflexivity.
  - intros u a m' _. rewrite for_le_run by assumption. rewrite for_list_one. cbn [bind]. now replace (S K - 1) with K by lia.
Qed.

Definition cone_verts (f : nat -> nat -> vertex) (tip : nat -> vertex) (H V : nat) : list vertex :=
  flat_map (fun u => map (f u) (seq 1 V) ++ (if u <? H then [tip u] else [])) (seq 0 (S H)).

Lemma cone_vertices_ok m d step half H V : small H -> small V ->
  cone_vertices m d step half H V
  = Ok (addV m (cone_verts (fun u v => cone_vertex d half H V (at_angle 0 step u) u v) (cone_tip half H) H V)).
Proof.
  intros A B. unfold cone_vertices. rewrite for_le_run by assumption. rewrite Nat.sub_0_r.
  replace (0%R, m) with ((0 + INR 0 * step)%R, m) by (f_equal; cbn; lra).
  rewrite (for_angle _ (fun u a => map (cone_vertex d half H V a u) (seq 1 V) ++ (if u <? H then [cone_tip half H u] else [])) 0%R step (S H)).
  - reflexivity.
  - intros u a m' _. rewrite for_le_run by assumption. rewrite for_list_one. cbn [bind]. replace (S V - 1) with V by lia.
    destruct (u <? H); rewrite ?add_v_eq, ?addV_app, ?app_nil_r; reflexivity.
Qed.

(** ** Pieces *)
Record piece := mkPiece { pv : list vertex; pt : list tri }.
Fixpoint assemble (off : nat) (ps : list piece) : list tri :=
  match ps with [] => [] | p :: ps' => map (sh off) (pt p) ++ assemble (off + length (pv p)) ps' end.
Definition result (ps : list piece) (m : gmesh) : gmesh :=
  mkMesh (verts m ++ flat_map pv ps) (tris m ++ assemble (length (verts m)) ps).

Definition cuboid_pieces (d : cuboid) : list piece :=
  let X := Nat.max 1 (cu_x d) in let Y := Nat.max 1 (cu_y d) in let Z := Nat.max 1 (cu_z d) in
  let sx := vx (cu_size d) in let sy := vy (cu_size d) in let sz := vz (cu_size d) in
  let face rot sh sv soz H V := mkPiece (grid_verts (face_vertex rot sh sv (soz / 2) H V) V H) (row_tris (cu_alt d) false H V) in
  [face qone sx sy (- sz)%R X Y; face (euler_y PI) sx sy (- sz)%R X Y;
   face (euler_y (- pi_0_5)) sz sy (- sx)%R Z Y; face (euler_y pi_0_5) sz sy (- sx)%R Z Y;
   face (euler_x pi_0_5) sx sz (- sy)%R X Z; face (euler_x (- pi_0_5)) sx sz (- sy)%R X Z].
Definition ellipsoid_pieces (d : ellipsoid) : list piece :=
  let U := Nat.max 3 (el_u d) in let V := Nat.max 2 (el_v d) in
  [mkPiece (grid_verts (ellipsoid_vertex d U V) V U) (uv_tris (el_alt d) false U V)].
Definition torus_pieces (d : torus) : list piece :=
  let U := Nat.max 3 (to_u d) in let V := Nat.max 3 (to_v d) in
  [mkPiece (grid_verts (torus_vertex d U V) V U) (uv_tris (to_alt d) true U V)].
Definition mantle_piece (alt rev : bool) (start step rx rz half side : R) (H V : nat) : piece :=
  mkPiece (grid_verts (fun u v => mantle_vertex rx rz half side H V (at_angle start step u) u v) H V) (mantle_tris alt rev H V).
Definition disc_piece (alt up : bool) (start step rx rz y side : R) (H K : nat) : piece :=
  mkPiece (disc_verts (disc_center y side) (fun u v => disc_vertex rx rz y side up K (at_angle start step u) v) H K) (disc_tris alt up H K).
Definition cone_pieces (d : cone) : list piece :=
  let H := Nat.max 3 (co_u d) in let V := Nat.max 1 (co_v d) in let K := co_cover d in
  let step := (1 / INR H * pi_2)%R in let half := (co_height d * (1 / 2))%R in
  mkPiece (cone_verts (fun u v => cone_vertex d half H V (at_angle 0 step u) u v) (cone_tip half H) H V) (cone_tris (co_alt d) H V)
  :: when (0 <? K) (disc_piece (co_alt d) false 0 step (x2 (co_radius d)) (y2 (co_radius d)) (- half) (-1) H K).
Definition cylinder_pieces (d : cylinder) : list piece :=
  let H := Nat.max 3 (cy_u d) in let V := Nat.max 1 (cy_v d) in
  let step := (1 / INR H * pi_2)%R in let half := (cy_height d * (1 / 2))%R in
  let rx := x2 (cy_radius d) in let rz := y2 (cy_radius d) in
  mantle_piece (cy_alt d) false 0 step rx rz half 1 H V
  :: when (0 <? cy_bottom d) (disc_piece (cy_alt d) false 0 step rx rz (half * -1) (-1) H (cy_bottom d))
  ++ when (0 <? cy_top d) (disc_piece (cy_alt d) true 0 step rx rz (half * 1) 1 H (cy_top d)).
Definition ring_piece (d : pipe) (up : bool) (step y side : R) (H K : nat) : piece :=
  mkPiece (grid_verts (fun u v => ring_vertex d y side up K (at_angle 0 step u) v) H K) (ring_tris (pp_alt d) up H K).
Definition pipe_pieces (d : pipe) : list piece :=
  let H := Nat.max 3 (pp_u d) in let V := Nat.max 1 (pp_v d) in
  let step := (1 / INR H * pi_2)%R in let half := (pp_height d * (1 / 2))%R in
  mantle_piece (pp_alt d) false 0 step (x2 (pp_outer d)) (y2 (pp_outer d)) half 1 H V
  :: mantle_piece (pp_alt d) true 0 step (x2 (pp_inner d)) (y2 (pp_inner d)) half (-1) H V
  :: when (0 <? pp_bottom d) (ring_piece d false step (half * -1) (-1) H (pp_bottom d))
  ++ when (0 <? pp_top d) (ring_piece d true step (half * 1) 1 H (pp_top d)).
Definition wall_piece (alt rev : bool) (rx rz half side noff tc0 tc1 : R) (M V : nat) : piece :=
  mkPiece (grid_verts (wall_vertex rx rz half side (side + noff) tc0 tc1 M V) M V) (mantle_tris alt rev M V).
Definition pie_pieces (d : pie) : list piece :=
  let H := Nat.max 3 (pi_u d) in let V := Nat.max 1 (pi_v d) in let K := pi_cover d in let M := Nat.max 1 K in
  let angle := clampR (pi_angle d) 0 pi_2 in let start := (pi_offset d + angle)%R in
  let step := (1 / INR H * (pi_2 - angle))%R in let half := (pi_height d * (1 / 2))%R in
  let rx := x2 (pi_radius d) in let rz := y2 (pi_radius d) in
  mantle_piece (pi_alt d) false start step rx rz half 1 H V
  :: wall_piece (pi_alt d) false rx rz half start (PI + pi_0_5) 1 (-1) M V
  :: wall_piece (pi_alt d) true rx rz half (start - angle) pi_0_5 0 1 M V
  :: when (0 <? K) (disc_piece (pi_alt d) false start step rx rz (half * -1) (-1) H K)
  ++ when (0 <? K) (disc_piece (pi_alt d) true start step rx rz (half * 1) 1 H K).
Definition capsule_pieces (d : capsule) : list piece :=
  let H := Nat.max 3 (ca_u d) in let V := Nat.max 1 (ca_v d) in let C := Nat.max 2 (ca_cap d) in
  let step := (1 / INR H * pi_2)%R in let half := (ca_height d * (1 / 2))%R in
  [mantle_piece (ca_alt d) false 0 step (vx (ca_radius d)) (vz (ca_radius d)) half 1 H V;
   mkPiece (grid_verts (cap_vertex d half 1 H C) C H) (uv_tris (ca_alt d) false H C);
   mkPiece (grid_verts (cap_vertex d half (-1) H C) C H) (uv_tris (ca_alt d) false H C)].
Definition spiral_piece (d : spiral) (up : bool) (turns phi side : R) (V K : nat) : piece :=
  mkPiece (disc_verts (spiral_center d turns phi side)
      (fun v j => spiral_cover_vertex d turns phi side up K (at_angle 0 (1 / INR V * pi_2) v) j) V K) (disc_tris (sp_alt d) up V K).
Definition spiral_pieces (d : spiral) : list piece :=
  let turns := Rmax 0 (sp_turns d) in let U := Nat.max 3 (sp_u d) in let V := Nat.max 3 (sp_v d) in let T := spiral_segments d in
  mkPiece (grid_verts (spiral_vertex d turns U V) V T) (uv_tris (sp_alt d) true T V)
  :: when (0 <? sp_bottom d) (spiral_piece d false turns 0 (-1) V (sp_bottom d))
  ++ when (0 <? sp_top d) (spiral_piece d true turns (turns * pi_2) 1 V (sp_top d)).
Definition tube_verts (f : nat -> nat -> vertex) (U V : nat) : list vertex := flat_map (fun u => map (f u) (seq 0 V)) (seq 0 U).
Definition curve_pieces (d : curve_desc) : list piece :=
  let U := Nat.max 3 (cv_u d) in let V := Nat.max 3 (cv_v d) in
  match cv_curve d with
  | None => []
  | Some f => [mkPiece (tube_verts (curve_vertex d f U V) U V) (tube_tris (cv_alt d) U V)]
  end.
Definition bezier_pieces (d : bezier_desc) : list piece :=
  let H := Nat.max 1 (bp_u d) in let V := Nat.max 1 (bp_v d) in
  [mkPiece (grid_verts (fun i j => match bezier_vertex d H V i j with Some v => v | None => no_vertex end) V H) (row_tris (bp_alt d) (bp_back d) H V)].

Definition pieces (d : descriptor) : list piece :=
  match d with
  | DCuboid d => cuboid_pieces d | DEllipsoid d => ellipsoid_pieces d | DCone d => cone_pieces d
  | DCylinder d => cylinder_pieces d | DPie d => pie_pieces d | DPipe d => pipe_pieces d
  | DCapsule d => capsule_pieces d | DTorus d => torus_pieces d | DKnot d => curve_pieces (knot_as_curve d)
  | DSpiral d => spiral_pieces d | DCurve d => curve_pieces d | DBezier d => bezier_pieces d
  end.

Lemma disc_verts_len c f H K : length (disc_verts c f H K) = 1 + (H + 1) * K.
Proof. unfold disc_verts. cbn [length]. rewrite (flat_map_length_const _ _ K) by (intros; rewrite map_length, seq_length; lia). rewrite seq_length. lia. Qed.
Lemma tube_verts_len f U V : length (tube_verts f U V) = U * V.
Proof. unfold tube_verts. rewrite (flat_map_length_const _ _ V) by (intros; rewrite map_length, seq_length; lia). rewrite seq_length. lia. Qed.
Lemma cone_verts_len f t H V : length (cone_verts f t H V) = (H + 1) * V + H.
Proof.
  unfold cone_verts. rewrite seq_S, flat_map_app, app_length. cbn [flat_map]. rewrite !app_nil_r.
  rewrite (flat_map_length_const _ _ (V + 1)).
  - rewrite seq_length, app_length, map_length, seq_length, Nat.ltb_irrefl. cbn [length]. lia.
  - intros u Hu. apply in_seq in Hu. rewrite app_length, map_length, seq_length. destruct (Nat.ltb_spec u H); cbn; lia.
Qed.
