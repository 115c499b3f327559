(** Facts about the pieces of every descriptor. *)
From Coq Require Import ZArith Reals List Bool Arith Lia.
From Verif Require Import Model.Scalar Model.Vec Model.Aabb Model.Mesh Model.Interp Model.Bezier Model.Transforms Model.MeshGen Spec.MeshGenSpec
  Proofs.MeshGenLoops Proofs.MeshGenPieces Proofs.MeshGenResult Proofs.MeshGenRange Proofs.MeshGenEdges Proofs.MeshGenIdeal.
Import ListNotations.
Local Open Scope nat_scope.

Lemma Forall2_when {A B} (P : A -> B -> Prop) b x y l l' : (b = true -> P x y) -> Forall2 P l l' -> Forall2 P (when b x ++ l) (when b y ++ l').
Proof. intros H HL. destruct b; cbn; [constructor; [now apply H|assumption]|assumption]. Qed.
Lemma Forall2_when1 {A B} (P : A -> B -> Prop) b x y : (b = true -> P x y) -> Forall2 P (when b x) (when b y).
Proof. intros H. destruct b; cbn; repeat constructor. now apply H. Qed.
Lemma Forall_when {A} (P : A -> Prop) b x : (b = true -> P x) -> Forall P (when b x).
Proof. intros H. destruct b; cbn; repeat constructor. now apply H. Qed.

Lemma disc_no_pos H K : 0 < K -> disc_vertices_no H K = 1 + (H + 1) * K.
Proof. intros. unfold disc_vertices_no. destruct (Nat.eqb_spec K 0); [lia|reflexivity]. Qed.
Lemma ring_no_pos H K : 0 < K -> ring_vertices_no H K = (H + 1) * (K + 1).
Proof. intros. unfold ring_vertices_no. destruct (Nat.eqb_spec K 0); [lia|reflexivity]. Qed.

Lemma fits_le a b : a <= b -> fits b -> fits a. Proof. unfold fits. lia. Qed.

Lemma pieces_stand d : defined d -> fits (vertex_count d) -> Forall2 stands_for (pieces d) (patches d).
Proof.
  destruct d as [d|d|d|d|d|d|d|d|d|d|d|d]; intros D F; cbn [pieces patches].
  - unfold vertex_count, grid_vertices in F. cbn zeta in F. unfold cuboid_pieces, face_patch.
    repeat constructor; (apply grid_stands; [apply (row_ideal _ false); apply (fits_le _ _) with (2 := F); lia|reflexivity]).
  - repeat constructor. apply grid_stands; [apply (uv_ideal _ false); exact F|reflexivity].
  - unfold vertex_count in F; cbn zeta in F. unfold cone_pieces. constructor.
    + apply cone_stands; [lia|lia|apply (fits_le _ _) with (2 := F); lia|reflexivity].
    + apply Forall2_when1. intros K. apply Nat.ltb_lt in K. rewrite disc_no_pos in F by assumption.
      apply disc_stands; [lia|lia|apply (fits_le _ _) with (2 := F); lia|reflexivity].
  - unfold vertex_count, grid_vertices in F; cbn zeta in F. unfold cylinder_pieces. constructor; [|apply Forall2_when; [|apply Forall2_when1]].
    + apply grid_stands; [apply (mantle_ideal _ false); [lia|apply (fits_le _ _) with (2 := F); lia]|reflexivity].
    + intros K. apply Nat.ltb_lt in K. rewrite (disc_no_pos _ (cy_bottom d)) in F by assumption.
      apply disc_stands; [lia|lia|apply (fits_le _ _) with (2 := F); lia|reflexivity].
    + intros K. apply Nat.ltb_lt in K. rewrite (disc_no_pos _ (cy_top d)) in F by assumption.
      apply disc_stands; [lia|lia|apply (fits_le _ _) with (2 := F); lia|reflexivity].
  - unfold vertex_count, grid_vertices in F; cbn zeta in F. unfold pie_pieces. constructor; [|constructor; [|constructor; [|apply Forall2_when; [|apply Forall2_when1]]]].
    + apply grid_stands; [apply (mantle_ideal _ false); [lia|apply (fits_le _ _) with (2 := F); lia]|reflexivity].
    + apply grid_stands; [apply (mantle_ideal _ false); [lia|apply (fits_le _ _) with (2 := F); lia]|reflexivity].
    + apply grid_stands; [apply (mantle_ideal _ true); [lia|apply (fits_le _ _) with (2 := F); lia]|reflexivity].
    + intros K. apply Nat.ltb_lt in K. rewrite disc_no_pos in F by assumption.
      apply disc_stands; [lia|lia|apply (fits_le _ _) with (2 := F); lia|reflexivity].
    + intros K. apply Nat.ltb_lt in K. rewrite disc_no_pos in F by assumption.
      apply disc_stands; [lia|lia|apply (fits_le _ _) with (2 := F); lia|reflexivity].
  - unfold vertex_count, grid_vertices in F; cbn zeta in F. unfold pipe_pieces. constructor; [|constructor; [|apply Forall2_when; [|apply Forall2_when1]]].
    + apply grid_stands; [apply (mantle_ideal _ false); [lia|apply (fits_le _ _) with (2 := F); lia]|reflexivity].
    + apply grid_stands; [apply (mantle_ideal _ true); [lia|apply (fits_le _ _) with (2 := F); lia]|reflexivity].
    + intros K. apply Nat.ltb_lt in K. rewrite (ring_no_pos _ (pp_bottom d)) in F by assumption.
      apply grid_stands; [apply (ring_ideal _ false); [lia|apply (fits_le _ _) with (2 := F); lia]|reflexivity].
    + intros K. apply Nat.ltb_lt in K. rewrite (ring_no_pos _ (pp_top d)) in F by assumption.
      apply grid_stands; [apply (ring_ideal _ true); [lia|apply (fits_le _ _) with (2 := F); lia]|reflexivity].
  - unfold vertex_count, grid_vertices in F; cbn zeta in F. unfold capsule_pieces. repeat constructor.
    + apply grid_stands; [apply (mantle_ideal _ false); [lia|apply (fits_le _ _) with (2 := F); lia]|reflexivity].
    + apply grid_stands; [apply (uv_ideal _ false); apply (fits_le _ _) with (2 := F); lia|reflexivity].
    + apply grid_stands; [apply (uv_ideal _ false); apply (fits_le _ _) with (2 := F); lia|reflexivity].
  - repeat constructor. apply grid_stands; [apply (uv_ideal _ true); exact F|reflexivity].
  - repeat constructor. apply tube_stands; [cbn [knot_as_curve cv_u]; lia|cbn [knot_as_curve cv_v]; lia|exact F|reflexivity].
  - unfold vertex_count, grid_vertices in F; cbn zeta in F. unfold spiral_pieces. constructor; [|apply Forall2_when; [|apply Forall2_when1]].
    + apply grid_stands; [apply (uv_ideal _ true); apply (fits_le _ _) with (2 := F); lia|reflexivity].
    + intros K. apply Nat.ltb_lt in K. rewrite (disc_no_pos _ (sp_bottom d)) in F by assumption.
      apply disc_stands; [lia|lia|apply (fits_le _ _) with (2 := F); lia|reflexivity].
    + intros K. apply Nat.ltb_lt in K. rewrite (disc_no_pos _ (sp_top d)) in F by assumption.
      apply disc_stands; [lia|lia|apply (fits_le _ _) with (2 := F); lia|reflexivity].
  - unfold curve_pieces. destruct (cv_curve d) as [f|]; [|constructor]. repeat constructor.
    apply tube_stands; [lia|lia|exact F|reflexivity].
  - unfold bezier_pieces. repeat constructor. apply grid_stands; [apply row_ideal; exact F|reflexivity].
Qed.

(** The triangles of a piece stay inside the piece. *)
Definition in_piece (p : piece) : Prop := Forall (tri_all (fun k => k < length (pv p))) (pt p).
Lemma pieces_range d : Forall in_piece (pieces d).
Proof.
  assert (MP : forall alt rev start step rx rz half side H V, in_piece (mantle_piece alt rev start step rx rz half side H V))
    by (intros; unfold in_piece; cbn [pv pt mantle_piece]; rewrite grid_verts_len; apply mantle_tris_range).
  assert (WP : forall alt rev rx rz half side noff t0 t1 M V, in_piece (wall_piece alt rev rx rz half side noff t0 t1 M V))
    by (intros; unfold in_piece; cbn [pv pt wall_piece]; rewrite grid_verts_len; apply mantle_tris_range).
  assert (DP : forall alt up start step rx rz y side H K, 0 < K -> in_piece (disc_piece alt up start step rx rz y side H K))
    by (intros; unfold in_piece; cbn [pv pt disc_piece]; rewrite disc_verts_len; now apply disc_tris_range).
  assert (RP : forall d up step y side H K, in_piece (ring_piece d up step y side H K))
    by (intros; unfold in_piece; cbn [pv pt ring_piece]; rewrite grid_verts_len; apply ring_tris_range).
  assert (SP : forall d up turns phi side V K, 0 < K -> in_piece (spiral_piece d up turns phi side V K))
    by (intros; unfold in_piece; cbn [pv pt spiral_piece]; rewrite disc_verts_len; now apply disc_tris_range).
  destruct d as [d|d|d|d|d|d|d|d|d|d|d|d]; cbn [pieces].
  - unfold cuboid_pieces. repeat constructor; cbn [pv pt]; unfold in_piece; cbn [pv pt]; rewrite grid_verts_len; apply row_tris_range.
  - repeat constructor; unfold in_piece; cbn [pv pt]; rewrite grid_verts_len; apply uv_tris_range.
  - constructor; [|apply Forall_when; intros K; apply Nat.ltb_lt in K; now apply DP].
    unfold in_piece; cbn [pv pt]; rewrite cone_verts_len; apply cone_tris_range. lia.
  - constructor; [apply MP|apply Forall_app; split; apply Forall_when; intros K; apply Nat.ltb_lt in K; now apply DP].
  - repeat (constructor; [first [apply MP|apply WP]|]). apply Forall_app; split; apply Forall_when; intros K; apply Nat.ltb_lt in K; now apply DP.
  - repeat (constructor; [first [apply MP|apply WP]|]). apply Forall_app; split; apply Forall_when; intros K; apply RP.
  - constructor; [apply MP|repeat constructor]; unfold in_piece; cbn [pv pt]; rewrite grid_verts_len; apply uv_tris_range.
  - repeat constructor; unfold in_piece; cbn [pv pt]; rewrite grid_verts_len; apply uv_tris_range.
  - repeat constructor; unfold in_piece; cbn [pv pt]; rewrite tube_verts_len; apply tube_tris_range.
  - constructor; [|apply Forall_app; split; apply Forall_when; intros K; apply Nat.ltb_lt in K; now apply SP].
    unfold in_piece; cbn [pv pt]; rewrite grid_verts_len; apply uv_tris_range.
  - unfold curve_pieces. destruct (cv_curve d); repeat constructor; unfold in_piece; cbn [pv pt]; rewrite tube_verts_len; apply tube_tris_range.
  - repeat constructor; unfold in_piece; cbn [pv pt]; rewrite grid_verts_len; apply row_tris_range.
Qed.

(** Numbers *)
Definition nv (ps : list piece) : nat := list_sum (map (fun p => length (pv p)) ps).
Definition nt (ps : list piece) : nat := list_sum (map (fun p => length (pt p)) ps).
Lemma nv_app a b : nv (a ++ b) = nv a + nv b. Proof. unfold nv. now rewrite map_app, list_sum_app. Qed.
Lemma nt_app a b : nt (a ++ b) = nt a + nt b. Proof. unfold nt. now rewrite map_app, list_sum_app. Qed.
Lemma nv_cons a b : nv (a :: b) = length (pv a) + nv b. Proof. reflexivity. Qed.
Lemma nt_cons a b : nt (a :: b) = length (pt a) + nt b. Proof. reflexivity. Qed.
Lemma nv_flat ps : length (flat_map pv ps) = nv ps.
Proof. induction ps; cbn; [reflexivity|]. now rewrite app_length, IHps. Qed.
Lemma nt_assemble off ps : length (assemble off ps) = nt ps.
Proof. revert off; induction ps; intros; cbn; [reflexivity|]. now rewrite app_length, map_length, IHps. Qed.
Lemma nv_when_disc alt up start step rx rz y side H K :
  nv (when (0 <? K) (disc_piece alt up start step rx rz y side H K)) = disc_vertices_no H K.
Proof. unfold disc_vertices_no. destruct (Nat.ltb_spec 0 K), (Nat.eqb_spec K 0); try lia; cbn [when]; [|reflexivity]. rewrite nv_cons. cbn [disc_piece pv]. rewrite disc_verts_len. cbn. lia. Qed.
Lemma nt_when_disc alt up start step rx rz y side H K :
  nt (when (0 <? K) (disc_piece alt up start step rx rz y side H K)) = disc_triangles_no H K.
Proof. unfold disc_triangles_no. destruct (Nat.ltb_spec 0 K), (Nat.eqb_spec K 0); try lia; cbn [when]; [|reflexivity]. rewrite nt_cons. cbn [disc_piece pt]. rewrite disc_tris_len by assumption. cbn. lia. Qed.
Lemma nv_when_spiral d up turns phi side H K : nv (when (0 <? K) (spiral_piece d up turns phi side H K)) = disc_vertices_no H K.
Proof. unfold disc_vertices_no. destruct (Nat.ltb_spec 0 K), (Nat.eqb_spec K 0); try lia; cbn [when]; [|reflexivity]. rewrite nv_cons. cbn [spiral_piece pv]. rewrite disc_verts_len. cbn. lia. Qed.
Lemma nt_when_spiral d up turns phi side H K : nt (when (0 <? K) (spiral_piece d up turns phi side H K)) = disc_triangles_no H K.
Proof. unfold disc_triangles_no. destruct (Nat.ltb_spec 0 K), (Nat.eqb_spec K 0); try lia; cbn [when]; [|reflexivity]. rewrite nt_cons. cbn [spiral_piece pt]. rewrite disc_tris_len by assumption. cbn. lia. Qed.
Lemma nv_when_ring d up step y side H K : nv (when (0 <? K) (ring_piece d up step y side H K)) = ring_vertices_no H K.
Proof. unfold ring_vertices_no, grid_vertices. destruct (Nat.ltb_spec 0 K), (Nat.eqb_spec K 0); try lia; cbn [when]; [|reflexivity]. rewrite nv_cons. cbn [ring_piece pv]. rewrite grid_verts_len. unfold nv; cbn [map list_sum fold_right]. lia. Qed.
Lemma nt_when_ring d up step y side H K : nt (when (0 <? K) (ring_piece d up step y side H K)) = ring_triangles_no H K.
Proof. unfold ring_triangles_no, grid_triangles. destruct (Nat.ltb_spec 0 K), (Nat.eqb_spec K 0); try lia; cbn [when]; [|reflexivity]. rewrite nt_cons. cbn [ring_piece pt]. rewrite ring_tris_len. unfold nt; cbn [map list_sum fold_right]. lia. Qed.

Lemma pieces_nv d : defined d -> nv (pieces d) = vertex_count d.
Proof.
  destruct d as [d|d|d|d|d|d|d|d|d|d|d|d]; intros D; cbn [pieces]; unfold vertex_count; cbn zeta; unfold grid_vertices.
  - unfold cuboid_pieces. cbn zeta. rewrite !nv_cons. cbn [pv]. rewrite !grid_verts_len. change (nv []) with 0. lia.
  - unfold ellipsoid_pieces. cbn zeta. rewrite !nv_cons. cbn [pv]. rewrite !grid_verts_len. change (nv []) with 0. lia.
  - unfold cone_pieces. cbn zeta. rewrite !nv_cons, nv_when_disc. cbn [pv]. now rewrite cone_verts_len.
  - unfold cylinder_pieces. cbn zeta. rewrite !nv_cons, nv_app, !nv_when_disc. cbn [mantle_piece pv]. rewrite grid_verts_len. lia.
  - unfold pie_pieces. cbn zeta. rewrite !nv_cons, nv_app, !nv_when_disc. cbn [mantle_piece wall_piece pv]. rewrite !grid_verts_len. lia.
  - unfold pipe_pieces. cbn zeta. rewrite !nv_cons, nv_app, !nv_when_ring. cbn [mantle_piece wall_piece pv]. rewrite !grid_verts_len. lia.
  - unfold capsule_pieces. cbn zeta. rewrite !nv_cons. cbn [mantle_piece pv]. rewrite !grid_verts_len. change (nv []) with 0. lia.
  - unfold torus_pieces. cbn zeta. rewrite !nv_cons. cbn [pv]. rewrite !grid_verts_len. change (nv []) with 0. lia.
  - unfold curve_pieces. cbn zeta. cbn [knot_as_curve cv_curve cv_u cv_v]. rewrite !nv_cons. cbn [pv]. rewrite !tube_verts_len. change (nv []) with 0. lia.
  - unfold spiral_pieces. cbn zeta. rewrite !nv_cons, nv_app, !nv_when_spiral. cbn [pv]. rewrite grid_verts_len. lia.
  - unfold curve_pieces. cbn zeta. destruct (cv_curve d) eqn:E; [|contradiction (D E)]. rewrite !nv_cons. cbn [pv]. rewrite !tube_verts_len. change (nv []) with 0. lia.
  - unfold bezier_pieces. cbn zeta. rewrite !nv_cons. cbn [pv]. rewrite !grid_verts_len. change (nv []) with 0. lia.
Qed.
Lemma pieces_nt d : defined d -> nt (pieces d) = triangle_count d.
Proof.
  destruct d as [d|d|d|d|d|d|d|d|d|d|d|d]; intros D; cbn [pieces]; unfold triangle_count; cbn zeta; unfold grid_triangles.
  - unfold cuboid_pieces. cbn zeta. rewrite !nt_cons. cbn [pt]. rewrite !row_tris_len. change (nt []) with 0. lia.
  - unfold ellipsoid_pieces. cbn zeta. rewrite !nt_cons. cbn [pt]. rewrite !uv_tris_len. change (nt []) with 0. lia.
  - unfold cone_pieces. cbn zeta. rewrite !nt_cons, nt_when_disc. cbn [pt]. now rewrite cone_tris_len by lia.
  - unfold cylinder_pieces. cbn zeta. rewrite !nt_cons, nt_app, !nt_when_disc. cbn [mantle_piece pt]. rewrite mantle_tris_len. lia.
  - unfold pie_pieces. cbn zeta. rewrite !nt_cons, nt_app, !nt_when_disc. cbn [mantle_piece wall_piece pt]. rewrite !mantle_tris_len. lia.
  - unfold pipe_pieces. cbn zeta. rewrite !nt_cons, nt_app, !nt_when_ring. cbn [mantle_piece wall_piece pt]. rewrite !mantle_tris_len. unfold grid_triangles. lia.
  - unfold capsule_pieces. cbn zeta. rewrite !nt_cons. cbn [mantle_piece pt]. rewrite !uv_tris_len, mantle_tris_len. change (nt []) with 0. lia.
  - unfold torus_pieces. cbn zeta. rewrite !nt_cons. cbn [pt]. rewrite !uv_tris_len. change (nt []) with 0. lia.
  - unfold curve_pieces. cbn zeta. cbn [knot_as_curve cv_curve cv_u cv_v]. rewrite !nt_cons. cbn [pt]. rewrite !tube_tris_len. change (nt []) with 0. lia.
  - unfold spiral_pieces. cbn zeta. rewrite !nt_cons, nt_app, !nt_when_spiral. cbn [pt]. rewrite uv_tris_len. lia.
  - unfold curve_pieces. cbn zeta. destruct (cv_curve d) eqn:E; [|contradiction (D E)]. rewrite !nt_cons. cbn [pt]. rewrite !tube_tris_len. change (nt []) with 0. lia.
  - unfold bezier_pieces. cbn zeta. rewrite !nt_cons. cbn [pt]. rewrite !row_tris_len. change (nt []) with 0. lia.
Qed.

(** The alternate grid *)
Definition flipped (p q : piece) : Prop := pv p = pv q /\ same_but_diagonals (pt p) (pt q).
Lemma pieces_flip b d : Forall2 flipped (pieces d) (pieces (set_alternate b d)).
Proof.
  assert (W : forall b p q, flipped p q -> Forall2 flipped (when b p) (when b q)) by (intros; apply Forall2_when1; auto).
  destruct d as [d|d|d|d|d|d|d|d|d|d|d|d]; cbn [pieces set_alternate].
  - repeat constructor; apply row_tris_flip.
  - repeat constructor; apply uv_tris_flip.
  - constructor; [split; [reflexivity|apply cone_tris_flip]|apply W; split; [reflexivity|apply disc_tris_flip]].
  - constructor; [split; [reflexivity|apply mantle_tris_flip]|apply Forall2_app; apply W; (split; [reflexivity|apply disc_tris_flip])].
  - do 3 (constructor; [split; [reflexivity|apply mantle_tris_flip]|]). apply Forall2_app; apply W; (split; [reflexivity|apply disc_tris_flip]).
  - do 2 (constructor; [split; [reflexivity|apply mantle_tris_flip]|]). apply Forall2_app; apply W; (split; [reflexivity|apply ring_tris_flip]).
  - constructor; [split; [reflexivity|apply mantle_tris_flip]|]. repeat constructor; apply uv_tris_flip.
  - repeat constructor; apply uv_tris_flip.
  - repeat constructor; apply tube_tris_flip.
  - constructor; [split; [reflexivity|apply uv_tris_flip]|]. apply Forall2_app; apply W; (split; [reflexivity|apply disc_tris_flip]).
  - unfold curve_pieces. cbn [cv_curve cv_u cv_v cv_alt]. destruct (cv_curve d); repeat constructor; apply tube_tris_flip.
  - repeat constructor; apply row_tris_flip.
Qed.

(** A mesh with at most 2^32 vertices has no loop that does not end. *)
Lemma small_factor n k c : fits c -> (k + 1) * (n + 1) <= c -> 0 < k -> small n.
Proof. unfold fits, small. intros F H K. nia. Qed.
Lemma small_max j n : small (Nat.max j n) -> j < 1000 -> small n.
Proof. unfold small. lia. Qed.
Lemma small_disc H K c : fits c -> disc_vertices_no H K <= c -> 2 <= H -> small K.
Proof. unfold fits, small, disc_vertices_no. intros F L HH. destruct (Nat.eqb_spec K 0); [lia|nia]. Qed.
Lemma small_ring H K c : fits c -> ring_vertices_no H K <= c -> 2 <= H -> small K.
Proof. unfold fits, small, ring_vertices_no, grid_vertices. intros F L HH. destruct (Nat.eqb_spec K 0); [lia|nia]. Qed.
Lemma fits_ends d : (Z.of_nat (vertex_count d) < 2 ^ 32)%Z -> ends d.
Proof.
  intros S. assert (F : fits (vertex_count d)) by (unfold fits; lia). revert F S.
  destruct d as [d|d|d|d|d|d|d|d|d|d|d|d]; intros F S; unfold ends; try exact I; unfold vertex_count in F, S; cbn zeta in F, S; unfold grid_vertices in F, S; cbn [segment_counts In].
  - assert (small (cu_x d) /\ small (cu_y d) /\ small (cu_z d)) as (A & B & C).
    { repeat split; (apply (small_max 1); [|lia]).
      - apply (small_factor _ (Nat.max 1 (cu_z d)) _ F); lia.
      - apply (small_factor _ (Nat.max 1 (cu_x d)) _ F); lia.
      - apply (small_factor _ (Nat.max 1 (cu_y d)) _ F); lia. }
    intuition (subst; assumption).
  - assert (small (el_u d) /\ small (el_v d)) as (A & B).
    { split; [apply (small_max 3)|apply (small_max 2)]; try lia; [apply (small_factor _ (Nat.max 2 (el_v d)) _ F)|apply (small_factor _ (Nat.max 3 (el_u d)) _ F)]; lia. }
    intuition (subst; assumption).
  - assert (small (co_u d) /\ small (co_v d) /\ small (co_cover d)) as (A & B & C).
    { repeat split; [apply (small_max 3); [|lia]|apply (small_max 1); [|lia]|].
      - generalize dependent (disc_vertices_no (Nat.max 3 (co_u d)) (co_cover d)). intros k F S. unfold small. nia.
      - apply (small_factor _ (Nat.max 3 (co_u d) - 1) _ F); nia.
      - apply (small_disc (Nat.max 3 (co_u d)) _ _ F); lia. }
    intuition (subst; assumption).
  - assert (small (cy_u d) /\ small (cy_v d) /\ small (cy_top d) /\ small (cy_bottom d)) as (A & B & C & E).
    { repeat split; [apply (small_max 3); [|lia]|apply (small_max 1); [|lia]|..].
      - apply (small_factor _ (Nat.max 1 (cy_v d)) _ F); lia.
      - apply (small_factor _ (Nat.max 3 (cy_u d)) _ F); lia.
      - apply (small_disc (Nat.max 3 (cy_u d)) _ _ F); lia.
      - apply (small_disc (Nat.max 3 (cy_u d)) _ _ F); lia. }
    intuition (subst; assumption).
  - assert (small (pi_u d) /\ small (pi_v d) /\ small (pi_cover d)) as (A & B & C).
    { repeat split; [apply (small_max 3); [|lia]|apply (small_max 1); [|lia]|].
      - apply (small_factor _ (Nat.max 1 (pi_v d)) _ F); lia.
      - apply (small_factor _ (Nat.max 3 (pi_u d)) _ F); lia.
      - apply (small_disc (Nat.max 3 (pi_u d)) _ _ F); lia. }
    intuition (subst; assumption).
  - assert (small (pp_u d) /\ small (pp_v d) /\ small (pp_top d) /\ small (pp_bottom d)) as (A & B & C & E).
    { repeat split; [apply (small_max 3); [|lia]|apply (small_max 1); [|lia]|..].
      - apply (small_factor _ (Nat.max 1 (pp_v d)) _ F); lia.
      - apply (small_factor _ (Nat.max 3 (pp_u d)) _ F); lia.
      - apply (small_ring (Nat.max 3 (pp_u d)) _ _ F); lia.
      - apply (small_ring (Nat.max 3 (pp_u d)) _ _ F); lia. }
    intuition (subst; assumption).
  - assert (small (ca_u d) /\ small (ca_v d) /\ small (ca_cap d)) as (A & B & C).
    { repeat split; [apply (small_max 3); [|lia]|apply (small_max 1); [|lia]|apply (small_max 2); [|lia]].
      - apply (small_factor _ (Nat.max 1 (ca_v d)) _ F); lia.
      - apply (small_factor _ (Nat.max 3 (ca_u d)) _ F); lia.
      - apply (small_factor _ (Nat.max 3 (ca_u d)) _ F); lia. }
    intuition (subst; assumption).
  - assert (small (to_u d) /\ small (to_v d)) as (A & B).
    { split; apply (small_max 3); try lia; [apply (small_factor _ (Nat.max 3 (to_v d)) _ F)|apply (small_factor _ (Nat.max 3 (to_u d)) _ F)]; lia. }
    intuition (subst; assumption).
  - repeat split; [apply (small_max 3); [|lia]|..].
    + generalize dependent (disc_vertices_no (Nat.max 3 (sp_v d))). intros g S F. unfold small. nia.
    + apply (small_factor _ (Nat.max 3 (sp_v d)) _ F); lia.
    + apply (small_disc (Nat.max 3 (sp_v d)) _ _ F); lia.
    + apply (small_disc (Nat.max 3 (sp_v d)) _ _ F); lia.
  - assert (small (bp_u d) /\ small (bp_v d)) as (A & B).
    { split; apply (small_max 1); try lia; [apply (small_factor _ (Nat.max 1 (bp_v d)) _ F)|apply (small_factor _ (Nat.max 1 (bp_u d)) _ F)]; lia. }
    intuition (subst; assumption).
Qed.
