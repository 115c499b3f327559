(** Properties C19-C26: triangle meshes. *)
From Coq Require Import Reals List Bool Arith Lia Lra Sorting Permutation.
From Flocq Require Import IEEE754.BinarySingleNaN.
From Verif Require Import Model.Scalar Model.Vec Model.Aabb Model.Mesh Model.Interp.
From Verif Require Import Spec.AabbSpec Spec.MeshSpec Spec.InterpSpec.
From Verif Require Import Proofs.VecLemmas Proofs.AabbLemmas Proofs.FloatOrder Proofs.MeshLemmas Proofs.MeshLemmas2 Proofs.MeshBox Proofs.InterpLemmas.
Import ListNotations.

(** ** C19 *)

(** Edges() is strictly ascending (hence without duplicates), its entries have a <= b, and they are exactly the sides of the
    triangles. *)
Theorem C19_edges_exact :
  forall (V : Type) (m : mesh V),
  StronglySorted lex_lt (edges m) /\
  forall a b, In (a, b) (edges m) <-> a <= b /\ exists t, In t (tris m) /\ side_of t a b.
Proof. intros V m. split; [apply unique_spec, edge_sort_sorted|apply edges_iff]. Qed.
Print Assumptions C19_edges_exact.

(** The result does not depend on the sorting algorithm: any sorted rearrangement of the sides gives the same list. *)
Theorem C19_sort_determined :
  forall (V : Type) (m : mesh V) (sorted : list edge),
  Permutation (raw_edges (tris m)) sorted -> StronglySorted (fun x y => ~ lex_lt y x) sorted -> unique sorted = edges m.
Proof.
  intros V m l P S. destruct (unique_spec l S) as [S1 I1]. destruct (unique_spec _ (edge_sort_sorted (raw_edges (tris m)))) as [S2 I2].
  apply sorted_ext; [exact S1|exact S2|]. intros y. unfold edges. rewrite I1, I2.
  assert (Q : Permutation l (edge_sort (raw_edges (tris m)))) by (eapply Permutation_trans; [apply Permutation_sym; exact P|apply edge_sort_perm]).
  split; apply Permutation_in; [exact Q|apply Permutation_sym; exact Q].
Qed.
Print Assumptions C19_sort_determined.

Example C19_example : edges (mkMesh (repeat tt 4) [(0, 1, 2); (2, 1, 3); (3, 3, 0)]) = [(0, 1); (0, 2); (0, 3); (1, 2); (1, 3); (2, 3); (3, 3)].
Proof. reflexivity. Qed.

(** ** C20 *)

(** For a mesh with in-range indices SilhouetteEdges keeps, in the order of Edges(), exactly the edges with fewer than two
    triangles and those where a further triangle's normal n and the first triangle's normal n0 satisfy
    |n * n0 - 1| >= eps + sin |tolerance|. *)
Theorem C20_silhouette_characterised :
  forall (V : Type) (pos : V -> vec3) (eps tolerance : R) (m : mesh V), well_formed m ->
  exists es, silhouette_edges pos eps m tolerance = Some es /\
  (forall e, In e es <-> In e (edges m) /\
     (length (find_by_edge m e) < 2 \/
      exists i n0 j n, hd_error (find_by_edge m e) = Some i /\ triangle_normal pos m i = Some n0 /\
        In j (tl (find_by_edge m e)) /\ triangle_normal pos m j = Some n /\
        (eps + sin (Rabs tolerance) <= Rabs (dot n n0 - 1))%R)) /\
  StronglySorted lex_lt es.
Proof.
  intros V pos eps tol m wf. destruct (remove_spec pos eps m wf (sin (Rabs tol)) (edges m)) as (es & E & _ & I).
  exists es. split; [exact E|]. split.
  - intros e. rewrite I. unfold bent. split; (intros [H1 [H2|H2]]; (split; [exact H1|]); [left; exact H2|right]).
    + destruct H2 as (i & n0 & H2 & H3 & j & n & H4). exists i, n0, j, n. tauto.
    + destruct H2 as (i & n0 & j & n & H2 & H3 & H4). exists i, n0. split; [exact H2|]. split; [exact H3|]. exists j, n. exact H4.
  - assert (S : StronglySorted lex_lt (edges m)) by (apply unique_spec, edge_sort_sorted).
    clear I. unfold silhouette_edges in E. revert es E. induction (edges m) as [|e l IH]; intros es E; cbn [remove_if] in E.
    + injection E as <-. constructor.
    + destruct (part_of_silh pos eps m (sin (Rabs tol)) e) as [b|]; [|discriminate].
      destruct (remove_if pos eps m (sin (Rabs tol)) l) as [r|] eqn:Er; [|discriminate]. injection E as <-.
      apply StronglySorted_inv in S. destruct S as [S1 S2]. specialize (IH S1 r eq_refl). destruct b; [exact IH|].
      constructor; [exact IH|]. destruct (remove_spec pos eps m wf (sin (Rabs tol)) l) as (r' & Er' & _ & Ir). rewrite Er in Er'. injection Er' as <-.
      rewrite Forall_forall in *. intros y Hy. apply S2. apply Ir, Hy.
Qed.
Print Assumptions C20_silhouette_characterised.

(** Zero tolerance: an edge between exactly two triangles (numbers i < j) with normals of length one is kept iff their dot
    product is at most 1 - eps. *)
Theorem C20_zero_tolerance :
  forall (V : Type) (pos : V -> vec3) (eps : R) (m : mesh V) es e i j ni nj, well_formed m -> (0 < eps)%R ->
  silhouette_edges pos eps m 0 = Some es -> In e (edges m) -> find_by_edge m e = [i; j] ->
  triangle_normal pos m i = Some ni -> triangle_normal pos m j = Some nj -> dot ni ni = 1%R -> dot nj nj = 1%R ->
  In e es <-> (dot ni nj <= 1 - eps)%R.
Proof.
  intros V pos eps m es e i j ni nj wf He E Hin F Ni Nj Ui Uj. destruct (C20_silhouette_characterised V pos eps 0 m wf) as (es' & E' & I & _).
  rewrite E in E'. injection E' as <-. rewrite I, F. clear I. rewrite Rabs_R0, sin_0, Rplus_0_r. cbn [length hd_error tl].
  assert (U := unit_dot_le nj ni Uj Ui). rewrite (dot_comm ni nj). assert (A : (Rabs (dot nj ni - 1) = 1 - dot nj ni)%R) by (rewrite Rabs_left1; lra). split.
  - intros [_ [H|(i' & n0 & j' & n & H1 & H2 & H3 & H4 & H5)]]; [lia|]. injection H1 as <-. destruct H3 as [<-|[]].
    rewrite Ni in H2. injection H2 as <-. rewrite Nj in H4. injection H4 as <-. rewrite A in H5. lra.
  - intros H. split; [exact Hin|]. right. exists i, ni, j, nj. rewrite A. cbn. repeat split; auto. lra.
Qed.
Print Assumptions C20_zero_tolerance.

(** Nothing else: for tolerances up to a right angle, an edge kept between two triangles with unit normals is bent by more than
    the tolerance. *)
Theorem C20_kept_edges_are_bent :
  forall (V : Type) (pos : V -> vec3) (eps tolerance : R) (m : mesh V) es e i j ni nj, well_formed m ->
  (0 < eps)%R -> (0 <= tolerance <= PI / 2)%R ->
  silhouette_edges pos eps m tolerance = Some es -> In e es -> find_by_edge m e = [i; j] ->
  triangle_normal pos m i = Some ni -> triangle_normal pos m j = Some nj -> dot ni ni = 1%R -> dot nj nj = 1%R ->
  (tolerance < angle ni nj)%R.
Proof.
  intros V pos eps tol m es e i j ni nj wf He [T1 T2] E Hin F Ni Nj Ui Uj. destruct (C20_silhouette_characterised V pos eps tol m wf) as (es' & E' & I & _).
  rewrite E in E'. injection E' as <-. apply I in Hin. clear I. destruct Hin as [_ H]. rewrite F in H. cbn [length hd_error tl] in H.
  destruct H as [H|(i' & n0 & j' & n & H1 & H2 & H3 & H4 & H5)]; [lia|]. injection H1 as <-. destruct H3 as [<-|[]].
  rewrite Ni in H2. injection H2 as <-. rewrite Nj in H4. injection H4 as <-.
  assert (U := unit_dot_le ni nj Ui Uj). rewrite (dot_comm nj ni) in H5. rewrite (Rabs_right tol) in H5 by lra. rewrite Rabs_left1 in H5 by lra.
  unfold angle. assert (B := acos_bound (dot ni nj)). destruct (Rlt_dec tol (acos (dot ni nj))) as [|N]; [assumption|exfalso].
  assert (C : (cos tol <= cos (acos (dot ni nj)))%R) by (apply cos_decr_1; assert (P := PI_RGT_0); lra).
  rewrite cos_acos in C by lra. assert (S0 : (0 <= sin tol)%R) by (apply sin_ge_0; assert (P := PI_RGT_0); lra).
  assert (C0 : (0 <= cos tol)%R) by (apply cos_ge_0; assert (P := PI_RGT_0); lra).
  assert (Q := sin2_cos2 tol). unfold Rsqr in Q. nra.
Qed.
Print Assumptions C20_kept_edges_are_bent.

Definition bent_quad : mesh vec3 :=
  mkMesh [V3 0 0 0; V3 1 0 0; V3 0 1 0; V3 0 (-4/5) (-3/5)] [(0, 1, 2); (1, 0, 3)].
Lemma bent_normals :
  triangle_normal (fun v => v) bent_quad 0 = Some (V3 0 0 1) /\ triangle_normal (fun v => v) bent_quad 1 = Some (V3 0 (-3/5) (4/5)).
Proof.
  unfold triangle_normal. cbn [nth_error tris bent_quad corners verts ta tb tc fst snd]. unfold vsub, cross. cbn [vx vy vz]. split; f_equal; unfold normalize, dot; cbn [vx vy vz].
  - destruct (Reqb _ 0) eqn:E; [apply Reqb_iff in E; lra|]. destruct (Reqb _ 1) eqn:E1; [|apply Reqb_false in E1; exfalso; apply E1; lra]. f_equal; lra.
  - destruct (Reqb _ 0) eqn:E; [apply Reqb_iff in E; lra|]. destruct (Reqb _ 1) eqn:E1; [|apply Reqb_false in E1; exfalso; apply E1; lra]. f_equal; lra.
Qed.
Example bent_quad_example : well_formed bent_quad /\ find_by_edge bent_quad (0, 1) = [0; 1] /\ In (0, 1) (edges bent_quad).
Proof. split; [|split; [reflexivity|cbn; auto]]. intros t [<-|[<-|[]]]; repeat split; cbn; lia. Qed.

(** The other direction is false: the two triangles below are bent by acos(4/5) (about 37 degrees), but with a tolerance of 30
    degrees their common edge is not part of the silhouette. *)
Theorem C20_tolerance_angle_refuted :
  forall eps : R, (0 < eps)%R ->
  exists es ni nj, silhouette_edges (fun v => v) eps bent_quad (PI / 6) = Some es /\
    In (0, 1) (edges bent_quad) /\ find_by_edge bent_quad (0, 1) = [0; 1] /\
    triangle_normal (fun v => v) bent_quad 0 = Some ni /\ triangle_normal (fun v => v) bent_quad 1 = Some nj /\
    (PI / 6 < angle ni nj)%R /\ ~ In (0, 1) es.
Proof.
  intros eps He. destruct bent_quad_example as (wf & F & Hin). destruct bent_normals as [N0 N1].
  destruct (C20_silhouette_characterised _ (fun v => v) eps (PI / 6) bent_quad wf) as (es & E & I & _).
  exists es, (V3 0 0 1), (V3 0 (-3/5) (4/5)). split; [exact E|]. split; [exact Hin|]. split; [exact F|]. split; [exact N0|]. split; [exact N1|].
  assert (P := PI_RGT_0). assert (D : dot (V3 0 0 1) (V3 0 (-3/5) (4/5)) = (4/5)%R) by (unfold dot; cbn; lra). split.
  - unfold angle. rewrite D. destruct (Rlt_dec (PI / 6) (acos (4/5))) as [|N]; [assumption|exfalso].
    assert (B := acos_bound (4/5)). assert (C : (cos (PI / 6) <= cos (acos (4/5)))%R) by (apply cos_decr_1; lra).
    rewrite cos_acos in C by lra. rewrite cos_PI6 in C. assert (S3 : (0 <= sqrt 3)%R) by apply sqrt_pos. assert (S4 : (sqrt 3 * sqrt 3 = 3)%R) by (apply sqrt_sqrt; lra). nra.
  - rewrite I, F. cbn [length hd_error tl]. intros [_ [H|(i & n0 & j & n & H1 & H2 & H3 & H4 & H5)]]; [lia|]. injection H1 as <-. destruct H3 as [<-|[]].
    rewrite N0 in H2. injection H2 as <-. rewrite N1 in H4. injection H4 as <-. rewrite dot_comm, D in H5. rewrite Rabs_right in H5 by lra. rewrite sin_PI6 in H5.
    rewrite Rabs_left in H5 by lra. lra.
Qed.
Print Assumptions C20_tolerance_angle_refuted.

(** ** C21 *)

(** The result is ascending (each triangle once) and consists of the triangles within [depth] neighbor steps of the start. *)
Theorem C21_neighbors_are_the_ball :
  forall (V : Type) (equals : V -> V -> bool) (m : mesh V) (start : list nat) (depth : nat) (edge_bond by_pos : bool),
  (by_pos = true -> well_formed m) -> Forall (fun j => j < length (tris m)) start ->
  exists r, triangle_neighbors equals m start depth edge_bond by_pos = Some r /\ StronglySorted lt r /\
  forall i, In i r <-> within_steps (neighbor_rel equals edge_bond by_pos m) start depth i.
Proof.
  intros V equals m start depth eb bp wf Hs. unfold triangle_neighbors. fold (set_union [] start).
  assert (M : forall i, In i (set_union [] start) <-> In i start) by (intros i; rewrite set_union_in; cbn; tauto).
  destruct (neighbors_spec equals eb bp m wf depth (set_union [] start)) as (r & E & S & I).
  - apply set_union_sorted. constructor.
  - apply Forall_forall. intros i Hi. rewrite Forall_forall in Hs. apply Hs, M, Hi.
  - exists r. split; [exact E|]. split; [exact S|]. intros i. rewrite I. split.
    + intros H. clear -H M. induction H as [k i Hi|k i j _ IH N]; [apply ws_start; apply (proj1 (M i)); exact Hi|eapply ws_step; eassumption].
    + intros H. clear -H M. induction H as [k i Hi|k i j _ IH N]; [apply ws_start; apply (proj2 (M i)); exact Hi|eapply ws_step; eassumption].
Qed.
Print Assumptions C21_neighbors_are_the_ball.

(** With edge bonds and matching by index, neighbors with three different corners are those with a common side. *)
Theorem C21_edge_bond_is_common_side :
  forall (V : Type) (equals : V -> V -> bool) (m : mesh V) (i j : nat) (t u : tri),
  nth_error (tris m) j = Some t -> nth_error (tris m) i = Some u ->
  ta t <> tb t -> tb t <> tc t -> ta t <> tc t ->
  neighbor_rel equals true false m i j <-> share_side t u.
Proof.
  intros V equals m i j t u Ht Hu D1 D2 D3. unfold neighbor_rel. rewrite <- (two_corners_share equals m t u D1 D2 D3). split.
  - intros (t' & u' & E1 & E2 & H). congruence.
  - intros H. exists t, u. auto.
Qed.
Print Assumptions C21_edge_bond_is_common_side.

Example C21_example :
  triangle_neighbors (fun _ _ => false) (mkMesh (repeat tt 6) [(0, 1, 2); (2, 1, 3); (2, 3, 4); (4, 3, 5); (5, 5, 5)]) [0] 2 true false = Some [0; 1; 2] /\
  triangle_neighbors (fun _ _ => false) (mkMesh (repeat tt 6) [(0, 1, 2); (2, 1, 3); (2, 3, 4); (4, 3, 5); (5, 5, 5)]) [0] 2 false false = Some [0; 1; 2; 3].
Proof. split; reflexivity. Qed.

(** A degenerate triangle counts a repeated corner twice: it is an edge-bond neighbor without a common side. *)
Theorem C21_degenerate_edge_bond_refuted :
  exists (m : mesh unit) (t u : tri), well_formed m /\ tris m = [u; t] /\ ~ share_side t u /\
    triangle_neighbors (fun _ _ => false) m [0] 1 true false = Some [0; 1].
Proof.
  exists (mkMesh (repeat tt 5) [(0, 1, 2); (0, 0, 3)]), (0, 0, 3), (0, 1, 2). split.
  - intros t [<-|[<-|[]]]; repeat split; cbn; lia.
  - split; [reflexivity|]. split; [|reflexivity]. intros (a & b & N & H1 & H2). unfold side_of in *. cbn in *. lia.
Qed.
Print Assumptions C21_degenerate_edge_bond_refuted.

(** ** C22 *)

Theorem C22_find_triangles_exact :
  forall (V : Type) (m : mesh V),
  (forall v, StronglySorted lt (find_by_vertex m v) /\
     forall i, In i (find_by_vertex m v) <-> exists t, nth_error (tris m) i = Some t /\ corner_of t v) /\
  (forall a b, StronglySorted lt (find_by_edge m (a, b)) /\ find_by_edge m (a, b) = find_by_edge m (b, a) /\
     forall i, In i (find_by_edge m (a, b)) <-> exists t, nth_error (tris m) i = Some t /\ side_of t a b).
Proof.
  intros V m. split.
  - intros v. split; [apply find_from_sorted|]. intros i. unfold find_by_vertex. rewrite find_from_in. unfold corner_of. split.
    + intros (j & t & -> & H & P). exists t. split; [exact H|]. rewrite !orb_true_iff, !Nat.eqb_eq in P. intuition.
    + intros (t & H & P). exists i, t. split; [reflexivity|]. split; [exact H|]. rewrite !orb_true_iff, !Nat.eqb_eq. intuition.
  - intros a b. split; [apply find_from_sorted|]. split.
    + unfold find_by_edge. cbn [fst snd]. generalize 0. induction (tris m) as [|t l IH]; intros k; [reflexivity|].
      cbn [find_from]. rewrite orb_comm, IH. reflexivity.
    + intros i. unfold find_by_edge. rewrite find_from_in. cbn [fst snd]. split.
      * intros (j & t & -> & H & P). exists t. split; [exact H|]. apply has_edge_iff, P.
      * intros (t & H & P). exists i, t. split; [reflexivity|]. split; [exact H|]. apply has_edge_iff, P.
Qed.
Print Assumptions C22_find_triangles_exact.

Example C22_example :
  find_by_vertex (mkMesh (repeat tt 4) [(0, 1, 2); (2, 1, 3); (3, 3, 0)]) 3 = [1; 2] /\
  find_by_edge (mkMesh (repeat tt 4) [(0, 1, 2); (2, 1, 3); (3, 3, 0)]) (1, 2) = [0; 1].
Proof. split; reflexivity. Qed.

(** ** C23 *)

(** Appending keeps the vertices and triangles, adds those of the other mesh, and every added triangle addresses the vertex data
    it addressed before. *)
Theorem C23_append_preserves :
  forall (V : Type) (dv : V) (m o : mesh V), well_formed m -> well_formed o ->
  exists r, append dv m o = Some r /\ well_formed r /\
    verts r = verts m ++ verts o /\ length (tris r) = length (tris m) + length (tris o) /\
    (forall i t, nth_error (tris m) i = Some t -> nth_error (tris r) i = Some t) /\
    triangle_list r = triangle_list m ++ triangle_list o.
Proof.
  intros V dv m o Wm Wo. rewrite append_eq. eexists. split; [reflexivity|]. cbn [verts tris]. split; [|split; [reflexivity|split; [|split]]].
  - intros t H. cbn [verts tris] in *. rewrite app_length. apply in_app_iff in H. destruct H as [H|H].
    + destruct (Wm t H) as (A & B & C). repeat split; lia.
    + apply in_map_iff in H. destruct H as (u & <- & H). destruct (Wo u H) as (A & B & C). unfold shift_tri, in_range, ta, tb, tc in *. cbn. lia.
  - rewrite app_length, map_length. reflexivity.
  - intros i t H. rewrite nth_error_app1; [exact H|]. apply nth_error_Some. congruence.
  - unfold triangle_list. cbn [verts tris]. rewrite map_app, map_map. f_equal.
    + apply map_ext_in. intros t H. apply corners_app_l, Wm, H.
    + apply map_ext. intros t. apply corners_app_r.
Qed.
Print Assumptions C23_append_preserves.

Theorem C23_append_associative :
  forall (V : Type) (dv : V) (a b c ab bc : mesh V),
  append dv a b = Some ab -> append dv b c = Some bc -> append dv ab c = append dv a bc.
Proof.
  intros V dv a b c ab bc. rewrite !append_eq. intros E1 E2. injection E1 as <-. injection E2 as <-. cbn [verts tris].
  rewrite map_app, map_map, <- !app_assoc. do 3 f_equal. f_equal. apply map_ext. intros t. rewrite app_length. unfold shift_tri, ta, tb, tc. cbn. f_equal; [f_equal|]; lia.
Qed.
Print Assumptions C23_append_associative.

(** AddVertex and AddTriangle return the index at which the new element is found, keep all others and the index ranges. *)
Theorem C23_add_preserves :
  forall (V : Type) (m : mesh V), well_formed m ->
  (forall v i m', add_vertex m v = (i, m') ->
     well_formed m' /\ nth_error (verts m') i = Some v /\ firstn i (verts m') = verts m /\ length (verts m') = S i /\ tris m' = tris m) /\
  (forall a b c, (exists i m', add_triangle m a b c = Some (i, m') /\ well_formed m' /\ nth_error (tris m') i = Some (a, b, c) /\
                    firstn i (tris m') = tris m /\ length (tris m') = S i /\ verts m' = verts m)
                 \/ (add_triangle m a b c = None /\ ~ in_range (length (verts m)) (a, b, c))).
Proof.
  intros V m W. split.
  - intros v i m' E. unfold add_vertex in E. injection E as <- <-. cbn [verts tris]. split; [|split; [|split; [|split; [|reflexivity]]]].
    + intros t H. specialize (W t H). cbn [verts]. unfold in_range in *. rewrite app_length. cbn. lia.
    + rewrite nth_error_app2, Nat.sub_diag by lia. reflexivity.
    + rewrite firstn_app, Nat.sub_diag, firstn_all, app_nil_r. reflexivity.
    + rewrite app_length. cbn. lia.
  - intros a b c. unfold add_triangle. destruct (Nat.ltb_spec a (length (verts m))), (Nat.ltb_spec b (length (verts m))), (Nat.ltb_spec c (length (verts m)));
      cbn [andb]; try (right; split; [reflexivity|]; unfold in_range, ta, tb, tc; cbn; lia).
    left. eexists; eexists; split; [reflexivity|]. cbn [verts tris]. split; [|split; [|split; [|split; [|reflexivity]]]].
    + intros t Ht. apply in_app_iff in Ht. destruct Ht as [Ht|[<-|[]]]; [apply W, Ht|]. repeat split; assumption.
    + rewrite nth_error_app2, Nat.sub_diag by lia. reflexivity.
    + rewrite firstn_app, Nat.sub_diag, firstn_all, app_nil_r. reflexivity.
    + rewrite app_length. cbn. lia.
Qed.
Print Assumptions C23_add_preserves.

Example C23_example :
  append tt (mkMesh [tt; tt; tt] [(0, 1, 2)]) (mkMesh [tt; tt; tt] [(2, 0, 1)]) = Some (mkMesh [tt; tt; tt; tt; tt; tt] [(0, 1, 2); (5, 3, 4)]).
Proof. reflexivity. Qed.

(** A mesh cannot be appended to itself: with at least one vertex or triangle the copy runs beyond the end of the vector. *)
Theorem C23_self_append_refuted :
  forall (V : Type) (dv : V) (m : mesh V), verts m <> [] \/ tris m <> [] -> append_self dv m = None.
Proof.
  assert (C : forall A (d : A) l, l <> [] -> copy_to (grow d l (length l)) (length l) (grow d l (length l)) = None).
  { intros A d l N. unfold copy_to, grow. rewrite app_length, repeat_length. destruct (Nat.leb_spec (length l + (length l + length l)) (length l + length l)); [|reflexivity].
    destruct l; [congruence|cbn in *; lia]. }
  intros V dv m H. unfold append_self. destruct (verts m) as [|v l] eqn:E.
  - destruct H as [H|H]; [congruence|]. destruct (copy_to _ _ _); [|reflexivity]. rewrite C by exact H. reflexivity.
  - rewrite C by congruence. reflexivity.
Qed.
Print Assumptions C23_self_append_refuted.

(** ** C24 *)

(** The box contains every vertex, and lies in every box that does, if the coordinates are comparable and between lowest() and
    max() (all finite floats). [f] is the transformation passed to BoundingBox(matrix), or the identity. *)
Theorem C24_bounding_box_tight :
  forall (O : order) (ok : ocar O -> Prop) (V : Type) (pos : V -> point O) (f : point O -> point O) (m : mesh V),
  order_laws O ok -> (forall v, In v (verts m) -> ok_point O ok 3 (f (pos v))) ->
  let b := bounding_box O pos f m in
  (forall v, In v (verts m) -> in_box O (f (pos v)) b) /\
  (forall c, verts m <> [] -> (forall v, In v (verts m) -> Forall (ranged O) (f (pos v))) -> ok_box O ok 3 c ->
     (forall v, In v (verts m) -> in_box O (f (pos v)) c) -> within O b c).
Proof.
  intros O ok V pos f m HL Hp. assert (E : bounding_box O pos f m = insert_items O (reset O 3) (map (fun v => IPoint (f (pos v))) (verts m))).
  { unfold bounding_box, insert_items. generalize (reset O 3). induction (verts m) as [|v l IH]; intros b; [reflexivity|]. cbn. apply IH. intros u Hu. apply Hp. right; exact Hu. }
  cbn zeta. rewrite E. assert (Hl : Forall (ok_item O ok 3) (map (fun v => IPoint (f (pos v))) (verts m))) by (apply Forall_map, Forall_forall; exact Hp). split.
  - intros v Hv. destruct (items_ub O ok HL 3 _ Hl (reset O 3) (reset_ok O ok HL 3)) as [_ U]. rewrite Forall_forall in U.
    apply (U (IPoint (f (pos v)))). apply in_map with (f := fun v => IPoint (f (pos v))). exact Hv.
  - intros c Hne Hr Hc H. apply (reset_items_least O ok HL); [|exact Hl| |exact Hc|].
    + destruct (verts m); [congruence|discriminate].
    + apply Forall_map, Forall_forall. exact Hr.
    + apply Forall_map, Forall_forall. exact H.
Qed.
Print Assumptions C24_bounding_box_tight.

(** Every face touches a vertex: each bound is a coordinate of a vertex (up to the order's equality, e.g. of 0.0 and -0.0). *)
Theorem C24_faces_touch :
  forall (O : order) (ok : ocar O -> Prop) (V : Type) (pos : V -> point O) (f : point O -> point O) (m : mesh V) (k : nat) (i : ocar O * ocar O),
  order_laws O ok -> (forall v, In v (verts m) -> ok_point O ok 3 (f (pos v)) /\ Forall (ranged O) (f (pos v))) -> verts m <> [] ->
  nth_error (bounding_box O pos f m) k = Some i ->
  (exists v x, In v (verts m) /\ nth_error (f (pos v)) k = Some x /\ oeq O x (fst i)) /\
  (exists v x, In v (verts m) /\ nth_error (f (pos v)) k = Some x /\ oeq O x (snd i)).
Proof.
  intros O ok V pos f m k i HL Hp Hne Hi. unfold bounding_box in Hi.
  assert (St : forall b v, In v (verts m) -> length b = 3 -> forall j, nth_error b k = Some j -> exists x, nth_error (f (pos v)) k = Some x /\
     nth_error (insert_point O b (f (pos v))) k = Some (if olt O x (fst j) then x else fst j, if olt O (snd j) x then x else snd j)).
  { intros b v Hv Lb j Hj. destruct (Hp v Hv) as [[L _] _]. assert (L2 : length b = length (f (pos v))) by congruence. clear -Hj L2. unfold insert_point.
    revert b Hj L2. generalize (f (pos v)). induction k as [|k IH]; intros [|x p] [|j' b] Hj L2; cbn in *; try discriminate.
    - injection Hj as ->. eauto.
    - apply IH; [exact Hj|lia]. }
  assert (Len : forall b v, In v (verts m) -> length b = 3 -> length (insert_point O b (f (pos v))) = 3).
  { intros b v Hv Lb. destruct (Hp v Hv) as [[L _] _]. unfold insert_point. rewrite map2_length; congruence. }
  assert (Loop : forall l b j, incl l (verts m) -> length b = 3 -> nth_error b k = Some j ->
     nth_error (fold_left (fun b v => insert_point O b (f (pos v))) l b) k = Some i ->
     (fst i = fst j \/ exists v x, In v (verts m) /\ nth_error (f (pos v)) k = Some x /\ x = fst i) /\
     (snd i = snd j \/ exists v x, In v (verts m) /\ nth_error (f (pos v)) k = Some x /\ x = snd i)).
  { induction l as [|v l IH]; intros b j Hin Lb Hj E; cbn in E; [rewrite Hj in E; injection E as <-; auto|].
    assert (Hv : In v (verts m)) by (apply Hin; left; reflexivity). destruct (St b v Hv Lb j Hj) as (x & Hx & Hb).
    destruct (IH _ _ (fun y Hy => Hin y (or_intror Hy)) (Len b v Hv Lb) Hb E) as [[A|A] [B|B]]; cbn [fst snd] in *; (split; [|]);
    try (right; assumption); [| | |].
    - destruct (olt O x (fst j)); [right; exists v, x; auto|auto].
    - destruct (olt O (snd j) x); [right; exists v, x; auto|auto].
    - destruct (olt O x (fst j)); [right; exists v, x; auto|auto].
    - destruct (olt O (snd j) x); [right; exists v, x; auto|auto]. }
  assert (K : k < 3). { assert (N : nth_error (fold_left (fun b v => insert_point O b (f (pos v))) (verts m) (reset O 3)) k <> None) by congruence.
    apply nth_error_Some in N. assert (LL : forall l b, incl l (verts m) -> length b = 3 -> length (fold_left (fun b v => insert_point O b (f (pos v))) l b) = 3).
    { induction l as [|v l IH]; intros b Hin Lb; [exact Lb|]. cbn. apply IH; [intros y Hy; apply Hin; right; exact Hy|apply Len; [apply Hin; left; reflexivity|exact Lb]]. }
    rewrite LL in N; [exact N|apply incl_refl|reflexivity]. }
  assert (R0 : nth_error (reset O 3) k = Some (omax O, olow O)) by (apply nth_error_repeat; exact K).
  destruct (Loop (verts m) (reset O 3) (omax O, olow O) (incl_refl _) eq_refl R0 Hi) as [A B]. cbn [fst snd] in A, B.
  (* a vertex exists; its coordinate lies between the bounds and the limits *)
  destruct (verts m) as [|v0 l0] eqn:Ev; [congruence|]. rewrite <- Ev in *. assert (Hv0 : In v0 (verts m)) by (rewrite Ev; left; reflexivity).
  destruct (Hp v0 Hv0) as [[L0 O0] Rg]. destruct (nth_error (f (pos v0)) k) as [x0|] eqn:Ex; [|apply nth_error_None in Ex; lia].
  assert (In0 : in_box O (f (pos v0)) (bounding_box O pos f m)).
  { apply (C24_bounding_box_tight O ok V pos f m HL); [intros v Hv; apply Hp, Hv|exact Hv0]. }
  assert (Bd : ole O (fst i) x0 /\ ole O x0 (snd i)).
  { clear -In0 Hi Ex. fold (bounding_box O pos f m) in Hi. revert Hi Ex In0. generalize (bounding_box O pos f m) (f (pos v0)). clear.
    induction k as [|k IH]; intros b p Hi Ex H; inversion H as [|? ? ? ? H1 H2]; subst; try discriminate; cbn in *.
    - injection Hi as ->. injection Ex as ->. exact H1.
    - eapply IH; eassumption. }
  assert (Rx : ranged O x0) by (rewrite Forall_forall in Rg; apply Rg; eapply nth_error_In; exact Ex).
  assert (Okx : ok x0) by (rewrite Forall_forall in O0; apply O0; eapply nth_error_In; exact Ex).
  split.
  - destruct A as [A|(v & x & H1 & H2 & H3)].
    + exists v0, x0. split; [exact Hv0|]. split; [exact Ex|]. rewrite A in *. split; [apply Rx|apply Bd].
    + exists v, x. split; [exact H1|]. split; [exact H2|]. subst x. assert (Okf : ok (fst i)).
      { destruct (Hp v H1) as [[_ Q] _]. rewrite Forall_forall in Q. apply Q. eapply nth_error_In; exact H2. }
      split; apply (ole_refl O ok HL), Okf.
  - destruct B as [B|(v & x & H1 & H2 & H3)].
    + exists v0, x0. split; [exact Hv0|]. split; [exact Ex|]. rewrite B in *. split; [apply Bd|apply Rx].
    + exists v, x. split; [exact H1|]. split; [exact H2|]. subst x. assert (Okf : ok (snd i)).
      { destruct (Hp v H1) as [[_ Q] _]. rewrite Forall_forall in Q. apply Q. eapply nth_error_In; exact H2. }
      split; apply (ole_refl O ok HL), Okf.
Qed.
Print Assumptions C24_faces_touch.

(** ** C25 *)

Lemma not_nan_dec (x : b64) : {not_nan x} + {~ not_nan x}.
Proof. unfold not_nan. destruct (is_nan x); [right; congruence|left; reflexivity]. Qed.
Lemma b64_nan (x y : b64) : ~ not_nan x -> olt B64Order x y = false /\ olt B64Order y x = false.
Proof.
  unfold not_nan. intros H. destruct x as [| | |]; try (exfalso; apply H; reflexivity). destruct y as [[]|[]| |[] ]; split; reflexivity.
Qed.

(** Whatever the thread count and the interleaving, a returned box equals the one of BoundingBox; coordinates that compare with
    nothing (NaN) and infinities are allowed. *)
Theorem C25_multi_threaded_equals_sequential :
  forall (O : order) (ok : ocar O -> Prop) (V : Type) (pos : V -> point O) (m : mesh V) (threads : nat) (b : box O),
  order_laws O ok -> (forall x, {ok x} + {~ ok x}) ->
  (forall x y, ~ ok x -> olt O x y = false /\ olt O y x = false) -> (forall v, length (pos v) = 3) ->
  mt_result O pos m threads b -> box_eq O b (bounding_box O pos (fun p => p) m).
Proof.
  intros O ok V pos m threads b HL dec Hnan Hpos R. change (bounding_box O pos (fun p => p) m) with (seq_box O pos (reset O 3) (verts m)).
  destruct R as [H|ws b H n S].
  - change (bounding_box O pos (fun p => p) m) with (seq_box O pos (reset O 3) (verts m)). assert (K := F_ok O ok HL dec Hnan pos Hpos (verts m)).
    destruct K as [_ K]. induction K as [|i l [K1 K2] _ IH]; constructor; [|exact IH]. split; split; apply (ole_refl O ok HL); assumption.
  - assert (Hper : length (verts m) / n * n <= length (verts m)).
    { destruct n as [|k]; [lia|]. rewrite Nat.mul_comm. apply Nat.mul_div_le. lia. }
    destruct (inv_steps O pos (verts m) n _ Hper _ _ (inv_init O pos (verts m) n _ Hper) S) as (_ & _ & P). cbn in P. rewrite P.
    apply (join_box_eq O ok HL dec Hnan pos Hpos). apply (partition_in O pos); exact Hper.
Qed.
Print Assumptions C25_multi_threaded_equals_sequential.

(** No interleaving gets stuck (in particular no worker is given a range outside of the vertex array), none runs forever, and all
    of them return the same box. *)
Theorem C25_executions_end :
  forall (O : order) (V : Type) (pos : V -> point O) (m : mesh V) (threads : nat),
  ~ (threads < 2 \/ length (verts m) / threads < 64) ->
  let n := Nat.min (Nat.max threads 1) (length (verts m)) in
  let per := length (verts m) / n in
  n = threads /\
  (forall s, mt_steps O pos (verts m) n per (mt_init O n) s ->
     (exists b, pc O s = Done O b) \/ exists t, mt_step O pos (verts m) n per s t) /\
  (forall f, f 0 = mt_init O n -> (forall k, mt_step O pos (verts m) n per (f k) (f (S k))) -> False) /\
  (forall b c, mt_result O pos m threads b -> mt_result O pos m threads c -> b = c).
Proof.
  intros O V pos m threads H n per.
  assert (T : 2 <= threads) by lia. assert (Q : 64 <= length (verts m) / threads) by lia.
  assert (D : threads * (length (verts m) / threads) <= length (verts m)) by (apply Nat.mul_div_le; lia).
  assert (En : n = threads) by (unfold n; nia).
  assert (Hper : per * n <= length (verts m)) by (unfold per; rewrite En, Nat.mul_comm; exact D).
  split; [exact En|]. split; [|split].
  - intros s S. apply progress; [exact Hper|]. eapply inv_steps; [exact Hper|apply inv_init; exact Hper|exact S].
  - intros f. apply no_infinite. exact Hper.
  - assert (R : forall b, mt_result O pos m threads b -> b = joined O pos (verts m) n per n).
    { intros b [Hs|ws b' _ n' S]; [contradiction|]. fold n in n'. subst n'. fold per in S.
      destruct (inv_steps O pos (verts m) n per Hper _ _ (inv_init O pos (verts m) n _ Hper) S) as (_ & _ & P). exact P. }
    intros b c Hb Hc. rewrite (R b Hb), (R c Hc). reflexivity.
Qed.
Print Assumptions C25_executions_end.

(** Floats including NaN satisfy the hypotheses, and the parallel branch is reachable. *)
Example C25_example :
  order_laws B64Order not_nan /\ (forall x y, ~ not_nan x -> olt B64Order x y = false /\ olt B64Order y x = false) /\
  ~ (2 < 2 \/ length (repeat [B754_nan; B754_zero false; b64_max] 130) / 2 < 64).
Proof. split; [apply b64_laws|]. split; [apply b64_nan|]. rewrite repeat_length. cbn. lia. Qed.

(** ** C26 *)
Local Open Scope R_scope.

(** Exactly the described scalars of the output are written, with the linear combination of the corresponding scalars of the three
    input vertices, provided all described scalars exist. *)
Theorem C26_interpolation_writes_described_attributes :
  forall (d : vertex_desc) (out inp : list R) (v0 v1 v2 : nat) (w : vec3),
  Forall (fun a => (offset a + components a <= length out)%nat /\
                   forall k, In k [v0; v1; v2] -> (k * get_stride d + (offset a + components a) <= length inp)%nat) (attributes d) ->
  exists out', interpolate_barycentric d out inp v0 v1 v2 w = Some out' /\ length out' = length out /\
  forall p, (~ covered (attributes d) p -> nth_error out' p = nth_error out p) /\
            (covered (attributes d) p -> nth_error out' p =
               Some (nth (v0 * get_stride d + p) inp 0 * vx w + nth (v1 * get_stride d + p) inp 0 * vy w + nth (v2 * get_stride d + p) inp 0 * vz w)).
Proof.
  intros d out inp v0 v1 v2 w H. destruct (write_attribs_spec inp (get_stride d) v0 v1 v2 w (attributes d) out H) as (out' & E & L & N).
  exists out'. split; [exact E|]. split; [exact L|]. intros p. destruct (N p) as [N1 N2]. split; [exact N2|exact N1].
Qed.
Print Assumptions C26_interpolation_writes_described_attributes.

(** Barycentric of a mesh: the linear combination of the three corners in all attributes, whatever the local vertex held. *)
Theorem C26_barycentric :
  forall (m : mesh vertex) (v : vertex) (i : nat) (w : vec3) (t : tri), well_formed m -> nth_error (tris m) i = Some t ->
  exists a b c, nth_error (verts m) (ta t) = Some a /\ nth_error (verts m) (tb t) = Some b /\ nth_error (verts m) (tc t) = Some c /\
    barycentric m v i w = Some (combine_vertices w a b c).
Proof.
  intros m v i w t W Ht. destruct (corners_some m t) as (a & b & c & E); [apply W; eapply nth_error_In; exact Ht|].
  exists a, b, c. pose proof E as E0. unfold corners in E. destruct (nth_error (verts m) (ta t)); [|discriminate]. destruct (nth_error (verts m) (tb t)); [|discriminate].
  destruct (nth_error (verts m) (tc t)); [|discriminate]. injection E as -> -> ->. repeat split; try reflexivity. eapply barycentric_spec; eassumption.
Qed.
Print Assumptions C26_barycentric.

(** The linear combination takes the corners' values at the corner coordinates and is linear in the coordinates. *)
Theorem C26_corners_and_linearity :
  forall a b c : vertex,
  combine_vertices (V3 1 0 0) a b c = a /\ combine_vertices (V3 0 1 0) a b c = b /\ combine_vertices (V3 0 0 1) a b c = c /\
  forall (s t : R) (u w : vec3),
    let sum (x y : vertex) := mkVertex (vadd (vscale s (position x)) (vscale t (position y)))
                                       (vadd (vscale s (normal x)) (vscale t (normal y)))
                                       (add2 (scale2 s (tex_coord x)) (scale2 t (tex_coord y))) in
    combine_vertices (vadd (vscale s u) (vscale t w)) a b c = sum (combine_vertices u a b c) (combine_vertices w a b c).
Proof.
  intros [[] [] []] [[] [] []] [[] [] []]. unfold combine_vertices, combine3, combine2; cbn [position normal tex_coord]. unfold vadd, vscale, add2, scale2. cbn.
  split; [|split; [|split]]; [f_equal; f_equal; ring..|]. intros s t [] []. cbn. f_equal; f_equal; ring.
Qed.
Print Assumptions C26_corners_and_linearity.

Example C26_example :
  exists v, barycentric (mkMesh [mkVertex (V3 0 0 0) (V3 0 0 1) (V2 0 0); mkVertex (V3 2 0 0) (V3 0 0 1) (V2 1 0); mkVertex (V3 0 4 0) (V3 0 0 1) (V2 0 1)] [(0, 1, 2)%nat])
              (mkVertex vzero vzero (V2 7 7)) 0 (V3 (1/2) (1/4) (1/4)) = Some v /\ position v = V3 (1/2) 1 0 /\ tex_coord v = V2 (1/4) (1/4).
Proof.
  eexists. split; [eapply barycentric_spec; reflexivity|]. unfold combine_vertices, combine3, combine2, vadd, vscale, add2, scale2. cbn. split; f_equal; field.
Qed.
