(** 32-bit grid indices wrap around. *)
From Coq Require Import ZArith Reals List Bool Arith Lia Lra.
From Verif Require Import Model.Scalar Model.Vec Model.Aabb Model.Mesh Model.Interp Model.Bezier Model.Transforms Model.MeshGen Spec.MeshGenSpec
  Proofs.MeshGenLoops Proofs.MeshGenPieces Proofs.MeshGenResult Proofs.MeshGenTotal Proofs.MeshGenInv Proofs.MeshGenRange Proofs.MeshGenEdges Proofs.MeshGenMain Proofs.MeshGenSurface.
Import ListNotations.
Local Open Scope nat_scope.

Lemma uv_tris_32 alt rev H V : Forall (tri_all (fun k => (Z.of_nat k < 2 ^ 32)%Z)) (uv_tris alt rev H V).
Proof.
  apply Forall_flat. intros v _. apply Forall_flat. intros u _. cbn zeta. destruct rev; apply Forall_cut; apply u32_lt.
Qed.
Lemma frac_full n : 0 < n -> frac n n = 1%R.
Proof. intros. unfold frac. field. apply not_0_INR. lia. Qed.
Lemma frac_one i n : 0 < n -> frac i n = 1%R -> i = n.
Proof.
  intros P E. unfold frac in E. assert (INR n <> 0)%R by (apply not_0_INR; lia). apply INR_eq. apply (f_equal (fun x => (x * INR n)%R)) in E.
  rewrite Rmult_1_l in E. rewrite <- E. field. assumption.
Qed.

(** The last vertex of an ellipsoid, the one with the texture coordinates (1, 1) *)
Lemma wraps_hold d m m' : valid (DEllipsoid d) -> (2 ^ 32 < Z.of_nat (vertex_count (DEllipsoid d)))%Z -> generate (DEllipsoid d) m = Ok m' ->
  map (corners m') (new_triangles m m') <> map Some (surface (DEllipsoid d)).
Proof.
  intros W B G X. rewrite (generate_result _ _ _ W G), new_triangles_result in X. cbn [pieces ellipsoid_pieces] in X. unfold ellipsoid_pieces in X. cbn zeta in X.
  unfold vertex_count, grid_vertices in B. cbn zeta in B.
  assert (PU : 0 < Nat.max 3 (el_u d)) by lia. assert (PV : 0 < Nat.max 2 (el_v d)) by lia.
  unfold surface in X. cbn [patches flat_map p_tris p_at] in X. cbn zeta in X. cbn [flat_map p_tris p_at] in X. rewrite app_nil_r in X.
  generalize dependent (Nat.max 3 (el_u d)). generalize dependent (Nat.max 2 (el_v d)). intros V PV U B X PU.
  (* a triangle of the surface with the last vertex *)
  set (f := fun l : nat * nat => ellipsoid_vertex d U V (fst l) (snd l)) in *.
  assert (S : exists a b c, In (a, b, c) (grid O2 (diagonal (el_alt d)) V U) /\ (a = (V, U) \/ b = (V, U) \/ c = (V, U))).
  { assert (C : exists a b c, In (a, b, c) (cell O2 (diagonal (el_alt d)) (V - 1) (U - 1)) /\ (a = (V, U) \/ b = (V, U) \/ c = (V, U))).
    { unfold cell, cut. replace (V - 1 + 1) with V by lia. replace (U - 1 + 1) with U by lia. destruct (diagonal _ _ _).
      - do 3 eexists. split; [left; reflexivity|auto].
      - do 3 eexists. split; [right; left; reflexivity|auto]. }
    destruct C as (a & b & c & C & D). exists a, b, c. split; [|assumption]. apply in_flat_map. exists (V - 1). split; [apply in_seq; lia|].
    apply in_flat_map. exists (U - 1). split; [apply in_seq; lia|assumption]. }
  destruct S as (a & b & c & S & L).
  assert (I : In (Some (f a, f b, f c)) (map Some (map (tmap f) (grid O2 (diagonal (el_alt d)) V U)))).
  { apply in_map, in_map_iff. exists (a, b, c). split; [reflexivity|assumption]. }
  rewrite <- X in I. apply in_map_iff in I. destruct I as ([[i j] k] & E & T). cbn [assemble] in T. rewrite app_nil_r in T. cbn [pt] in T.
  pose proof (Forall_sh (fun k => (Z.of_nat k < 2 ^ 32)%Z) (fun k => exists q, k = length (verts m) + q /\ (Z.of_nat q < 2 ^ 32)%Z) (length (verts m)) _ (uv_tris_32 (el_alt d) false U V)) as F.
  assert (F' := F ltac:(intros q Hq; exists q; auto)). clear F. rewrite Forall_forall in F'. apply F' in T. cbn [tri_all] in T. clear F' X.
  (* no vertex of the mesh with a 32-bit index is the last one *)
  assert (N : forall q l, (Z.of_nat q < 2 ^ 32)%Z -> nth_error (verts (result [mkPiece (grid_verts (ellipsoid_vertex d U V) V U) (uv_tris (el_alt d) false U V)] m)) (length (verts m) + q) = Some (f l) -> l <> (V, U)).
  { intros q l Hq Hn ->. cbn [result verts flat_map pv] in Hn. rewrite app_nil_r, nth_error_app2 in Hn by lia.
    replace (length (verts m) + q - length (verts m)) with q in Hn by lia.
    pose proof (Nat.div_mod q (U + 1) ltac:(lia)) as DM. pose proof (Nat.mod_upper_bound q (U + 1) ltac:(lia)) as MB.
    assert (QL : q / (U + 1) <= V).
    { destruct (le_lt_dec (q / (U + 1)) V); [assumption|exfalso]. assert (nth_error (grid_verts (ellipsoid_vertex d U V) V U) q = None); [|congruence].
      apply nth_error_None. rewrite grid_verts_len. nia. }
    rewrite DM in Hn. rewrite (Nat.mul_comm (U + 1)) in Hn. rewrite grid_verts_nth in Hn by lia. apply (f_equal (option_map tex_coord)) in Hn. unfold f in Hn.
    cbn [option_map ellipsoid_vertex tex_coord fst snd] in Hn. injection Hn as Hx Hy. rewrite frac_full in Hx, Hy by lia. apply frac_one in Hx, Hy; nia. }
  unfold corners in E.
  destruct (nth_error _ i) as [vi|] eqn:Ei; [|discriminate]. destruct (nth_error _ j) as [vj|] eqn:Ej; [|discriminate]. destruct (nth_error _ k) as [vk|] eqn:Ek; [|discriminate].
  assert (Evi : vi = f a) by congruence. assert (Evj : vj = f b) by congruence. assert (Evk : vk = f c) by congruence. subst vi vj vk. destruct T as ((qi & -> & Hi) & (qj & -> & Hj) & (qk & -> & Hk)).
  destruct L as [L|[L|L]]; [exact (N _ _ Hi Ei L)|exact (N _ _ Hj Ej L)|exact (N _ _ Hk Ek L)].
Qed.
Definition wrapping_ellipsoid : ellipsoid := mkEllipsoid (V3 1 1 1) (Z.to_nat 65535) (Z.to_nat 65536) false.
Lemma wrapping_valid : valid (DEllipsoid wrapping_ellipsoid) /\ ends (DEllipsoid wrapping_ellipsoid) /\ (2 ^ 32 < Z.of_nat (vertex_count (DEllipsoid wrapping_ellipsoid)))%Z.
Proof.
  unfold valid, ends, segment_counts, vertex_count, grid_vertices. cbn zeta. unfold wrapping_ellipsoid. cbn [el_u el_v In].
  assert (A : Z.of_nat (Z.to_nat 65535) = 65535%Z) by (apply Z2Nat.id; lia). assert (B : Z.of_nat (Z.to_nat 65536) = 65536%Z) by (apply Z2Nat.id; lia).
  generalize dependent (Z.to_nat 65535). generalize dependent (Z.to_nat 65536). intros v Ev u Eu. repeat split.
  - intros n [<-|[<-|[]]]; lia.
  - intros n [<-|[<-|[]]]; unfold small; lia.
  - assert (M1 : Nat.max 3 u = u) by lia. assert (M2 : Nat.max 2 v = v) by lia. rewrite M1, M2.
    rewrite Nat2Z.inj_mul, !Nat2Z.inj_add, Ev, Eu. lia.
Qed.
Lemma wraps_refuted : exists d, valid d /\ forall m, exists m', generate d m = Ok m' /\ map (corners m') (new_triangles m m') <> map Some (surface d).
Proof.
  destruct wrapping_valid as (W & E & B). exists (DEllipsoid wrapping_ellipsoid). split; [exact W|]. intros m.
  pose proof (generate_ok (DEllipsoid wrapping_ellipsoid) m W I E) as G. eexists. split; [exact G|]. apply wraps_hold; assumption.
Qed.
Lemma endless_hold : exists d, valid d /\ defined d /\ forall m, generate d m = Endless.
Proof.
  exists (DEllipsoid (mkEllipsoid (V3 1 1 1) 3 (Z.to_nat (2 ^ 32 - 1)) false)). assert (A : Z.of_nat (Z.to_nat (2 ^ 32 - 1)) = (2 ^ 32 - 1)%Z) by (apply Z2Nat.id; lia).
  generalize dependent (Z.to_nat (2 ^ 32 - 1)). intros n E. repeat split.
  - intros k. cbn [segment_counts el_u el_v In]. intros [<-|[<-|[]]]; lia.
  - intros m. cbn [generate]. unfold generate_ellipsoid. cbn [el_u el_v]. rewrite for_le_max; [reflexivity|]. unfold u32_max. lia.
Qed.

(** Twice the same directed edge *)
Lemma edges_flat_map_tri {A} (f : A -> list tri) l : directed_edges (flat_map f l) = flat_map (fun x => directed_edges (f x)) l.
Proof. exact (edges_flat_map f l). Qed.
Lemma twice_in_flat_map {A B} (f : A -> list B) l i j e : In i l -> In j l -> i <> j -> In e (f i) -> In e (f j) -> ~ NoDup (flat_map f l).
Proof.
  intros Hi Hj N Ei Ej D. induction l as [|x l IH]; [destruct Hi|]. cbn [flat_map] in D.
  assert (S : forall e, In e (f x) -> In e (flat_map f l) -> False).
  { clear -D. induction (f x) as [|y r IHr]; cbn in *; [intros ? []|]. inversion_clear D. intros e [->|H1] H2; [apply H; apply in_or_app; now right|]. now apply (IHr H0 e). }
  destruct Hi as [->|Hi], Hj as [->|Hj].
  - contradiction.
  - apply (S e Ei). apply in_flat_map. eauto.
  - apply (S e Ej). apply in_flat_map. eauto.
  - apply IH; try assumption. clear -D. induction (f x); cbn in *; [assumption|]. inversion_clear D. auto.
Qed.
Definition doubled_ellipsoid : ellipsoid := mkEllipsoid (V3 1 1 1) (Z.to_nat 65535) (Z.to_nat 65537) false.
Lemma doubled_hold : exists d, valid d /\ defined d /\ forall m, exists m', generate d m = Ok m' /\ ~ NoDup (directed_edges (new_triangles m m')).
Proof.
  exists (DEllipsoid doubled_ellipsoid). unfold doubled_ellipsoid.
  assert (A : Z.of_nat (Z.to_nat 65535) = 65535%Z) by (apply Z2Nat.id; lia). assert (B : Z.of_nat (Z.to_nat 65537) = 65537%Z) by (apply Z2Nat.id; lia).
  generalize dependent (Z.to_nat 65535). generalize dependent (Z.to_nat 65537). intros v Ev u Eu.
  assert (W : valid (DEllipsoid (mkEllipsoid (V3 1 1 1) u v false))) by (intros n; cbn [segment_counts el_u el_v In]; intros [<-|[<-|[]]]; lia).
  assert (E : ends (DEllipsoid (mkEllipsoid (V3 1 1 1) u v false))) by (intros n; cbn [segment_counts el_u el_v In]; intros [<-|[<-|[]]]; unfold small; lia).
  split; [exact W|]. split; [exact I|]. intros m. pose proof (generate_ok _ m W I E) as G. eexists. split; [exact G|]. rewrite new_triangles_result.
  cbn [pieces]. unfold ellipsoid_pieces. cbn zeta. cbn [el_u el_v el_alt]. assert (M1 : Nat.max 3 u = u) by lia. assert (M2 : Nat.max 2 v = v) by lia. rewrite M1, M2.
  cbn [assemble pt pv]. rewrite app_nil_r, edges_sh. intros D. apply NoDup_map_inv in D. revert D. unfold uv_tris. rewrite edges_flat_map_tri.
  apply (twice_in_flat_map _ _ 0 (v - 1) (0, 1)); [apply in_seq; lia|apply in_seq; lia|lia|..].
  - assert (Z0 : In 0 (seq 0 u)) by (apply in_seq; lia). apply in_flat_map. eexists. split; [apply in_flat_map; exists 0; split; [exact Z0|left; reflexivity]|left].
    cbn [Nat.mul Nat.add]. rewrite !u32_small by lia. reflexivity.
  - assert (Z0 : In 0 (seq 0 u)) by (apply in_seq; lia). apply in_flat_map. eexists. split; [apply in_flat_map; exists 0; split; [exact Z0|left; reflexivity]|left].
    rewrite !Nat.add_0_r, !Nat.add_0_l. assert (P : Z.of_nat ((v - 1) * (u + 1)) = (2 ^ 32)%Z).
    { rewrite Nat2Z.inj_mul, Nat2Z.inj_add, Nat2Z.inj_sub by lia. rewrite Ev, Eu. lia. }
    unfold u32. rewrite P. rewrite Nat2Z.inj_add, P. reflexivity.
Qed.
