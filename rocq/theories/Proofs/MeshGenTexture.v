(** Texture coordinates of generated meshes *)
From Coq Require Import ZArith Reals List Bool Arith Lia Lra.
From Verif Require Import Model.Scalar Model.Vec Model.Aabb Model.Mesh Model.Interp Model.Bezier Model.Transforms Model.MeshGen Spec.MeshGenSpec Spec.SurfaceSpec
  Spec.WindingSpec Spec.TextureSpec Proofs.VecLemmas Proofs.MeshGenLoops Proofs.MeshGenResult Proofs.MeshGenInv Proofs.MeshGenTotal Proofs.MeshGenMain Proofs.MeshGenSurface
  Proofs.MeshGenChains Proofs.MeshGenClosed Proofs.MeshGenWinding.
Import ListNotations.
Local Open Scope R_scope.

(** ** Inside of the image *)
Definition unit_in (x : R) : Prop := 0 <= x <= 1.
Lemma frac_rev_in u H : (0 < H)%nat -> unit_in (frac (H - u) H).
Proof. intros. apply frac_bounds; lia. Qed.
Lemma half_in s t : -1 <= s <= 1 -> unit_in t -> unit_in (1 / 2 + s * (1 / 2) * t).
Proof. unfold unit_in. intros. nra. Qed.
Lemma flip_in (f : bool) x : unit_in x -> unit_in (if f then 1 - x else x).
Proof. unfold unit_in. destruct f; lra. Qed.
Lemma lerp_in a b t : unit_in a -> unit_in b -> unit_in t -> unit_in (lerp a b t).
Proof. unfold unit_in, lerp. intros. nra. Qed.

Lemma mantle_tex alt rev start step rx rz half side H V v : (0 < H)%nat -> (0 < V)%nat -> In v (pv (mantle_piece alt rev start step rx rz half side H V)) -> in_image v.
Proof.
  intros PH PV X. apply in_grid_verts in X. destruct X as (i & j & Hi & Hj & ->). split; [now apply frac_rev_in|now apply frac_bounds].
Qed.
Lemma disc_tex alt up start step rx rz y side H K v : (0 < K)%nat -> In v (pv (disc_piece alt up start step rx rz y side H K)) -> in_image v.
Proof.
  intros PK X. apply in_disc_verts in X. destruct X as [->|(i & j & Hi & Hj & ->)]; [split; cbn; lra|].
  assert (B : unit_in (frac j K)) by (apply frac_bounds; lia). split; cbn [tex_coord disc_vertex x2 y2]; [|apply flip_in]; apply half_in; try assumption; apply SIN_bound || apply COS_bound.
Qed.
Lemma wall_tex alt rev rx rz half side noff tc0 tc1 M V v : (0 < M)%nat -> (0 < V)%nat -> (tc0 = 1 /\ tc1 = -1) \/ (tc0 = 0 /\ tc1 = 1) ->
  In v (pv (wall_piece alt rev rx rz half side noff tc0 tc1 M V)) -> in_image v.
Proof.
  intros PM PV T X. apply in_grid_verts in X. destruct X as (i & j & Hi & Hj & ->). pose proof (frac_bounds i M Hi PM). pose proof (frac_bounds j V Hj PV).
  split; cbn [tex_coord wall_vertex x2 y2]; [|assumption]. destruct T as [[-> ->]|[-> ->]]; lra.
Qed.
Lemma ring_tex d up step y side H K v : fitted (DPipe d) -> (0 < K)%nat -> In v (pv (ring_piece d up step y side H K)) -> in_image v.
Proof.
  intros (A & B & C & D) PK X. apply in_grid_verts in X. destruct X as (i & j & Hi & Hj & ->). pose proof (frac_bounds j K Hj PK) as F.
  assert (G : forall s r R, -1 <= s <= 1 -> 0 <= r <= R -> 0 < R -> unit_in (1 / 2 + s * r * (1 / (R * 2)))).
  { intros s r R Hs Hr HR. replace (1 / 2 + s * r * (1 / (R * 2))) with (1 / 2 + s * (1 / 2) * (r / R)) by (field; lra). apply half_in; [assumption|].
    unfold unit_in. split; [apply Rmult_le_pos; [lra|apply Rlt_le, Rinv_0_lt_compat; lra]|]. apply (Rmult_le_reg_r R); [assumption|]. unfold Rdiv. rewrite Rmult_assoc, Rinv_l; lra. }
  split; cbn [tex_coord ring_vertex x2 y2 vx vz]; apply lerp_in; try assumption; try apply flip_in; apply G; try assumption; try apply SIN_bound; try apply COS_bound; lra.
Qed.
Lemma in_tube_verts f U V v : In v (tube_verts f U V) -> exists i j, (i < U)%nat /\ (j < V)%nat /\ v = f i j.
Proof.
  unfold tube_verts. intros X. apply in_flat_map in X. destruct X as (i & Hi & X). apply in_map_iff in X. destruct X as (j & <- & Hj).
  apply in_seq in Hi, Hj. exists i, j. repeat split; lia.
Qed.
Lemma ratio_in i n : (i < n)%nat -> (2 <= n)%nat -> unit_in (INR i / INR (n - 1)).
Proof.
  intros Hi Hn. assert (P : 0 < INR (n - 1)) by (apply lt_0_INR; lia). assert (INR i <= INR (n - 1)) by (apply le_INR; lia). pose proof (pos_INR i).
  unfold unit_in. split; [apply Rmult_le_pos; [assumption|apply Rlt_le, Rinv_0_lt_compat, P]|]. apply (Rmult_le_reg_r (INR (n - 1))); [assumption|]. unfold Rdiv. rewrite Rmult_assoc, Rinv_l; lra.
Qed.
Lemma curve_tex d v : In v (flat_map pv (curve_pieces d)) -> in_image v.
Proof.
  unfold curve_pieces. cbn zeta. destruct (cv_curve d) as [f|]; cbn [flat_map pv]; [|intros []]. rewrite app_nil_r. intros X. apply in_tube_verts in X. destruct X as (i & j & Hi & Hj & ->).
  split; cbn [tex_coord curve_vertex x2 y2]; apply ratio_in; lia.
Qed.

Theorem image_holds d m m' v : valid d -> fitted d -> generate d m = Ok m' -> In v (new_vertices m m') -> in_image v.
Proof.
  intros W F G H. rewrite (generate_result _ _ _ W G), new_vertices_result in H.
  destruct d; cbn [pieces fitted] in *; try contradiction F; try (now apply curve_tex in H); apply in_flat_map in H; destruct H as (p & Hp & Hv).
  - unfold cuboid_pieces in Hp. cbn zeta in Hp. in_pieces Hp; subst p; cbn [pv] in Hv; apply in_grid_verts in Hv; destruct Hv as (i & j & Hi & Hj & ->);
      (split; cbn [tex_coord face_vertex x2 y2]; [apply frac_bounds; lia|apply (flip_in true); apply frac_bounds; lia]).
  - unfold ellipsoid_pieces in Hp. cbn zeta in Hp. in_pieces Hp; subst p; cbn [pv] in Hv; apply in_grid_verts in Hv; destruct Hv as (i & j & Hi & Hj & ->).
    split; apply frac_bounds; lia.
  - unfold cone_pieces in Hp. cbn zeta in Hp. in_pieces Hp; subst p; [|eapply disc_tex; [|exact Hv]; assumption]. cbn [pv] in Hv. apply in_cone_verts in Hv.
    destruct Hv as [(i & Hi & ->)|(i & j & Hi & Hj & ->)]; (split; cbn [tex_coord cone_tip cone_vertex x2 y2]; [apply frac_rev_in; lia|]); [lra|apply frac_bounds; lia].
  - unfold cylinder_pieces in Hp. cbn zeta in Hp. in_pieces Hp; subst p; [eapply mantle_tex; [| |exact Hv]; lia|eapply disc_tex; [|exact Hv]; assumption|eapply disc_tex; [|exact Hv]; assumption].
  - unfold pie_pieces in Hp. cbn zeta in Hp. in_pieces Hp; subst p.
    + eapply mantle_tex; [| |exact Hv]; lia.
    + eapply wall_tex; [| | |exact Hv]; [lia|lia|now left].
    + eapply wall_tex; [| | |exact Hv]; [lia|lia|now right].
    + eapply disc_tex; [|exact Hv]; assumption.
    + eapply disc_tex; [|exact Hv]; assumption.
  - unfold pipe_pieces in Hp. cbn zeta in Hp. in_pieces Hp; subst p.
    + eapply mantle_tex; [| |exact Hv]; lia.
    + eapply mantle_tex; [| |exact Hv]; lia.
    + eapply ring_tex; [| |exact Hv]; assumption.
    + eapply ring_tex; [| |exact Hv]; assumption.
  - unfold capsule_pieces in Hp. cbn zeta in Hp. in_pieces Hp; subst p; [eapply mantle_tex; [| |exact Hv]; lia| |].
    all: cbn [pv] in Hv; apply in_grid_verts in Hv; destruct Hv as (i & j & Hi & Hj & ->); split; apply frac_bounds; lia.
  - unfold bezier_pieces in Hp. cbn zeta in Hp. in_pieces Hp; subst p. cbn [pv] in Hv. apply in_grid_verts in Hv. destruct Hv as (i & j & Hi & Hj & ->).
    destruct (bezier_vertex d _ _ i j) as [w|] eqn:E; [|split; cbn; lra]. unfold bezier_vertex in E.
    destruct (patch_eval (bp_patch d) _ _); [|discriminate]. destruct (patch_eval (bp_patch d) _ _); [|discriminate]. destruct (patch_eval (bp_patch d) _ _); [|discriminate].
    set (Hn := Nat.max 1 (bp_u d)) in *. set (Vn := Nat.max 1 (bp_v d)) in *. assert (0 < Hn)%nat by (unfold Hn; lia). assert (0 < Vn)%nat by (unfold Vn; lia).
    injection E as <-. destruct (bp_back d); (split; cbn [tex_coord x2 y2]; [now apply frac_bounds|]); [|apply (flip_in true)]; now apply frac_bounds.
Qed.
(** Tori use the image left of the origin. *)
Theorem torus_image_holds d m m' v : valid (DTorus d) -> generate (DTorus d) m = Ok m' -> In v (new_vertices m m') ->
  -1 <= x2 (tex_coord v) <= 0 /\ 0 <= y2 (tex_coord v) <= 1.
Proof.
  intros W G H. rewrite (generate_result _ _ _ W G), new_vertices_result in H. cbn [pieces] in H. apply in_flat_map in H. destruct H as (p & Hp & Hv).
  unfold torus_pieces in Hp. cbn zeta in Hp. in_pieces Hp. subst p. cbn [pv] in Hv. apply in_grid_verts in Hv. destruct Hv as (i & j & Hi & Hj & ->).
  cbn [tex_coord torus_vertex x2 y2]. pose proof (frac_bounds j (Nat.max 3 (to_u d)) Hj ltac:(lia)). pose proof (frac_bounds i (Nat.max 3 (to_v d)) Hi ltac:(lia)). lra.
Qed.

(** ** Not mirrored *)
Definition pos_area (t : vertex * vertex * vertex) : Prop := 0 < image_area t.
Definition tvec (v : vertex) (x y : R) : Prop := tex_coord v = V2 x y.
Definition uv_trap (flip : bool) (a b c d : vertex) : Prop := exists x y ex ey mx my r r',
  0 < r /\ 0 < r' /\ tvec a x y /\ tvec b (x + r * ex) (y + r * ey) /\ tvec d (x + mx) (y + my) /\ tvec c (x + mx + r' * ex) (y + my + r' * ey) /\
  0 < (if flip then -1 else 1) * (ex * my - ey * mx).
Ltac area r := unfold pos_area, image_area; repeat match goal with H : tvec ?v _ _ |- context [tex_coord ?v] => rewrite H end; cbn [x2 y2];
  match goal with H : 0 < ?k * ?dt |- 0 < ?z => replace z with (r * (k * dt)); [now apply Rmult_lt_0_compat|ring] end.
Lemma uv_fwd ac a b c d : uv_trap false a b c d -> Forall pos_area (cut ac a b c d).
Proof.
  intros (x & y & ex & ey & mx & my & r & r' & P & P' & A & B & D & C & K). unfold cut. destruct ac; repeat apply Forall_cons; try apply Forall_nil; [area r|area r'|area r|area r'].
Qed.
Lemma uv_rev ac a b c d : uv_trap true a b c d -> Forall pos_area (cut ac b a d c).
Proof.
  intros (x & y & ex & ey & mx & my & r & r' & P & P' & A & B & D & C & K). unfold cut. destruct ac; repeat apply Forall_cons; try apply Forall_nil; [area r|area r'|area r|area r'].
Qed.
Definition uv_cell (f : nat -> nat -> vertex) (o : order) (i j : nat) : Prop :=
  match o with
  | O0 => uv_trap false (f i j) (f (i + 1)%nat j) (f (i + 1)%nat (j + 1)%nat) (f i (j + 1)%nat)
  | O1 => uv_trap true (f i j) (f (i + 1)%nat j) (f (i + 1)%nat (j + 1)%nat) (f i (j + 1)%nat)
  | O2 => uv_trap false (f i j) (f i (j + 1)%nat) (f (i + 1)%nat (j + 1)%nat) (f (i + 1)%nat j)
  | O3 => uv_trap true (f i j) (f i (j + 1)%nat) (f (i + 1)%nat (j + 1)%nat) (f (i + 1)%nat j)
  end.
Lemma cell_areas f o ac i j : uv_cell f o i j -> Forall pos_area (map (tmap (fun l => f (fst l) (snd l))) (cell o ac i j)).
Proof. destruct o; cbn [cell uv_cell]; rewrite map_cut; cbn [fst snd]; [apply uv_fwd|apply uv_rev|apply uv_fwd|apply uv_rev]. Qed.
Definition sign_of (o : order) : R := match o with O0 | O3 => 1 | O1 | O2 => -1 end.

(** Coordinates that are affine in the labels *)
Definition affine (f : nat -> nat -> vertex) (M C : nat) (ax bx cx ay by_ cy : R) : Prop :=
  forall i j, (i <= M)%nat -> (j <= C)%nat -> tvec (f i j) (ax + bx * INR i + cx * INR j) (ay + by_ * INR i + cy * INR j).
Lemma affine_cell f M C ax bx cx ay by_ cy o i j : affine f M C ax bx cx ay by_ cy -> 0 < sign_of o * (bx * cy - by_ * cx) -> (i < M)%nat -> (j < C)%nat -> uv_cell f o i j.
Proof.
  intros A S Hi Hj. pose proof (A i j ltac:(lia) ltac:(lia)) as T0. pose proof (A (i + 1)%nat j ltac:(lia) ltac:(lia)) as T1.
  pose proof (A i (j + 1)%nat ltac:(lia) ltac:(lia)) as T2. pose proof (A (i + 1)%nat (j + 1)%nat ltac:(lia) ltac:(lia)) as T3. rewrite !plus_INR in *. cbn [INR] in *.
  destruct o; cbn [uv_cell sign_of] in *;
    (eexists _, _; first [exists bx, by_, cx, cy, 1, 1; unfold tvec in *; repeat split; [lra|lra|eassumption|rewrite T1; f_equal; ring|rewrite T2; f_equal; ring|rewrite T3; f_equal; ring|lra]
                         |exists cx, cy, bx, by_, 1, 1; unfold tvec in *; repeat split; [lra|lra|eassumption|rewrite T2; f_equal; ring|rewrite T1; f_equal; ring|rewrite T3; f_equal; ring|lra]]).
Qed.
Lemma grid_affine f M C ax bx cx ay by_ cy o ac : affine f M C ax bx cx ay by_ cy -> 0 < sign_of o * (bx * cy - by_ * cx) ->
  Forall pos_area (map (tmap (fun l => f (fst l) (snd l))) (grid o ac M C)).
Proof.
  intros A S. apply Forall_map_flat. intros i Hi. apply Forall_map_flat. intros j Hj. apply in_seq in Hi, Hj. apply cell_areas. apply (affine_cell f M C ax bx cx ay by_ cy); try assumption; lia.
Qed.
Lemma cone_affine f H V ax bx cx ay by_ cy ac : (0 < V)%nat -> affine f H V ax bx cx ay by_ cy -> bx * cy - by_ * cx < 0 ->
  Forall pos_area (map (tmap (fun l => f (fst l) (snd l))) (cone_fan ac H V)).
Proof.
  intros P A S. apply Forall_map_flat. intros i Hi. apply in_seq in Hi. cbn [map]. apply Forall_cons.
  - pose proof (A i 0%nat ltac:(lia) ltac:(lia)) as T0. pose proof (A i 1%nat ltac:(lia) ltac:(lia)) as T1. pose proof (A (i + 1)%nat 1%nat ltac:(lia) ltac:(lia)) as T2. rewrite plus_INR in T2.
    unfold pos_area, image_area. cbn [tmap fst snd]. rewrite T0, T1, T2. cbn [x2 y2 INR]. lra.
  - apply Forall_map_flat. intros j Hj. apply in_seq in Hj. apply cell_areas. apply (affine_cell f H V ax bx cx ay by_ cy); try assumption; try lia. cbn [sign_of]. lra.
Qed.
(** Covers show a circle of the image. *)
Lemma disc_areas f (up : bool) ac start step H K : (0 < K)%nat -> 0 < sin step ->
  (forall i j, (j <= K)%nat -> tvec (f i j) (1 / 2 + sin (at_angle start step i) * (1 / 2) * frac j K) (1 / 2 + (if up then -1 else 1) * (cos (at_angle start step i) * (1 / 2) * frac j K))) ->
  Forall pos_area (map (tmap (fun l => f (fst l) (snd l))) (disc up ac H K)).
Proof.
  intros P S T. pose proof (inv_pos K P) as IK. apply Forall_map_flat. intros i Hi. apply in_seq in Hi. cbn [map]. apply Forall_cons.
  - pose proof (T 0%nat 0%nat ltac:(lia)) as T0. pose proof (T i 1%nat ltac:(lia)) as T1. pose proof (T (i + 1)%nat 1%nat ltac:(lia)) as T2.
    unfold pos_area, image_area. rewrite frac0 in T0. assert (0 < 1 / 4 * (frac 1 K * frac 1 K) * sin step) as G by (unfold frac; cbn [INR]; products; lra).
    rewrite <- (turn_det (at_angle start step i) step) in G. rewrite angle_next in T2. destruct up; cbn [tmap fst snd]; rewrite T0, T1, T2; cbn [x2 y2]; lra.
  - apply Forall_map_flat. intros j Hj. apply in_seq in Hj. apply cell_areas. pose proof (T i j ltac:(lia)) as T0. pose proof (T (i + 1)%nat j ltac:(lia)) as T1.
    pose proof (T i (j + 1)%nat ltac:(lia)) as T2. pose proof (T (i + 1)%nat (j + 1)%nat ltac:(lia)) as T3. rewrite angle_next in *. rewrite (frac_next j) in *.
    assert (F : 0 < frac j K). { unfold frac. apply Rmult_lt_0_compat; [apply lt_0_INR; lia|assumption]. }
    assert (G : 0 < 1 / 4 * (1 / INR K) * sin step) by (products; lra). rewrite <- (turn_det (at_angle start step i) step) in G.
    set (s := sin (at_angle start step i)) in *. set (c := cos (at_angle start step i)) in *. set (s' := sin (at_angle start step i + step)) in *. set (c' := cos (at_angle start step i + step)) in *.
    destruct up; cbn [uv_cell]; eexists _, _.
    + exists (1 / 2 * (s' - s)), (- (1 / 2) * (c' - c)), (1 / 2 * s * (1 / INR K)), (- (1 / 2) * c * (1 / INR K)), (frac j K), (frac j K + 1 / INR K). unfold tvec in *.
      repeat split; [assumption|lra|exact T0|rewrite T1; f_equal; ring|rewrite T2; f_equal; ring|rewrite T3; f_equal; ring|lra].
    + exists (1 / 2 * (s' - s)), (1 / 2 * (c' - c)), (1 / 2 * s * (1 / INR K)), (1 / 2 * c * (1 / INR K)), (frac j K), (frac j K + 1 / INR K). unfold tvec in *.
      repeat split; [assumption|lra|exact T0|rewrite T1; f_equal; ring|rewrite T2; f_equal; ring|rewrite T3; f_equal; ring|lra].
Qed.

Definition patch_upright (p : mesh_patch) : Prop := Forall pos_area (map (tmap (p_at p)) (p_tris p)).
Lemma surface_upright d : Forall patch_upright (patches d) -> Forall pos_area (surface d).
Proof. unfold surface. induction 1 as [|p ps P _ IH]; cbn [flat_map]; [apply Forall_nil|]. apply Forall_app. now split. Qed.
Lemma when_upright b p : (b = true -> patch_upright p) -> Forall patch_upright (when b p).
Proof. intros H. destruct b; cbn [when]; [apply Forall_cons; [now apply H|]|]; apply Forall_nil. Qed.
Lemma frac_of i n : frac i n = 1 / INR n * INR i. Proof. unfold frac. ring. Qed.
Lemma mantle_upright alt start step rx rz half side H V : (0 < H)%nat -> (0 < V)%nat -> patch_upright (mantle_patch alt false start step rx rz half side H V).
Proof.
  intros PH PV. pose proof (inv_pos H PH). pose proof (inv_pos V PV). unfold patch_upright, mantle_patch. cbn [p_tris p_at].
  apply (grid_affine (fun i j => mantle_vertex rx rz half side H V (at_angle start step i) i j) H V 1 (- (1 / INR H)) 0 0 0 (1 / INR V)).
  - intros i j Hi Hj. unfold tvec, mantle_vertex. cbn [tex_coord]. rewrite frac_rev, !frac_of by assumption. f_equal; ring.
  - cbn [sign_of]. assert (0 < 1 / INR H * (1 / INR V)) by products. lra.
Qed.
Lemma disc_upright alt up start step rx rz y side H K : 0 < sin step -> (0 <? K)%nat = true -> patch_upright (disc_patch alt up start step rx rz y side H K).
Proof.
  intros S PK. apply Nat.ltb_lt in PK. unfold patch_upright, disc_patch. cbn [p_tris p_at].
  apply (disc_areas (fun i j => if (j =? 0)%nat then disc_center y side else disc_vertex rx rz y side up K (at_angle start step i) j) up (diagonal alt) start step H K PK S).
  intros i j Hj. unfold tvec. destruct j as [|j]; cbn [Nat.eqb]; [rewrite frac0|]; cbn [tex_coord disc_center disc_vertex]; [|destruct up]; f_equal; lra.
Qed.
Lemma spiral_upright d up turns phi side V K : (3 <= V)%nat -> (0 <? K)%nat = true -> patch_upright (spiral_patch d up turns phi side V K).
Proof.
  intros S PK. apply Nat.ltb_lt in PK. unfold patch_upright, spiral_patch. cbn [p_tris p_at].
  apply (disc_areas (fun i j => if (j =? 0)%nat then spiral_center d turns phi side else spiral_cover_vertex d turns phi side up K (at_angle 0 (1 / INR V * pi_2) i) j) up _ 0 (1 / INR V * pi_2) V K PK).
  - now apply sin_full.
  - intros i j Hj. unfold tvec. destruct j as [|j]; cbn [Nat.eqb]; [rewrite frac0|]; cbn [tex_coord spiral_center spiral_cover_vertex]; [|destruct up]; f_equal; lra.
Qed.
Lemma face_upright alt rot sh sv z H V : (0 < H)%nat -> (0 < V)%nat -> patch_upright (face_patch alt rot sh sv z H V).
Proof.
  intros PH PV. pose proof (inv_pos H PH). pose proof (inv_pos V PV). unfold patch_upright, face_patch. cbn [p_tris p_at].
  apply (grid_affine (fun i j => face_vertex rot sh sv (z / 2) H V i j) V H 0 0 (1 / INR H) 1 (- (1 / INR V)) 0).
  - intros i j Hi Hj. unfold tvec, face_vertex. cbn [tex_coord]. rewrite !frac_of. f_equal; ring.
  - cbn [sign_of]. assert (0 < 1 / INR H * (1 / INR V)) by products. lra.
Qed.
(** x along the columns, y along the rows *)
Lemma rows_upright f o ac M C k : (0 < M)%nat -> (0 < C)%nat -> (forall i j, tvec (f i j) (k * frac j C) (frac i M)) -> 0 < - k * sign_of o ->
  Forall pos_area (map (tmap (fun l => f (fst l) (snd l))) (grid o ac M C)).
Proof.
  intros PM PC T S. pose proof (inv_pos M PM). pose proof (inv_pos C PC). apply (grid_affine f M C 0 0 (k * (1 / INR C)) 0 (1 / INR M) 0).
  - intros i j Hi Hj. unfold tvec. rewrite T, !frac_of. f_equal; ring.
  - replace (_ * _) with ((1 / INR M * (1 / INR C)) * (- k * sign_of o)) by ring. products.
Qed.

Theorem upright_surface d : defined d -> upright d -> Forall pos_area (surface d).
Proof.
  intros DF U. apply surface_upright. pose proof PI_RGT_0. destruct d; cbn [upright] in U; cbn [patches]; try (now destruct U).
  - repeat (apply Forall_cons; [apply face_upright; lia|]). apply Forall_nil.
  - apply Forall_cons; [|apply Forall_nil]. apply (rows_upright (fun i j => ellipsoid_vertex d _ _ i j) O2 _ _ _ 1); [lia|lia| |cbn; lra].
    intros. unfold tvec, ellipsoid_vertex. cbn [tex_coord]. f_equal; ring.
  - pose proof (inv_pos (Nat.max 3 (co_u d)) ltac:(lia)). pose proof (inv_pos (Nat.max 1 (co_v d)) ltac:(lia)). apply Forall_cons; [|apply when_upright; intros K; apply disc_upright; [apply sin_full; lia|assumption]].
    unfold patch_upright. cbn [p_tris p_at]. set (Hn := Nat.max 3 (co_u d)) in *. set (Vn := Nat.max 1 (co_v d)) in *.
    apply (cone_affine (fun i j => if (j =? 0)%nat then cone_tip (co_height d * (1 / 2)) Hn i else cone_vertex d (co_height d * (1 / 2)) Hn Vn (at_angle 0 (1 / INR Hn * pi_2) i) i j)
      Hn Vn 1 (- (1 / INR Hn)) 0 0 0 (1 / INR Vn)); [unfold Vn; lia| |].
    + intros i j Hi Hj. unfold tvec. destruct j as [|j]; cbn [Nat.eqb]; cbn [tex_coord cone_tip cone_vertex]; rewrite frac_rev, ?frac_of by (assumption || (unfold Hn; lia)); cbn [INR]; f_equal; ring.
    + assert (0 < 1 / INR Hn * (1 / INR Vn)) by products. lra.
  - apply Forall_cons; [apply mantle_upright; lia|]. apply Forall_app. split; apply when_upright; intros K; (apply disc_upright; [apply sin_full; lia|assumption]).
  - assert (S : 0 < sin (1 / INR (Nat.max 3 (pi_u d)) * (pi_2 - clampR (pi_angle d) 0 pi_2))).
    { apply sin_part2; [lia|]. unfold clampR, pi_2. destruct (Rltb (pi_angle d) 0) eqn:E1; [lra|]. destruct (Rltb (PI * 2) (pi_angle d)) eqn:E2; [apply Rltb_iff in E2; lra|].
      assert (~ pi_angle d < 0) by (intros X; apply Rltb_iff in X; congruence). lra. }
    pose proof (inv_pos (Nat.max 1 (pi_cover d)) ltac:(lia)). pose proof (inv_pos (Nat.max 1 (pi_v d)) ltac:(lia)).
    assert (0 < 1 / INR (Nat.max 1 (pi_cover d)) * (1 / INR (Nat.max 1 (pi_v d)))) by products.
    apply Forall_cons; [apply mantle_upright; lia|]. apply Forall_cons; [|apply Forall_cons; [|apply Forall_app; split; apply when_upright; intros K; now apply disc_upright]].
    + apply (grid_affine (fun i j => wall_vertex _ _ _ _ _ 1 (-1) _ _ i j) _ _ 1 (- (1 / INR (Nat.max 1 (pi_cover d)))) 0 0 0 (1 / INR (Nat.max 1 (pi_v d)))); [|cbn [sign_of]; lra].
      intros i j Hi Hj. unfold tvec, wall_vertex. cbn [tex_coord]. rewrite !frac_of. f_equal; ring.
    + apply (grid_affine (fun i j => wall_vertex _ _ _ _ _ 0 1 _ _ i j) _ _ 0 (1 / INR (Nat.max 1 (pi_cover d))) 0 0 0 (1 / INR (Nat.max 1 (pi_v d)))); [|cbn [sign_of]; lra].
      intros i j Hi Hj. unfold tvec, wall_vertex. cbn [tex_coord]. rewrite !frac_of. f_equal; ring.
  - apply Forall_cons; [apply mantle_upright; lia|].
    assert (CAP : forall sg, patch_upright (mkPatch (grid O2 (diagonal (ca_alt d)) (Nat.max 2 (ca_cap d)) (Nat.max 3 (ca_u d)))
      (fun l => cap_vertex d (ca_height d * (1 / 2)) sg (Nat.max 3 (ca_u d)) (Nat.max 2 (ca_cap d)) (fst l) (snd l)))).
    { intros sg. apply (rows_upright (fun i j => cap_vertex d _ sg _ _ i j) O2 _ _ _ 1); [lia|lia| |cbn; lra]. intros. unfold tvec, cap_vertex. cbn [tex_coord]. f_equal; ring. }
    apply Forall_cons; [apply CAP|]. apply Forall_cons; [apply CAP|]. apply Forall_nil.
  - apply Forall_cons; [|apply Forall_nil]. apply (rows_upright (fun i j => torus_vertex d _ _ i j) O3 _ _ _ (-1)); [lia|lia| |cbn; lra].
    intros. unfold tvec, torus_vertex. cbn [tex_coord]. f_equal; ring.
  - apply Forall_cons; [|apply Forall_app; split; apply when_upright; intros K; (apply spiral_upright; [lia|assumption])].
    pose proof (inv_pos (Nat.max 3 (sp_u d)) ltac:(lia)). pose proof (inv_pos (Nat.max 3 (sp_v d)) ltac:(lia)).
    apply (grid_affine (fun i j => spiral_vertex d _ _ _ i j) _ _ 0 0 (- (1 / INR (Nat.max 3 (sp_u d)))) 0 (1 / INR (Nat.max 3 (sp_v d))) 0).
    + intros i j Hi Hj. unfold tvec, spiral_vertex. cbn [tex_coord]. rewrite !frac_of. f_equal; ring.
    + cbn [sign_of]. assert (0 < 1 / INR (Nat.max 3 (sp_u d)) * (1 / INR (Nat.max 3 (sp_v d)))) by products. lra.
  - apply Forall_cons; [|apply Forall_nil]. pose proof (inv_pos (Nat.max 1 (bp_u d)) ltac:(lia)). pose proof (inv_pos (Nat.max 1 (bp_v d)) ltac:(lia)).
    assert (0 < 1 / INR (Nat.max 1 (bp_u d)) * (1 / INR (Nat.max 1 (bp_v d)))) by products.
    assert (T : forall i j, (i <= Nat.max 1 (bp_v d))%nat -> (j <= Nat.max 1 (bp_u d))%nat ->
      tvec (match bezier_vertex d (Nat.max 1 (bp_u d)) (Nat.max 1 (bp_v d)) i j with Some v => v | None => no_vertex end)
        (frac j (Nat.max 1 (bp_u d))) (if bp_back d then frac i (Nat.max 1 (bp_v d)) else 1 - frac i (Nat.max 1 (bp_v d)))).
    { intros i j Hi Hj. specialize (DF i j Hi Hj). destruct (bezier_vertex d _ _ i j) as [w|] eqn:E; [|congruence]. unfold bezier_vertex in E.
      destruct (patch_eval (bp_patch d) _ _); [|discriminate]. destruct (patch_eval (bp_patch d) _ _); [|discriminate]. destruct (patch_eval (bp_patch d) _ _); [|discriminate].
      injection E as <-. unfold tvec. destruct (bp_back d); reflexivity. }
    destruct (bp_back d).
    + apply (grid_affine (fun i j => match bezier_vertex d (Nat.max 1 (bp_u d)) (Nat.max 1 (bp_v d)) i j with Some v => v | None => no_vertex end) _ _
        0 0 (1 / INR (Nat.max 1 (bp_u d))) 0 (1 / INR (Nat.max 1 (bp_v d))) 0); [|cbn [sign_of]; lra].
      intros i j Hi Hj. unfold tvec. rewrite (T i j Hi Hj), !frac_of. f_equal; ring.
    + apply (grid_affine (fun i j => match bezier_vertex d (Nat.max 1 (bp_u d)) (Nat.max 1 (bp_v d)) i j with Some v => v | None => no_vertex end) _ _
        0 0 (1 / INR (Nat.max 1 (bp_u d))) 1 (- (1 / INR (Nat.max 1 (bp_v d)))) 0); [|cbn [sign_of]; lra].
      intros i j Hi Hj. unfold tvec. rewrite (T i j Hi Hj), !frac_of. f_equal; ring.
Qed.

(** Covers of pipes show a ring of the image. *)
Lemma ring_areas f (up : bool) ac step k H K : (0 < K)%nat -> 0 < sin step -> 0 < k < 1 ->
  (forall i j, (j <= K)%nat -> tvec (f i j) (1 / 2 + sin (at_angle 0 step i) * (1 / 2) * (k + (1 - k) * frac j K))
     (1 / 2 + (if up then -1 else 1) * (cos (at_angle 0 step i) * (1 / 2) * (k + (1 - k) * frac j K)))) ->
  Forall pos_area (map (tmap (fun l => f (fst l) (snd l))) (grid (if up then O1 else O0) ac H K)).
Proof.
  intros P S B T. pose proof (inv_pos K P) as IK. apply Forall_map_flat. intros i Hi. apply Forall_map_flat. intros j Hj. apply in_seq in Hi, Hj. apply cell_areas.
  pose proof (T i j ltac:(lia)) as T0. pose proof (T (i + 1)%nat j ltac:(lia)) as T1.
  pose proof (T i (j + 1)%nat ltac:(lia)) as T2. pose proof (T (i + 1)%nat (j + 1)%nat ltac:(lia)) as T3. rewrite angle_next in *. rewrite (frac_next j) in *.
  assert (F : 0 <= frac j K). { unfold frac. apply Rmult_le_pos; [apply pos_INR|lra]. }
  assert (F1 : 0 < k + (1 - k) * frac j K) by nra. assert (F2 : 0 < k + (1 - k) * (frac j K + 1 / INR K)) by nra.
  assert (G : 0 < 1 / 4 * (1 / INR K) * (1 - k) * sin step) by (products; lra). rewrite <- (turn_det (at_angle 0 step i) step) in G.
  set (s := sin (at_angle 0 step i)) in *. set (c := cos (at_angle 0 step i)) in *. set (s' := sin (at_angle 0 step i + step)) in *. set (c' := cos (at_angle 0 step i + step)) in *.
  destruct up; cbn [uv_cell]; eexists _, _.
  + exists (1 / 2 * (s' - s)), (- (1 / 2) * (c' - c)), (1 / 2 * s * (1 / INR K) * (1 - k)), (- (1 / 2) * c * (1 / INR K) * (1 - k)), (k + (1 - k) * frac j K), (k + (1 - k) * (frac j K + 1 / INR K)).
    unfold tvec in *. repeat split; [assumption|lra|exact T0|rewrite T1; f_equal; ring|rewrite T2; f_equal; ring|rewrite T3; f_equal; ring|lra].
  + exists (1 / 2 * (s' - s)), (1 / 2 * (c' - c)), (1 / 2 * s * (1 / INR K) * (1 - k)), (1 / 2 * c * (1 / INR K) * (1 - k)), (k + (1 - k) * frac j K), (k + (1 - k) * (frac j K + 1 / INR K)).
    unfold tvec in *. repeat split; [assumption|lra|exact T0|rewrite T1; f_equal; ring|rewrite T2; f_equal; ring|rewrite T3; f_equal; ring|lra].
Qed.
Lemma ring_upright d up y side r rr H K : 0 < r < rr -> pp_inner d = V2 r r -> pp_outer d = V2 rr rr -> (3 <= H)%nat -> (0 <? K)%nat = true ->
  patch_upright (ring_patch d up (1 / INR H * pi_2) y side H K).
Proof.
  intros B I1 E1 PH PK. apply Nat.ltb_lt in PK. unfold patch_upright, ring_patch. cbn [p_tris p_at].
  assert (Q : 0 < r / rr < 1). { split; [apply Rmult_lt_0_compat; [lra|apply Rinv_0_lt_compat; lra]|]. apply (Rmult_lt_reg_r rr); [lra|]. unfold Rdiv. rewrite Rmult_assoc, Rinv_l; lra. }
  apply (ring_areas (fun i j => ring_vertex d y side up K (at_angle 0 (1 / INR H * pi_2) i) j) up (diagonal (pp_alt d)) (1 / INR H * pi_2) (r / rr) H K PK); [now apply sin_full|assumption|].
  intros i j Hj. unfold tvec, ring_vertex. cbn [tex_coord]. rewrite I1, E1. cbn [x2 y2 vx vz]. unfold lerp. destruct up; f_equal; field; lra.
Qed.

(** The inner mantle *)
Lemma rev_cell ac H V i j t f : (forall a b, (a <= H)%nat -> (b <= V)%nat -> tvec (f a b) (frac (H - a) H) (frac b V)) -> (0 < H)%nat -> (0 < V)%nat -> (i < H)%nat -> (j < V)%nat ->
  In t (map (tmap (fun l => f (fst l) (snd l))) (cell O0 ac i j)) -> image_area t < 0.
Proof.
  intros T PH PV Hi Hj X. pose proof (inv_pos H PH). pose proof (inv_pos V PV). assert (0 < 1 / INR H * (1 / INR V)) by products.
  pose proof (T i j ltac:(lia) ltac:(lia)) as T0. pose proof (T (i + 1)%nat j ltac:(lia) ltac:(lia)) as T1.
  pose proof (T i (j + 1)%nat ltac:(lia) ltac:(lia)) as T2. pose proof (T (i + 1)%nat (j + 1)%nat ltac:(lia) ltac:(lia)) as T3.
  rewrite frac_rev, ?frac_next in T0, T1, T2, T3 by (assumption || lia). unfold cell, cut in X.
  destruct (ac i j); cbn [map tmap fst snd In] in X; destruct X as [<-|[<-|[]]]; unfold image_area; rewrite ?T0, ?T1, ?T2, ?T3; cbn [x2 y2]; rewrite !frac_next; lra.
Qed.
Lemma mantle_mirrored alt start step rx rz half side H V t : (0 < H)%nat -> (0 < V)%nat ->
  In t (map (tmap (p_at (mantle_patch alt true start step rx rz half side H V))) (p_tris (mantle_patch alt true start step rx rz half side H V))) -> image_area t < 0.
Proof.
  intros PH PV X. unfold mantle_patch in X. cbn [p_tris p_at] in X. unfold grid in X. apply in_map_iff in X. destruct X as (l & <- & X). apply in_flat_map in X. destruct X as (i & Hi & X).
  apply in_flat_map in X. destruct X as (j & Hj & X). apply in_seq in Hi, Hj.
  apply (rev_cell (diagonal alt) H V i j _ (fun i j => mantle_vertex rx rz half side H V (at_angle start step i) i j)); try assumption; try lia; [intros; reflexivity|].
  exact (in_map (tmap _) _ _ X).
Qed.

Lemma pipe_surface d t : round (DPipe d) -> In t (surface (DPipe d)) ->
  0 < image_area t \/ (image_area t < 0 /\ let '(a, b, c) := t in on_inner d a /\ on_inner d b /\ on_inner d c).
Proof.
  intros (Hh & r & rr & Hr & I1 & E1) X. unfold surface in X. apply in_flat_map in X. destruct X as (p & Hp & X). cbn [patches] in Hp.
  assert (G : patch_upright p \/ p = mantle_patch (pp_alt d) true 0 (1 / INR (Nat.max 3 (pp_u d)) * pi_2) (x2 (pp_inner d)) (y2 (pp_inner d)) (pp_height d * (1 / 2)) (-1) (Nat.max 3 (pp_u d)) (Nat.max 1 (pp_v d))).
  { in_pieces Hp; subst p; [left; apply mantle_upright; lia|now right| |]; left; apply (ring_upright d _ _ _ r rr); try assumption; try lia; now apply Nat.ltb_lt. }
  destruct G as [G| ->]; [left; unfold patch_upright in G; rewrite Forall_forall in G; now apply G|right].
  split; [eapply mantle_mirrored; [| |exact X]; lia|].
  assert (A : forall l, on_inner d (p_at (mantle_patch (pp_alt d) true 0 (1 / INR (Nat.max 3 (pp_u d)) * pi_2) (x2 (pp_inner d)) (y2 (pp_inner d)) (pp_height d * (1 / 2)) (-1) (Nat.max 3 (pp_u d)) (Nat.max 1 (pp_v d))) l)).
  { intros [i j]. unfold mantle_patch. cbn [p_at fst snd]. unfold mantle_vertex, on_inner. cbn zeta. cbn [position normal]. rewrite I1. set (a := at_angle 0 _ i).
    pose proof (sin2_cos2 a) as Q. unfold Rsqr in Q. cbn [vx vz x2 y2]. rewrite normalize_id.
    - cbn [vx vz]. split; [unfold lerp3, lerp; vecs; nra|]. unfold lerp3, lerp; vecs. nra.
    - unfold dot. cbn [vx vy vz]. nra. }
  apply in_map_iff in X. destruct X as (((a & b) & c) & <- & _). cbn [tmap]. repeat split; apply A.
Qed.

(** Tubes around curves *)
Lemma ratio_step i n : INR (i + 1) / INR n = INR i / INR n + 1 / INR n.
Proof. rewrite plus_INR. cbn [INR]. unfold Rdiv. ring. Qed.
Lemma last_ratio n : (2 <= n)%nat -> INR (n - 1) / INR (n - 1) = 1.
Proof. intros H. apply Rinv_r. apply not_0_INR. lia. Qed.
Lemma curve_cell d f U V i j : (3 <= U)%nat -> (3 <= V)%nat -> (i < U)%nat -> (j < V)%nat -> forall ac,
  Forall (fun t => (i + 1 < U)%nat /\ (j + 1 < V)%nat /\ image_area t < 0 \/ across t)
    (map (tmap (fun l => curve_vertex d f U V (fst l) (snd l))) (cut ac (i, j) (i, next V j) (next U i, next V j) (next U i, j))).
Proof.
  intros HU HV Hi Hj ac. pose proof (inv_pos (U - 1) ltac:(lia)) as PU. pose proof (inv_pos (V - 1) ltac:(lia)) as PV. assert (0 < 1 / INR (U - 1) * (1 / INR (V - 1))) by products.
  assert (ABS : forall a b, a - b = 1 \/ b - a = 1 -> Rabs (a - b) = 1).
  { intros a b [E|E]; [rewrite E; apply Rabs_R1|]. rewrite Rabs_minus_sym, E. apply Rabs_R1. }
  unfold next. destruct (Nat.ltb_spec (i + 1) U) as [Li|Li].
  - destruct (Nat.ltb_spec (j + 1) V) as [Lj|Lj].
    + unfold cut. destruct ac; cbn [map tmap fst snd]; repeat apply Forall_cons; try apply Forall_nil; left; (split; [assumption|split; [assumption|]]);
        unfold image_area, curve_vertex; cbn [tex_coord x2 y2]; rewrite ?ratio_step; lra.
    + assert (j = V - 1)%nat by lia. subst j. pose proof (last_ratio V ltac:(lia)) as LR. assert (INR 0 / INR (V - 1) = 0) as L0 by (cbn [INR]; unfold Rdiv; ring).
      unfold cut. destruct ac; cbn [map tmap fst snd]; repeat apply Forall_cons; try apply Forall_nil; right; unfold across, curve_vertex; cbn [tex_coord x2 y2]; rewrite ?LR, ?L0.
      all: first [left; right; apply ABS; lra|right; left; right; apply ABS; lra|right; right; right; apply ABS; lra].
  - assert (i = U - 1)%nat by lia. subst i. pose proof (last_ratio U ltac:(lia)) as LR. assert (INR 0 / INR (U - 1) = 0) as L0 by (cbn [INR]; unfold Rdiv; ring).
    unfold cut. destruct ac; cbn [map tmap fst snd]; repeat apply Forall_cons; try apply Forall_nil; right; unfold across, curve_vertex; cbn [tex_coord x2 y2]; rewrite ?LR, ?L0.
    all: first [left; left; apply ABS; lra|right; left; left; apply ABS; lra|right; right; left; apply ABS; lra].
Qed.
Lemma tube_surface d f t : In t (map (tmap (p_at (tube_patch d f))) (p_tris (tube_patch d f))) -> image_area t < 0 \/ across t.
Proof.
  unfold tube_patch. cbn [p_tris p_at]. unfold tube. intros X. apply in_map_iff in X. destruct X as (l & <- & X). apply in_flat_map in X. destruct X as (i & Hi & X).
  apply in_flat_map in X. destruct X as (j & Hj & X). apply in_seq in Hi, Hj.
  pose proof (curve_cell d f (Nat.max 3 (cv_u d)) (Nat.max 3 (cv_v d)) i j ltac:(lia) ltac:(lia) ltac:(lia) ltac:(lia) (diagonal (cv_alt d) i j)) as C.
  rewrite Forall_forall in C. specialize (C _ (in_map _ _ _ X)). destruct C as [(_ & _ & C)|C]; [now left|now right].
Qed.
Lemma tube_surface_first d f : exists t, In t (map (tmap (p_at (tube_patch d f))) (p_tris (tube_patch d f))) /\ image_area t < 0.
Proof.
  set (U := Nat.max 3 (cv_u d)). set (V := Nat.max 3 (cv_v d)). assert (HU : (3 <= U)%nat) by (unfold U; lia). assert (HV : (3 <= V)%nat) by (unfold V; lia).
  pose proof (curve_cell d f U V 0 0 HU HV ltac:(lia) ltac:(lia) (diagonal (cv_alt d) 0 0)) as C. rewrite Forall_forall in C.
  exists (tmap (fun l => curve_vertex d f U V (fst l) (snd l)) ((0, 0), (0, next V 0), (next U 0, next V 0)))%nat.
  assert (D : diagonal (cv_alt d) 0 0 = true) by (unfold diagonal; cbn; apply orb_true_r).
  assert (I : In ((0, 0), (0, next V 0), (next U 0, next V 0))%nat (cut (diagonal (cv_alt d) 0 0) (0, 0) (0, next V 0) (next U 0, next V 0) (next U 0, 0))%nat)
    by (rewrite D; now left). split.
  - apply in_map. unfold tube_patch. cbn [p_tris]. fold U V. unfold tube. apply in_flat_map. exists 0%nat. split; [apply in_seq; lia|]. apply in_flat_map. exists 0%nat. split; [apply in_seq; lia|]. exact I.
  - pose proof (inv_pos (U - 1) ltac:(lia)) as PU. pose proof (inv_pos (V - 1) ltac:(lia)) as PV. assert (0 < 1 / INR (U - 1) * (1 / INR (V - 1))) by products.
    unfold next. rewrite (proj2 (Nat.ltb_lt (0 + 1) U)), (proj2 (Nat.ltb_lt (0 + 1) V)) by lia. unfold tmap, image_area, curve_vertex. cbn [fst snd tex_coord x2 y2 Nat.add INR].
    unfold Rdiv in *. lra.
Qed.

(** ** The meshes *)
Lemma in_surface d m m' t : valid d -> (Z.of_nat (vertex_count d) <= 2 ^ 32)%Z -> generate d m = Ok m' -> In t (new_triangles m m') -> exists c, corners m' t = Some c /\ In c (surface d).
Proof.
  intros W L G Ht. pose proof (indices_hold d m m' W L G) as E. apply (in_map (corners m')) in Ht. rewrite E in Ht.
  apply in_map_iff in Ht. destruct Ht as (c & Ec & Hc). exists c. split; [now symmetry|assumption].
Qed.
Lemma of_surface d m m' c : valid d -> (Z.of_nat (vertex_count d) <= 2 ^ 32)%Z -> generate d m = Ok m' -> In c (surface d) -> exists t, In t (new_triangles m m') /\ corners m' t = Some c.
Proof.
  intros W L G Hc. pose proof (indices_hold d m m' W L G) as E. apply (in_map Some) in Hc. rewrite <- E in Hc. apply in_map_iff in Hc. destruct Hc as (t & Et & Ht). now exists t.
Qed.
Theorem upright_holds d m m' : valid d -> (Z.of_nat (vertex_count d) <= 2 ^ 32)%Z -> upright d -> generate d m = Ok m' ->
  forall t, In t (new_triangles m m') -> exists c, corners m' t = Some c /\ 0 < image_area c.
Proof.
  intros W L U G t Ht. destruct (in_surface d m m' t W L G Ht) as (c & E & Hc). exists c. split; [assumption|]. destruct (generate_inv _ _ _ G) as [DF _].
  pose proof (upright_surface d DF U) as F. rewrite Forall_forall in F. now apply F.
Qed.
Theorem pipe_upright_holds d m m' : valid (DPipe d) -> (Z.of_nat (vertex_count (DPipe d)) <= 2 ^ 32)%Z -> round (DPipe d) -> generate (DPipe d) m = Ok m' ->
  forall t, In t (new_triangles m m') -> exists a b c, corners m' t = Some (a, b, c) /\
    (0 < image_area (a, b, c) \/ (image_area (a, b, c) < 0 /\ on_inner d a /\ on_inner d b /\ on_inner d c)).
Proof.
  intros W L U G t Ht. destruct (in_surface _ m m' t W L G Ht) as (((a & b) & c) & E & Hc). exists a, b, c. split; [assumption|]. now apply (pipe_surface d (a, b, c)).
Qed.
Theorem curve_mirrored_holds d m m' : valid d -> (Z.of_nat (vertex_count d) <= 2 ^ 32)%Z -> is_curve d -> generate d m = Ok m' ->
  (forall t, In t (new_triangles m m') -> exists c, corners m' t = Some c /\ (image_area c < 0 \/ across c)) /\
  (exists t c, In t (new_triangles m m') /\ corners m' t = Some c /\ image_area c < 0).
Proof.
  intros W L C G. assert (P : exists cd f, patches d = [tube_patch cd f]).
  { destruct d; try contradiction C; [eexists _, _; reflexivity|]. destruct (generate_inv _ _ _ G) as [DF _]. cbn [defined] in DF. cbn [patches]. destruct (cv_curve d) as [f|]; [eexists _, _; reflexivity|congruence]. }
  destruct P as (cd & f & P). assert (S : surface d = map (tmap (p_at (tube_patch cd f))) (p_tris (tube_patch cd f))) by (unfold surface; rewrite P; cbn [flat_map]; apply app_nil_r). split.
  - intros t Ht. destruct (in_surface d m m' t W L G Ht) as (c & E & Hc). exists c. split; [assumption|]. rewrite S in Hc. now apply tube_surface in Hc.
  - destruct (tube_surface_first cd f) as (c & Hc & N). rewrite <- S in Hc. destruct (of_surface d m m' c W L G Hc) as (t & Ht & E). now exists t, c.
Qed.
Lemma torus_outside : exists d, valid (DTorus d) /\ forall m, exists m' v, generate (DTorus d) m = Ok m' /\ In v (new_vertices m m') /\ ~ in_image v.
Proof.
  set (d := mkTorus (V2 2 2) (V3 1 1 1) 3 3 false). exists d. assert (W : valid (DTorus d)) by (intros n; cbn [d segment_counts to_u to_v In]; lia). split; [exact W|]. intros m.
  destruct (succeeds_holds _ m W I ltac:(vm_compute; reflexivity)) as [m' G]. exists m', (torus_vertex d 3 3 0 1). split; [exact G|]. split.
  - rewrite (generate_result _ _ _ W G), new_vertices_result. cbn [pieces torus_pieces flat_map pv]. change (Nat.max 3 (to_u d)) with 3%nat. change (Nat.max 3 (to_v d)) with 3%nat.
    unfold grid_verts. cbn [seq flat_map map app]. right. now left.
  - intros [[A _] _]. unfold torus_vertex in A. cbn [tex_coord x2] in A. unfold frac in A. cbn [INR] in A. lra.
Qed.
Lemma floor_le x j : 0 <= x -> (j <= Z.to_nat (Int_part x))%nat -> INR j <= x.
Proof.
  intros P H. pose proof (base_Int_part x) as [B _]. destruct (Z_le_gt_dec 0 (Int_part x)) as [N|N].
  - apply Rle_trans with (2 := B). rewrite INR_IZR_INZ. apply IZR_le. lia.
  - assert (j = 0)%nat by lia. subst j. exact P.
Qed.
Theorem spiral_image_holds d m m' v : valid (DSpiral d) -> generate (DSpiral d) m = Ok m' -> In v (new_vertices m m') ->
  - Rmax 0 (sp_turns d) <= x2 (tex_coord v) <= 1 /\ 0 <= y2 (tex_coord v) <= 1.
Proof.
  intros W G H. rewrite (generate_result _ _ _ W G), new_vertices_result in H. cbn [pieces] in H. apply in_flat_map in H. destruct H as (p & Hp & Hv).
  unfold spiral_pieces in Hp. cbn zeta in Hp. pose proof (Rmax_l 0 (sp_turns d)) as P.
  assert (COV : forall up turns phi side V K, (0 < K)%nat -> In v (pv (spiral_piece d up turns phi side V K)) -> unit_in (x2 (tex_coord v)) /\ unit_in (y2 (tex_coord v))).
  { intros up turns phi side V K PK X. apply in_disc_verts in X. destruct X as [->|(i & j & Hi & Hj & ->)]; [unfold unit_in; cbn; lra|].
    assert (B : unit_in (frac j K)) by (apply frac_bounds; lia). split; cbn [tex_coord spiral_cover_vertex x2 y2]; [|apply flip_in]; apply half_in; try assumption; apply SIN_bound || apply COS_bound. }
  in_pieces Hp; subst p.
  - cbn [pv] in Hv. apply in_grid_verts in Hv. destruct Hv as (i & j & Hi & Hj & ->). unfold spiral_vertex. cbn [tex_coord x2 y2].
    pose proof (frac_bounds i (Nat.max 3 (sp_v d)) Hi ltac:(lia)). assert (PU : 0 < INR (Nat.max 3 (sp_u d))) by (apply lt_0_INR; lia).
    assert (B : INR j <= Rmax 0 (sp_turns d) * INR (Nat.max 3 (sp_u d))) by (apply floor_le; [apply Rmult_le_pos; lra|exact Hj]).
    assert (frac j (Nat.max 3 (sp_u d)) <= Rmax 0 (sp_turns d)).
    { rewrite frac_of. apply (Rmult_le_reg_r (INR (Nat.max 3 (sp_u d)))); [assumption|]. unfold Rdiv. rewrite Rmult_1_l, Rmult_comm, <- Rmult_assoc, Rinv_r by lra. lra. }
    assert (0 <= frac j (Nat.max 3 (sp_u d))). { rewrite frac_of. apply Rmult_le_pos; [apply Rlt_le, inv_pos; lia|apply pos_INR]. } lra.
  - destruct (COV _ _ _ _ _ _ K Hv) as [A B]. unfold unit_in in *. lra.
  - destruct (COV _ _ _ _ _ _ K Hv) as [A B]. unfold unit_in in *. lra.
Qed.
