(** The vertices of the generated meshes lie on the described surfaces. *)
From Coq Require Import ZArith Reals List Bool Arith Lia Lra.
From Verif Require Import Model.Scalar Model.Vec Model.Aabb Model.Mesh Model.Interp Model.Bezier Model.Transforms Model.MeshGen Spec.MeshGenSpec Spec.SurfaceSpec
  Proofs.VecLemmas Proofs.MeshGenLoops Proofs.MeshGenResult Proofs.MeshGenInv Proofs.MeshGenTotal Proofs.MeshGenMain.
Import ListNotations.
Local Open Scope R_scope.

Lemma in_grid_verts f R C v : In v (grid_verts f R C) -> exists i j, (i <= R)%nat /\ (j <= C)%nat /\ v = f i j.
Proof.
  unfold grid_verts. intros H. apply in_flat_map in H. destruct H as (i & Hi & H). apply in_map_iff in H. destruct H as (j & <- & Hj).
  apply in_seq in Hi, Hj. exists i, j. repeat split; lia.
Qed.
Lemma in_disc_verts c f H K v : In v (disc_verts c f H K) -> v = c \/ exists i j, (i <= H)%nat /\ (1 <= j <= K)%nat /\ v = f i j.
Proof.
  unfold disc_verts. intros [E|X]; [now left|right]. apply in_flat_map in X. destruct X as (i & Hi & X). apply in_map_iff in X. destruct X as (j & <- & Hj).
  apply in_seq in Hi, Hj. exists i, j. repeat split; lia.
Qed.
Lemma in_cone_verts f t H V v : In v (cone_verts f t H V) ->
  (exists i, (i < H)%nat /\ v = t i) \/ exists i j, (i <= H)%nat /\ (1 <= j <= V)%nat /\ v = f i j.
Proof.
  unfold cone_verts. intros X. apply in_flat_map in X. destruct X as (i & Hi & X). apply in_seq in Hi. apply in_app_or in X. destruct X as [X|X].
  - right. apply in_map_iff in X. destruct X as (j & <- & Hj). apply in_seq in Hj. exists i, j. repeat split; lia.
  - left. destruct (Nat.ltb_spec i H); [|destruct X]. destruct X as [<-|[]]. exists i. split; [lia|reflexivity].
Qed.

Lemma frac_bounds i n : (i <= n)%nat -> (0 < n)%nat -> 0 <= frac i n <= 1.
Proof.
  intros H P. unfold frac. assert (0 < INR n) by (apply lt_0_INR; lia). assert (0 <= INR i) by apply pos_INR. assert (INR i <= INR n) by (apply le_INR; lia).
  replace (INR i * (1 / INR n)) with (INR i / INR n) by (unfold Rdiv; ring). split; [apply Rmult_le_pos; [assumption|left; now apply Rinv_0_lt_compat]|].
  apply (Rmult_le_reg_r (INR n)); [assumption|]. unfold Rdiv. rewrite Rmult_assoc, Rinv_l by lra. lra.
Qed.

Lemma within_scale h y k : -1 <= k <= 1 -> y = k * (h / 2) -> within h y.
Proof. intros B ->. unfold within. assert (k ^ 2 <= 1) by nra. assert (0 <= (h / 2) ^ 2) by apply pow2_ge_0. nra. Qed.

Lemma sc2 a : sin a ^ 2 + cos a ^ 2 = 1.
Proof. pose proof (sin2_cos2 a). unfold Rsqr in H. lra. Qed.

Lemma ellipse_angle rx rz a : rx <> 0 -> rz <> 0 -> ellipse rx rz (sin a * rx) (cos a * rz).
Proof. intros. unfold ellipse. replace (sin a * rx / rx) with (sin a) by (field; assumption). replace (cos a * rz / rz) with (cos a) by (field; assumption). apply sc2. Qed.

(** Positions of the parts *)
Lemma mantle_pos rx rz h side H V a u v : (v <= V)%nat -> (0 < V)%nat -> let p := position (mantle_vertex rx rz (h * (1 / 2)) side H V a u v) in
  vx p = sin a * rx /\ vz p = cos a * rz /\ within h (vy p).
Proof.
  intros Hv HV. cbn. repeat split. pose proof (frac_bounds v V Hv HV). unfold lerp. apply (within_scale _ _ (1 - 2 * frac v V)); [lra|]. field.
Qed.
Lemma disc_pos rx rz y side flip K a v : (v <= K)%nat -> (0 < K)%nat -> let p := position (disc_vertex rx rz y side flip K a v) in
  exists k, 0 <= k <= 1 /\ vx p = k * (rx * sin a) /\ vz p = k * (rz * cos a) /\ vy p = y.
Proof.
  intros Hv HK. cbn. exists (frac v K). split; [now apply frac_bounds|]. repeat split; ring.
Qed.
Lemma disc_in rx rz y side flip K a v : rx <> 0 -> rz <> 0 -> (v <= K)%nat -> (0 < K)%nat -> let p := position (disc_vertex rx rz y side flip K a v) in
  ellipse_disc rx rz (vx p) (vz p) /\ vy p = y.
Proof.
  intros X Z Hv HK p. destruct (disc_pos rx rz y side flip K a v Hv HK) as (k & B & E1 & E2 & E3). fold p in E1, E2, E3. split; [|assumption].
  unfold ellipse_disc. rewrite E1, E2. replace (k * (rx * sin a) / rx) with (k * sin a) by (field; assumption).
  replace (k * (rz * cos a) / rz) with (k * cos a) by (field; assumption). pose proof (sc2 a). nra.
Qed.
Lemma center_in rx rz y side : let p := position (disc_center y side) in ellipse_disc rx rz (vx p) (vz p) /\ vy p = y.
Proof. cbn. split; [|reflexivity]. unfold ellipse_disc. replace (0 / rx) with 0 by (unfold Rdiv; ring). replace (0 / rz) with 0 by (unfold Rdiv; ring). lra. Qed.

Lemma in_when {A} b (x y : A) : In x (when b y) -> b = true /\ x = y.
Proof. destruct b; cbn; [intros [->|[]]; split; reflexivity|intros []]. Qed.
Ltac in_pieces H := repeat match type of H with
  | In _ (_ ++ _) => apply in_app_or in H; destruct H as [H|H]
  | In _ (when _ _) => apply in_when in H; let K := fresh "K" in destruct H as [K H]; apply Nat.ltb_lt in K
  | In _ (_ :: _) => destruct H as [H|H]; [symmetry in H|]
  | In _ [] => destruct H
  end.

Lemma rot0 p : rotate qone p = p.
Proof. apply vec3_ext; cbn; ring. Qed.
Lemma rot_y a p : rotate (euler_y a) p = V3 (cos a * vx p + sin a * vz p) (vy p) (cos a * vz p - sin a * vx p).
Proof.
  assert (Hc : cos a = 1 - 2 * (sin (a / 2) * sin (a / 2))) by (replace a with (2 * (a / 2)) at 1 by field; rewrite cos_2a_sin; ring).
  assert (Hs : sin a = 2 * sin (a / 2) * cos (a / 2)) by (replace a with (2 * (a / 2)) at 1 by field; apply sin_2a).
  rewrite Hc, Hs. apply vec3_ext; cbn; ring.
Qed.
Lemma rot_x a p : rotate (euler_x a) p = V3 (vx p) (cos a * vy p - sin a * vz p) (cos a * vz p + sin a * vy p).
Proof.
  assert (Hc : cos a = 1 - 2 * (sin (a / 2) * sin (a / 2))) by (replace a with (2 * (a / 2)) at 1 by field; rewrite cos_2a_sin; ring).
  assert (Hs : sin a = 2 * sin (a / 2) * cos (a / 2)) by (replace a with (2 * (a / 2)) at 1 by field; apply sin_2a).
  rewrite Hc, Hs. apply vec3_ext; cbn; ring.
Qed.
Lemma cos_q : cos pi_0_5 = 0. Proof. unfold pi_0_5. replace (PI * (1 / 2)) with (PI / 2) by field. apply cos_PI2. Qed.
Lemma sin_q : sin pi_0_5 = 1. Proof. unfold pi_0_5. replace (PI * (1 / 2)) with (PI / 2) by field. apply sin_PI2. Qed.
Lemma within_frac s i n : (i <= n)%nat -> (0 < n)%nat -> within s (s * frac i n - s / 2).
Proof. intros A B. pose proof (frac_bounds i n A B). apply (within_scale _ _ (2 * frac i n - 1)); [lra|field]. Qed.
Lemma within_opp h y : within h y -> within h (- y). Proof. unfold within. intros. replace ((- y) ^ 2) with (y ^ 2) by ring. assumption. Qed.
Lemma within_end h y : at_end h y -> within h y. Proof. unfold within, at_end. intros [->| ->]; [lra|]. replace ((- (h / 2)) ^ 2) with ((h / 2) ^ 2) by ring. lra. Qed.

Lemma cuboid_on d v : In v (flat_map pv (cuboid_pieces d)) -> on_cuboid (cu_size d) (position v).
Proof.
  intros X. apply in_flat_map in X. destruct X as (p & Hp & Hv). unfold cuboid_pieces in Hp. cbn zeta in Hp.
  in_pieces Hp; subst p; cbn [pv] in Hv; apply in_grid_verts in Hv; destruct Hv as (i & j & Hi & Hj & ->); unfold on_cuboid, face_vertex; cbn [position];
    rewrite ?rot0, ?rot_x, ?rot_y; cbn [vx vy vz];
    rewrite ?cos_PI, ?sin_PI, ?cos_neg, ?sin_neg, ?cos_q, ?sin_q;
    match type of Hi with (_ <= ?n)%nat => match type of Hj with (_ <= ?k)%nat =>
      pose proof (fun s => within_frac s i n Hi ltac:(lia)) as W1; pose proof (fun s => within_frac s j k Hj ltac:(lia)) as W2 end end.
  all: set (sx := vx (cu_size d)) in *; set (sy := vy (cu_size d)) in *; set (sz := vz (cu_size d)) in *.
  - assert (E : at_end sz (- sz / 2)) by (right; field). repeat split; [apply W2|apply W1|now apply within_end|tauto].
  - match goal with |- _ /\ _ /\ within sz ?z /\ _ => assert (E : at_end sz z) by (left; field); pose proof (within_end _ _ E) end.
    match goal with |- within _ ?x /\ _ => replace x with (- (sx * frac j (Nat.max 1 (cu_x d)) - sx / 2)) by field end.
    repeat split; [apply within_opp, W2|apply W1|assumption|tauto].
  - match goal with |- within _ ?x /\ _ => assert (E : at_end sx x) by (left; field); pose proof (within_end _ _ E) end.
    repeat split; [assumption|apply W1| |tauto].
    match goal with |- within _ ?x => replace x with (sz * frac j (Nat.max 1 (cu_z d)) - sz / 2) by field end. apply W2.
  - match goal with |- within _ ?x /\ _ => assert (E : at_end sx x) by (right; field); pose proof (within_end _ _ E) end.
    repeat split; [assumption|apply W1| |tauto].
    match goal with |- within _ ?x => replace x with (- (sz * frac j (Nat.max 1 (cu_z d)) - sz / 2)) by field end. apply within_opp, W2.
  - match goal with |- _ /\ within sy ?x /\ _ => assert (E : at_end sy x) by (left; field); pose proof (within_end _ _ E) end.
    repeat split; [apply W2|assumption| |tauto].
    match goal with |- within _ ?x => replace x with (sz * frac i (Nat.max 1 (cu_z d)) - sz / 2) by field end. apply W1.
  - match goal with |- _ /\ within sy ?x /\ _ => assert (E : at_end sy x) by (right; field); pose proof (within_end _ _ E) end.
    repeat split; [apply W2|assumption| |tauto].
    match goal with |- within _ ?x => replace x with (- (sz * frac i (Nat.max 1 (cu_z d)) - sz / 2)) by field end. apply within_opp, W1.
Qed.

Lemma sph1 t p : (sin t * cos p) ^ 2 + cos t ^ 2 + (sin t * sin p) ^ 2 = 1.
Proof. pose proof (sc2 t). pose proof (sc2 p). replace ((sin t * cos p) ^ 2 + cos t ^ 2 + (sin t * sin p) ^ 2) with (sin t ^ 2 * (sin p ^ 2 + cos p ^ 2) + cos t ^ 2) by ring. rewrite H0. lra. Qed.

Lemma ellipsoid_on d v : nonzero3 (el_radius d) -> In v (flat_map pv (ellipsoid_pieces d)) -> on_ellipsoid (el_radius d) (position v).
Proof.
  intros (A & B & C) X. apply in_flat_map in X. destruct X as (p & Hp & Hv). unfold ellipsoid_pieces in Hp. cbn zeta in Hp.
  in_pieces Hp; subst p; cbn [pv] in Hv; apply in_grid_verts in Hv; destruct Hv as (i & j & Hi & Hj & ->). unfold on_ellipsoid, ellipsoid_vertex, vmul, spherical; cbn [position vx vy vz].
  rewrite <- (sph1 (frac i (Nat.max 2 (el_v d)) * PI) (frac j (Nat.max 3 (el_u d)) * pi_2)). field. auto.
Qed.

Lemma lt0max n k : (0 < n -> 0 < Nat.max n k)%nat. Proof. lia. Qed.

Lemma cylinder_on d v : nonzero2 (cy_radius d) -> In v (flat_map pv (cylinder_pieces d)) -> on_cylinder (cy_radius d) (cy_height d) (position v).
Proof.
  intros (A & B) X. apply in_flat_map in X. destruct X as (p & Hp & Hv). unfold cylinder_pieces in Hp. cbn zeta in Hp. unfold on_cylinder.
  in_pieces Hp; subst p; cbn [pv mantle_piece disc_piece] in Hv.
  - apply in_grid_verts in Hv. destruct Hv as (i & j & Hi & Hj & ->). left.
    destruct (mantle_pos (x2 (cy_radius d)) (y2 (cy_radius d)) (cy_height d) 1 (Nat.max 3 (cy_u d)) (Nat.max 1 (cy_v d)) (at_angle 0 (1 / INR (Nat.max 3 (cy_u d)) * pi_2) i) i j Hj ltac:(lia)) as (E1 & E2 & E3).
    rewrite E1, E2. split; [now apply ellipse_angle|assumption].
  - right. apply in_disc_verts in Hv. destruct Hv as [->|(i & j & Hi & Hj & ->)].
    + destruct (center_in (x2 (cy_radius d)) (y2 (cy_radius d)) (cy_height d * (1 / 2) * -1) (-1)) as [E1 E2]. split; [assumption|]. rewrite E2. right. field.
    + edestruct disc_in as [E1 E2]; [exact A|exact B| | |split; [exact E1|rewrite E2; right; field]]; lia.
  - right. apply in_disc_verts in Hv. destruct Hv as [->|(i & j & Hi & Hj & ->)].
    + destruct (center_in (x2 (cy_radius d)) (y2 (cy_radius d)) (cy_height d * (1 / 2) * 1) 1) as [E1 E2]. split; [assumption|]. rewrite E2. left. field.
    + edestruct disc_in as [E1 E2]; [exact A|exact B| | |split; [exact E1|rewrite E2; left; field]]; lia.
Qed.

Lemma cone_on d v : nonzero2 (co_radius d) -> co_height d <> 0 -> In v (flat_map pv (cone_pieces d)) -> on_cone (co_radius d) (co_height d) (position v).
Proof.
  intros (A & B) N X. apply in_flat_map in X. destruct X as (p & Hp & Hv). unfold cone_pieces in Hp. cbn zeta in Hp. unfold on_cone.
  in_pieces Hp; subst p; cbn [pv disc_piece] in Hv.
  - apply in_cone_verts in Hv. left. destruct Hv as [(i & Hi & ->)|(i & j & Hi & Hj & ->)].
    + cbn [position cone_tip vx vy vz]. split; [field; auto|]. apply within_end. left. field.
    + cbn [position cone_vertex lerp3 vadd vscale vsub vx vy vz]. pose proof (frac_bounds j (Nat.max 1 (co_v d)) ltac:(lia) ltac:(lia)) as F.
      generalize dependent (frac j (Nat.max 1 (co_v d))). intros t F. generalize (at_angle 0 (1 / INR (Nat.max 3 (co_u d)) * pi_2) i). intros a. split.
      * replace ((co_height d / 2 - (co_height d * (1 / 2) + t * (- (co_height d * (1 / 2)) - co_height d * (1 / 2)))) / co_height d) with t by (field; assumption).
        replace ((0 + t * (sin a * x2 (co_radius d) - 0)) / x2 (co_radius d)) with (t * sin a) by (field; assumption).
        replace ((0 + t * (cos a * y2 (co_radius d) - 0)) / y2 (co_radius d)) with (t * cos a) by (field; assumption).
        replace ((t * sin a) ^ 2 + (t * cos a) ^ 2) with (t ^ 2 * (sin a ^ 2 + cos a ^ 2)) by ring. rewrite sc2. ring.
      * apply (within_scale _ _ (1 - 2 * t)); [lra|field].
  - right. apply in_disc_verts in Hv. destruct Hv as [->|(i & j & Hi & Hj & ->)].
    + destruct (center_in (x2 (co_radius d)) (y2 (co_radius d)) (- (co_height d * (1 / 2))) (-1)) as [E1 E2]. split; [assumption|]. rewrite E2. field.
    + edestruct disc_in as [E1 E2]; [exact A|exact B| | |split; [exact E1|rewrite E2; field]]; lia.
Qed.

Lemma ring_in d y side flip K a v h : 0 < x2 (pp_inner d) -> 0 < y2 (pp_inner d) -> 0 < x2 (pp_outer d) -> 0 < y2 (pp_outer d) -> (v <= K)%nat -> (0 < K)%nat -> at_end h y ->
  let p := position (ring_vertex d y side flip K a v) in
  at_end h (vy p) /\ exists t, 0 <= t <= 1 /\
    ellipse ((1 - t) * x2 (pp_inner d) + t * x2 (pp_outer d)) ((1 - t) * y2 (pp_inner d) + t * y2 (pp_outer d)) (vx p) (vz p).
Proof.
  intros A B C D Hv HK E. cbn. split; [replace (y + frac v K * (y - y)) with y by ring; assumption|].
  pose proof (frac_bounds v K Hv HK) as F. exists (frac v K). split; [assumption|]. generalize dependent (frac v K). intros t F.
  replace (sin a * x2 (pp_inner d) + t * (sin a * x2 (pp_outer d) - sin a * x2 (pp_inner d))) with (sin a * ((1 - t) * x2 (pp_inner d) + t * x2 (pp_outer d))) by ring.
  replace (cos a * y2 (pp_inner d) + t * (cos a * y2 (pp_outer d) - cos a * y2 (pp_inner d))) with (cos a * ((1 - t) * y2 (pp_inner d) + t * y2 (pp_outer d))) by ring.
  apply ellipse_angle; apply Rgt_not_eq.
  - destruct (Rle_dec t (1 / 2)); nra.
  - destruct (Rle_dec t (1 / 2)); nra.
Qed.

Lemma pipe_on d v : regular (DPipe d) -> In v (flat_map pv (pipe_pieces d)) -> on_pipe (pp_inner d) (pp_outer d) (pp_height d) (position v).
Proof.
  intros (A & B & C & D) X. apply in_flat_map in X. destruct X as (p & Hp & Hv). unfold pipe_pieces in Hp. cbn zeta in Hp. unfold on_pipe.
  in_pieces Hp; subst p; cbn [pv mantle_piece ring_piece] in Hv; apply in_grid_verts in Hv; destruct Hv as (i & j & Hi & Hj & ->).
  - left. edestruct mantle_pos as (E1 & E2 & E3); [exact Hj|lia|]. rewrite E1, E2. split; [apply ellipse_angle; lra|exact E3].
  - right; left. edestruct mantle_pos as (E1 & E2 & E3); [exact Hj|lia|]. rewrite E1, E2. split; [apply ellipse_angle; lra|exact E3].
  - right; right. apply ring_in; try assumption. right; field.
  - right; right. apply ring_in; try assumption. left; field.
Qed.

Lemma clamp_bounds a : 0 <= clampR a 0 pi_2 <= pi_2.
Proof.
  pose proof PI_RGT_0. unfold clampR, pi_2. destruct (Rltb a 0) eqn:E; [lra|]. apply Rltb_false in E. destruct (Rltb (PI * 2) a) eqn:E'; [lra|]. apply Rltb_false in E'. lra.
Qed.
Lemma pi2_eq : pi_2 = 2 * PI. Proof. unfold pi_2. ring. Qed.
Lemma pie_angle_in offset cut H i : 0 <= cut <= 2 * PI -> (i <= H)%nat -> (0 < H)%nat ->
  offset + cut <= at_angle (offset + cut) (1 / INR H * (2 * PI - cut)) i <= offset + 2 * PI.
Proof.
  intros B Hi HH. unfold at_angle. replace (INR i * (1 / INR H * (2 * PI - cut))) with (frac i H * (2 * PI - cut)) by (unfold frac; ring).
  pose proof (frac_bounds i H Hi HH). assert (0 <= 2 * PI - cut) by lra. split; nra.
Qed.
Lemma pie_on d v : In v (flat_map pv (pie_pieces d)) -> on_pie (pi_radius d) (pi_height d) (clampR (pi_angle d) 0 (2 * PI)) (pi_offset d) (position v).
Proof.
  intros X. apply in_flat_map in X. destruct X as (p & Hp & Hv). unfold pie_pieces in Hp. cbn zeta in Hp. pose proof (clamp_bounds (pi_angle d)) as CB.
  rewrite pi2_eq in *. set (cutting := clampR (pi_angle d) 0 (2 * PI)) in *. pose proof PI_RGT_0. unfold on_pie.
  in_pieces Hp; subst p; cbn [pv mantle_piece wall_piece disc_piece] in Hv.
  - apply in_grid_verts in Hv. destruct Hv as (i & j & Hi & Hj & ->).
    edestruct mantle_pos as (E1 & E2 & E3); [exact Hj|lia|]. eexists _, 1. split; [apply (pie_angle_in _ _ _ _ CB Hi); lia|]. split; [lra|]. rewrite E1, E2.
    repeat split; [ring|ring|exact E3|now left].
  - apply in_grid_verts in Hv. destruct Hv as (i & j & Hi & Hj & ->). cbn [position wall_vertex vx vy vz].
    exists (pi_offset d + cutting), (frac i (Nat.max 1 (pi_cover d))). pose proof (frac_bounds _ _ Hi ltac:(lia)). pose proof (frac_bounds _ _ Hj ltac:(lia)).
    split; [lra|]; split; [lra|]; split; [ring|]; split; [ring|]; split; [|right; now left]. unfold lerp. apply (within_scale _ _ (1 - 2 * frac j (Nat.max 1 (pi_v d)))); [lra|field].
  - apply in_grid_verts in Hv. destruct Hv as (i & j & Hi & Hj & ->). cbn [position wall_vertex vx vy vz].
    exists (pi_offset d + 2 * PI), (frac i (Nat.max 1 (pi_cover d))). pose proof (frac_bounds _ _ Hi ltac:(lia)). pose proof (frac_bounds _ _ Hj ltac:(lia)).
    replace (pi_offset d + cutting - cutting) with (pi_offset d) by ring.
    assert (S : sin (pi_offset d + 2 * PI) = sin (pi_offset d)) by (rewrite sin_plus, sin_2PI, cos_2PI; ring).
    assert (C : cos (pi_offset d + 2 * PI) = cos (pi_offset d)) by (rewrite cos_plus, sin_2PI, cos_2PI; ring). rewrite S, C.
    split; [lra|]; split; [lra|]; split; [ring|]; split; [ring|]; split; [|right; right; now left]. unfold lerp. apply (within_scale _ _ (1 - 2 * frac j (Nat.max 1 (pi_v d)))); [lra|field].
  - apply in_disc_verts in Hv. destruct Hv as [->|(i & j & Hi & Hj & ->)].
    + exists (pi_offset d + 2 * PI), 0. cbn [position disc_center vx vy vz].
      assert (E : at_end (pi_height d) (pi_height d * (1 / 2) * -1)) by (right; field).
      split; [lra|]; split; [lra|]; split; [ring|]; split; [ring|]; split; [now apply within_end|right; right; now right].
    + edestruct disc_pos as (k & Bk & E1 & E2 & E3); [| |eexists _, k]; [| |rewrite E1, E2, E3; split; [apply (pie_angle_in _ _ _ _ CB Hi); lia|]]; try lia.
      assert (E : at_end (pi_height d) (pi_height d * (1 / 2) * -1)) by (right; field).
      split; [exact Bk|]; split; [reflexivity|]; split; [reflexivity|]; split; [now apply within_end|right; right; now right].
  - apply in_disc_verts in Hv. destruct Hv as [->|(i & j & Hi & Hj & ->)].
    + exists (pi_offset d + 2 * PI), 0. cbn [position disc_center vx vy vz].
      assert (E : at_end (pi_height d) (pi_height d * (1 / 2) * 1)) by (left; field).
      split; [lra|]; split; [lra|]; split; [ring|]; split; [ring|]; split; [now apply within_end|right; right; now right].
    + edestruct disc_pos as (k & Bk & E1 & E2 & E3); [| |eexists _, k]; [| |rewrite E1, E2, E3; split; [apply (pie_angle_in _ _ _ _ CB Hi); lia|]]; try lia.
      assert (E : at_end (pi_height d) (pi_height d * (1 / 2) * 1)) by (left; field).
      split; [exact Bk|]; split; [reflexivity|]; split; [reflexivity|]; split; [now apply within_end|right; right; now right].
Qed.

Lemma cap_on d side H C i j : nonzero3 (ca_radius d) -> side = 1 \/ side = -1 -> (i <= C)%nat -> (0 < C)%nat ->
  let p := position (cap_vertex d (ca_height d * (1 / 2)) side H C i j) in
  on_ellipsoid (ca_radius d) (V3 (vx p) (vy p - side * (ca_height d / 2)) (vz p)) /\ 0 <= side * ((vy p - side * (ca_height d / 2)) / vy (ca_radius d)).
Proof.
  intros (A & B & D) S Hi HC. cbn. unfold on_ellipsoid. cbn [vx vy vz]. pose proof (frac_bounds i C Hi HC) as F. pose proof PI_RGT_0.
  set (t := frac i C * pi_0_5). set (q := frac j H * pi_2 * side + pi_0_5).
  assert (S2 : side * side = 1) by (destruct S; subst; ring).
  replace ((cos t * side * vy (ca_radius d) + ca_height d * (1 / 2) * side - side * (ca_height d / 2)) / vy (ca_radius d)) with (side * cos t) by (field; assumption).
  split.
  - replace ((side * cos t) ^ 2) with (side * side * cos t ^ 2) by ring. rewrite S2, Rmult_1_l. rewrite <- (sph1 t q). field. auto.
  - rewrite <- Rmult_assoc, S2, Rmult_1_l. apply cos_ge_0; unfold t, pi_0_5; nra.
Qed.
Lemma capsule_on d v : nonzero3 (ca_radius d) -> In v (flat_map pv (capsule_pieces d)) -> on_capsule (ca_radius d) (ca_height d) (position v).
Proof.
  intros N X. apply in_flat_map in X. destruct X as (p & Hp & Hv). unfold capsule_pieces in Hp. cbn zeta in Hp. unfold on_capsule.
  in_pieces Hp; subst p; cbn [pv mantle_piece] in Hv; apply in_grid_verts in Hv; destruct Hv as (i & j & Hi & Hj & ->).
  - left. edestruct mantle_pos as (E1 & E2 & E3); [exact Hj|lia|]. rewrite E1, E2. split; [apply ellipse_angle; apply N|exact E3].
  - right. exists 1. split; [now left|]. apply cap_on; [assumption|now left|assumption|lia].
  - right. exists (-1). split; [now right|]. apply cap_on; [assumption|now right|assumption|lia].
Qed.
Lemma torus_on d v : In v (flat_map pv (torus_pieces d)) -> on_torus (to_ring d) (to_tube d) (position v).
Proof.
  intros X. apply in_flat_map in X. destruct X as (p & Hp & Hv). unfold torus_pieces in Hp. cbn zeta in Hp.
  in_pieces Hp; subst p; cbn [pv] in Hv; apply in_grid_verts in Hv; destruct Hv as (i & j & Hi & Hj & ->).
  unfold on_torus, torus_vertex. cbn [position vx vy vz]. exists (frac j (Nat.max 3 (to_u d)) * pi_2), (frac i (Nat.max 3 (to_v d)) * pi_2). repeat split; ring.
Qed.

Lemma surface_holds d m m' v : valid d -> regular d -> generate d m = Ok m' -> In v (new_vertices m m') -> on_surface d (position v).
Proof.
  intros V R G H. rewrite (generate_result _ _ _ V G), new_vertices_result in H.
  destruct d; cbn [on_surface pieces regular] in *; try exact I.
  - now apply cuboid_on. - now apply ellipsoid_on. - destruct R. now apply cone_on. - now apply cylinder_on. - now apply pie_on.
  - now apply pipe_on. - now apply capsule_on. - now apply torus_on.
Qed.

(** The implicit equation of a torus with circular rings *)
Lemma torus_equation R r h p : h <> 0 -> on_torus (V2 R R) (V3 r h r) p ->
  (vx p ^ 2 + vz p ^ 2 + R ^ 2 - r ^ 2 * (1 - (vy p / h) ^ 2)) ^ 2 = 4 * R ^ 2 * (vx p ^ 2 + vz p ^ 2).
Proof.
  intros N (a & b & E1 & E2 & E3). cbn [vx vy vz x2 y2] in *. rewrite E1, E2, E3.
  replace (cos b * h / h) with (cos b) by (field; assumption).
  replace ((sin a * (R + sin b * r)) ^ 2 + (cos a * (R + sin b * r)) ^ 2) with ((sin a ^ 2 + cos a ^ 2) * (R + sin b * r) ^ 2) by ring. rewrite sc2.
  pose proof (sc2 b). replace (1 - cos b ^ 2) with (sin b ^ 2) by lra. ring.
Qed.

(** ** Normals *)
Lemma unit_len v : dot v v = 1 -> len v = 1. Proof. intros E. unfold len. rewrite E. apply sqrt_1. Qed.
Lemma normalize_len v : v <> vzero -> len (normalize v) = 1. Proof. intros. apply unit_len. now apply normalize_dot. Qed.
Lemma flat_normal a : len (normalize (V3 (sin a) 0 (cos a))) = 1.
Proof. apply normalize_len. intros E. injection E as A B. pose proof (sc2 a). rewrite A, B in H. lra. Qed.
Lemma scaled_normal side v : side = 1 \/ side = -1 -> len v = 1 -> len (vscale side v) = 1.
Proof. intros S E. unfold len in *. replace (dot (vscale side v) (vscale side v)) with (dot v v); [assumption|]. destruct v. unfold dot, vscale. cbn. destruct S; subst; ring. Qed.
Lemma axis_normal s : s = 1 \/ s = -1 -> len (V3 0 s 0) = 1.
Proof. intros S. apply unit_len. unfold dot. cbn. destruct S; subst; ring. Qed.
Lemma spherical_normal t p side : side = 1 \/ side = -1 -> len (normalize (V3 (sin t * cos p) (cos t * side) (sin t * sin p))) = 1.
Proof.
  intros S. apply normalize_len. intros E. injection E as A B C. pose proof (sph1 t p). rewrite A, C in H.
  assert (cos t = 0) by (destruct S; subst; lra). rewrite H0 in H. lra.
Qed.
Lemma face_normal rot n : (exists a, rot = euler_x a \/ rot = euler_y a) \/ rot = qone -> len n = 1 -> len (rotate rot n) = 1.
Proof.
  intros H E. unfold len in *. destruct H as [(a & [->| ->])| ->]; [rewrite rot_x|rewrite rot_y|now rewrite rot0].
  - replace (dot _ _) with (dot n n); [assumption|]. pose proof (sc2 a). destruct n as [x y z]. unfold dot. cbn [vx vy vz].
    replace (x * x + (cos a * y - sin a * z) * (cos a * y - sin a * z) + (cos a * z + sin a * y) * (cos a * z + sin a * y)) with (x * x + (sin a ^ 2 + cos a ^ 2) * (y * y + z * z)) by ring. rewrite H. ring.
  - replace (dot _ _) with (dot n n); [assumption|]. pose proof (sc2 a). destruct n as [x y z]. unfold dot. cbn [vx vy vz].
    replace ((cos a * x + sin a * z) * (cos a * x + sin a * z) + y * y + (cos a * z - sin a * x) * (cos a * z - sin a * x)) with (y * y + (sin a ^ 2 + cos a ^ 2) * (x * x + z * z)) by ring. rewrite H. ring.
Qed.
Lemma torus_normal (t : vec3) a b : nonzero3 t -> len (normalize (V3 (sin a * sin b / vx t) (cos b / vy t) (cos a * sin b / vz t))) = 1.
Proof.
  intros (A & B & C). apply normalize_len. intros E. injection E as X Y Z. unfold Rdiv in *. apply Rmult_integral in X, Y, Z.
  pose proof (Rinv_neq_0_compat _ A). pose proof (Rinv_neq_0_compat _ B). pose proof (Rinv_neq_0_compat _ C).
  assert (X' : sin a * sin b = 0) by tauto. assert (Y' : cos b = 0) by tauto. assert (Z' : cos a * sin b = 0) by tauto.
  pose proof (sc2 a). pose proof (sc2 b). rewrite Y' in H3. assert (sin b ^ 2 = 1) by lra.
  assert ((sin a * sin b) ^ 2 + (cos a * sin b) ^ 2 = 1) by (replace ((sin a * sin b) ^ 2 + (cos a * sin b) ^ 2) with ((sin a ^ 2 + cos a ^ 2) * sin b ^ 2) by ring; rewrite H2, H4; ring).
  rewrite X', Z' in H5. lra.
Qed.

Lemma normals_hold d m m' v : valid d -> regular d -> (forall c, d <> DCone c) -> generate d m = Ok m' -> In v (new_vertices m m') -> len (normal v) = 1.
Proof.
  intros V R NC G H. rewrite (generate_result _ _ _ V G), new_vertices_result in H. apply in_flat_map in H. destruct H as (p & Hp & Hv).
  assert (MP : forall alt rev start step rx rz half side H V, side = 1 \/ side = -1 -> In v (pv (mantle_piece alt rev start step rx rz half side H V)) -> len (normal v) = 1).
  { intros until 1. cbn [mantle_piece pv]. intros X. apply in_grid_verts in X. destruct X as (i & j & _ & _ & ->). cbn [normal mantle_vertex]. now apply scaled_normal, flat_normal. }
  assert (DP : forall alt up start step rx rz y side H K, side = 1 \/ side = -1 -> In v (pv (disc_piece alt up start step rx rz y side H K)) -> len (normal v) = 1).
  { intros until 1. cbn [disc_piece pv]. intros X. apply in_disc_verts in X. destruct X as [->|(i & j & _ & _ & ->)]; cbn [normal disc_vertex disc_center]; now apply axis_normal. }
  destruct d as [d|d|d|d|d|d|d|d|d|d|d|d]; cbn [pieces] in Hp; try contradiction (NC d eq_refl); cbn [regular] in R; try contradiction R.
  - unfold cuboid_pieces in Hp. cbn zeta in Hp. in_pieces Hp; subst p; cbn [pv] in Hv; apply in_grid_verts in Hv; destruct Hv as (i & j & _ & _ & ->); cbn [normal face_vertex];
      (apply face_normal; [first [right; reflexivity|left; eexists; left; reflexivity|left; eexists; right; reflexivity]|apply unit_len; unfold dot; cbn; ring]).
  - unfold ellipsoid_pieces in Hp. cbn zeta in Hp. in_pieces Hp. subst p. cbn [pv] in Hv. apply in_grid_verts in Hv. destruct Hv as (i & j & _ & _ & ->). cbn [normal ellipsoid_vertex].
    unfold spherical. set (t := frac i _ * PI). rewrite <- (Rmult_1_r (cos t)). apply spherical_normal. now left.
  - unfold cylinder_pieces in Hp. cbn zeta in Hp. in_pieces Hp; subst p; [eapply MP; [|exact Hv]|eapply DP; [|exact Hv]|eapply DP; [|exact Hv]]; auto.
  - unfold pie_pieces in Hp. cbn zeta in Hp. in_pieces Hp; subst p; [eapply MP; [|exact Hv]| | |eapply DP; [|exact Hv]|eapply DP; [|exact Hv]]; auto.
    all: cbn [wall_piece pv] in Hv; apply in_grid_verts in Hv; destruct Hv as (i & j & _ & _ & ->); cbn [normal wall_vertex]; apply unit_len; unfold dot; cbn [vx vy vz];
      match goal with |- sin ?a * _ + _ + _ = 1 => pose proof (sc2 a); lra end.
  - unfold pipe_pieces in Hp. cbn zeta in Hp. in_pieces Hp; subst p; [eapply MP; [|exact Hv]|eapply MP; [|exact Hv]| |]; auto.
    all: cbn [ring_piece pv] in Hv; apply in_grid_verts in Hv; destruct Hv as (i & j & _ & _ & ->); cbn [normal ring_vertex]; apply axis_normal; auto.
  - unfold capsule_pieces in Hp. cbn zeta in Hp. in_pieces Hp; subst p; [eapply MP; [|exact Hv]| |]; auto.
    all: cbn [pv] in Hv; apply in_grid_verts in Hv; destruct Hv as (i & j & _ & _ & ->); cbn [normal cap_vertex]; unfold spherical; cbn [vx vy vz]; apply spherical_normal; auto.
  - unfold torus_pieces in Hp. cbn zeta in Hp. in_pieces Hp. subst p. cbn [pv] in Hv. apply in_grid_verts in Hv. destruct Hv as (i & j & _ & _ & ->). cbn [normal torus_vertex].
    now apply torus_normal.
Qed.

(** Cones: the normal is interpolated without normalization. *)
Lemma cone_normal_len a t : 0 <= t <= 1 -> len (lerp3 (V3 0 1 0) (normalize (V3 (sin a) 0 (cos a))) (sqrt t)) = 1 <-> t = 0 \/ t = 1.
Proof.
  intros B. assert (E : normalize (V3 (sin a) 0 (cos a)) = V3 (sin a) 0 (cos a)).
  { unfold normalize. replace (dot (V3 (sin a) 0 (cos a)) (V3 (sin a) 0 (cos a))) with 1; [|unfold dot; cbn; pose proof (sc2 a); lra].
    replace (Reqb 1 0) with false; [replace (Reqb 1 1) with true; [reflexivity|]|]; symmetry.
    - now apply Reqb_iff.
    - destruct (Reqb 1 0) eqn:X; [apply Reqb_iff in X; lra|reflexivity]. }
  rewrite E. unfold len. replace (dot _ _) with (1 - 2 * (sqrt t * (1 - sqrt t))).
  2:{ unfold dot, lerp3, vadd, vscale, vsub. cbn [vx vy vz]. pose proof (sc2 a).
      transitivity ((sin a ^ 2 + cos a ^ 2) * sqrt t ^ 2 + (1 - sqrt t) ^ 2); [rewrite H; ring|ring]. }
  pose proof (sqrt_pos t). pose proof (sqrt_sqrt t ltac:(lra)). assert (sqrt t <= 1) by (rewrite <- sqrt_1; apply sqrt_le_1; lra). set (s := sqrt t) in *. split.
  - intros L. apply (f_equal (fun x => x * x)) in L. rewrite sqrt_sqrt in L by nra. assert (Z : s * (1 - s) = 0) by lra. apply Rmult_integral in Z. destruct Z as [Z|Z]; [left|right]; nra.
  - intros [D|D]; rewrite D in *.
    + assert (s = 0) by nra. rewrite H2. replace (1 - 2 * (0 * (1 - 0))) with 1 by ring. apply sqrt_1.
    + assert (s = 1) by nra. rewrite H2. replace (1 - 2 * (1 * (1 - 1))) with 1 by ring. apply sqrt_1.
Qed.
Lemma cone_normals_hold d half H V a u v : (v <= V)%nat -> (0 < V)%nat ->
  len (normal (cone_vertex d half H V a u v)) = 1 <-> v = 0%nat \/ v = V.
Proof.
  intros Hv HV. cbn [normal cone_vertex]. rewrite cone_normal_len by now apply frac_bounds.
  assert (0 < INR V) by (apply lt_0_INR; lia). unfold frac. split.
  - intros [E|E].
    + left. apply Rmult_integral in E. destruct E as [E|E]; [apply INR_eq; now rewrite E|]. exfalso. unfold Rdiv in E. rewrite Rmult_1_l in E. pose proof (Rinv_0_lt_compat _ H0). lra.
    + right. apply INR_eq. apply (f_equal (fun x => x * INR V)) in E. rewrite Rmult_assoc in E. unfold Rdiv in E. rewrite Rmult_1_l, Rinv_l in E by lra. lra.
  - intros [->| ->]; [left; cbn; ring|right; field; lra].
Qed.
Lemma cone_refuted : exists d m m' v, valid d /\ regular d /\ generate d m = Ok m' /\ In v (new_vertices m m') /\ len (normal v) <> 1.
Proof.
  pose (c := mkConeD (V2 1 1) 2 3 2 0 false). assert (W : valid (DCone c)) by (intros n; cbn; intros [<-|[<-|[<-|[]]]]; lia).
  assert (E : ends (DCone c)) by (intros n; cbn [c segment_counts co_u co_v co_cover In]; intros [<-|[<-|[<-|[]]]]; unfold small; lia).
  pose (m := mkMesh [] [] : gmesh). exists (DCone c), m, (result (pieces (DCone c)) m).
  exists (cone_vertex c (2 * (1 / 2)) 3 2 (at_angle 0 (1 / INR 3 * pi_2) 0) 0 1). repeat split.
  - exact W.
  - cbn; lra.
  - cbn; lra.
  - cbn; lra.
  - now apply generate_ok.
  - rewrite new_vertices_result. left. reflexivity.
  - intros L. apply cone_normals_hold in L; lia.
Qed.
