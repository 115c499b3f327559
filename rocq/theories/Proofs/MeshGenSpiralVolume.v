(** The volumes of spirals. *)
From Coq Require Import ZArith Reals List Bool Arith Lia Lra Psatz.
From Verif Require Import Model.Scalar Model.Vec Model.Aabb Model.Mesh Model.Interp Model.Bezier Model.Transforms Model.MeshGen Spec.MeshGenSpec Spec.ClosedSpec
  Spec.WindingSpec Spec.VolumeSpec Spec.SpiralVolumeSpec Proofs.VecLemmas Proofs.MeshGenLoops Proofs.MeshGenResult Proofs.MeshGenInv Proofs.MeshGenTotal Proofs.MeshGenMain
  Proofs.MeshGenSurface Proofs.MeshGenChains Proofs.MeshGenClosed Proofs.MeshGenWinding Proofs.MeshGenVolume.
Import ListNotations.
Local Open Scope R_scope.

(** Surfaces that turn around the axis on ellipses and rise *)
Section Screw.
Variables A B Y S C k : nat -> R.
Definition screw (j i : nat) : vec3 := V3 (A j * S i) (Y j + k i) (B j * C i).
Lemma screw_bent i j :
  mean screw j i = - profile2 A B Y j * turn S C i + skew A B j * (Y (j + 1)%nat + Y j) / 2 * (S (i + 1)%nat * C (i + 1)%nat - S i * C i) +
    (A (j + 1)%nat * B (j + 1)%nat - A j * B j) * (turn S C i * (k i + k (i + 1)%nat) / 2) +
    skew A B j * (((S i * C (i + 1)%nat + S (i + 1)%nat * C i) * (k i - k (i + 1)%nat) + 2 * (S (i + 1)%nat * C (i + 1)%nat) * k i - 2 * (S i * C i) * k (i + 1)%nat) / 2) /\
  bend screw j i = - (skew A B j * (Y (j + 1)%nat - Y j) / 2) * step2 S C i - (turn S C i * ((A (j + 1)%nat - A j) * (B (j + 1)%nat - B j)) * (k (i + 1)%nat - k i)) / 2.
Proof.
  unfold mean, bend, quad, other, screw, profile2, cross_mean, skew, step2, turn, det. vecs.
  generalize (A j) (B j) (Y j) (A (j + 1)%nat) (B (j + 1)%nat) (Y (j + 1)%nat) (S i) (C i) (S (i + 1)%nat) (C (i + 1)%nat) (k i) (k (i + 1)%nat).
  intros a b y a' b' y' s c s' c' h h'. split; field.
Qed.
Lemma screw_means n m : A m * B m = A O * B O -> zsum m (skew A B) = 0 ->
  zsum m (fun j => zsum n (fun i => mean screw j i)) = - zsum m (profile2 A B Y) * zsum n (turn S C) + zsum m (fun j => skew A B j * (Y (j + 1)%nat + Y j) / 2) * (S n * C n - S O * C O).
Proof.
  intros E Z. set (Q := zsum n (fun i => turn S C i * (k i + k (i + 1)%nat) / 2)).
  set (g := fun i => ((S i * C (i + 1)%nat + S (i + 1)%nat * C i) * (k i - k (i + 1)%nat) + 2 * (S (i + 1)%nat * C (i + 1)%nat) * k i - 2 * (S i * C i) * k (i + 1)%nat) / 2). set (W := S n * C n - S O * C O).
  rewrite (zsum_ext m _ (fun j => - zsum n (turn S C) * profile2 A B Y j + W * (skew A B j * (Y (j + 1)%nat + Y j) / 2) + Q * (A (j + 1)%nat * B (j + 1)%nat - A j * B j) + zsum n g * skew A B j)).
  - rewrite !zsum_add, !zsum_scale, (zsum_tele m (fun j => A j * B j)), E, Z. ring.
  - intros j _. rewrite (zsum_ext n _ (fun i => - profile2 A B Y j * turn S C i + skew A B j * (Y (j + 1)%nat + Y j) / 2 * (S (i + 1)%nat * C (i + 1)%nat - S i * C i) +
      (A (j + 1)%nat * B (j + 1)%nat - A j * B j) * (turn S C i * (k i + k (i + 1)%nat) / 2) + skew A B j * g i)) by (intros i _; apply screw_bent).
    rewrite !zsum_add, !zsum_scale, (zsum_tele n (fun i => S i * C i)). fold Q W. ring.
Qed.
Lemma screw_bends w v t s h n m : (forall j i, w j i = t * (v j * v i)) -> (forall i, turn S C i = s) -> (forall i, k (i + 1)%nat - k i = h) ->
  zsum m (fun j => zsum n (fun i => w j i * bend screw j i)) =
  - (t / 2) * zsum m (fun j => v j * (skew A B j * (Y (j + 1)%nat - Y j))) * zsum n (fun i => v i * step2 S C i) - t * s * h / 2 * zsum m (fun j => v j * ((A (j + 1)%nat - A j) * (B (j + 1)%nat - B j))) * zsum n v.
Proof.
  intros W T H. rewrite (zsum_ext m _ (fun j => - (t / 2) * zsum n (fun i => v i * step2 S C i) * (v j * (skew A B j * (Y (j + 1)%nat - Y j))) + - (t * s * h / 2) * zsum n v * (v j * ((A (j + 1)%nat - A j) * (B (j + 1)%nat - B j)))));
    [rewrite zsum_add, !zsum_scale; ring|]. intros j _.
  rewrite (zsum_ext n _ (fun i => - (t / 2) * (v j * (skew A B j * (Y (j + 1)%nat - Y j))) * (v i * step2 S C i) + - (t * s * h / 2) * (v j * ((A (j + 1)%nat - A j) * (B (j + 1)%nat - B j))) * v i)); [rewrite zsum_add, !zsum_scale; ring|].
  intros i _. rewrite W. destruct (screw_bent i j) as [_ ->]. rewrite T, H. field.
Qed.
End Screw.

(** Sums around the tube *)
Lemma alternate_sum alt n : zsum n (alternate alt) = if alt then if Nat.odd n then 1 else 0 else INR n.
Proof.
  destruct alt; [|unfold alternate; rewrite zsum_const; ring].
  enough (P : zsum n (alternate true) = (if Nat.odd n then 1 else 0) /\ (-1) ^ n = if Nat.odd n then -1 else 1) by apply P.
  induction n as [|n [IH E]]; [cbn; lra|]. rewrite Nat.odd_succ, <- Nat.negb_odd. cbn [zsum pow alternate] in *. rewrite IH, E. destruct (Nat.odd n); cbn [negb]; lra.
Qed.
Lemma alternate_last n : (-1) ^ n = if Nat.odd n then -1 else 1.
Proof. induction n as [|n IH]; [cbn; lra|]. rewrite Nat.odd_succ, <- Nat.negb_odd. cbn [pow]. rewrite IH. destruct (Nat.odd n); cbn [negb]; lra. Qed.
Lemma chord_square t s : (sin (t + s) - sin t) ^ 2 = 2 * sin (s / 2) ^ 2 * (1 + cos (2 * t + s)).
Proof.
  set (u := s / 2). replace s with (u + u) by (unfold u; field). pose (m := t + u). replace (t + (u + u)) with (m + u) by (unfold m; ring).
  replace (2 * t + (u + u)) with (2 * m) by (unfold m; ring). replace t with (m - u) by (unfold m; ring).
  rewrite cos_2a_cos, sin_minus, (sin_plus m u). ring.
Qed.
Lemma full_angle n : (3 <= n)%nat -> 0 < full n < PI /\ full n = 2 * PI / INR n.
Proof.
  intros H. assert (IN : 3 <= INR n) by (replace 3 with (INR 3) by (cbn; ring); apply le_INR; lia). pose proof PI_RGT_0 as PP. pose proof (full_pos n ltac:(lia)) as FP.
  assert (0 < full n) by nra. split; [split; [assumption|nra]|]. rewrite <- FP. field. lra.
Qed.
Lemma cosines alt n : (3 <= n)%nat -> zsum n (fun i => alternate alt i * cos (2 * at_angle 0 (full n) i + full n)) = if alt && Nat.odd n then / cos (full n) else 0.
Proof.
  intros H. destruct (full_angle n H) as [[S0 SP] _]. pose proof PI_RGT_0 as PP. pose proof (full_pos n ltac:(lia)) as FP. set (s := full n) in *. set (f := fun i => alternate alt i * cos (2 * at_angle 0 s i + s)).
  assert (T : at_angle 0 s n = 2 * PI) by (unfold at_angle; lra). assert (T0 : at_angle 0 s 0 = 0) by (unfold at_angle; cbn; lra).
  assert (I3 : 3 <= INR n) by (replace 3 with (INR 3) by (cbn; ring); apply le_INR; lia).
  destruct alt; cbn [andb].
  - assert (Q : 2 * cos s * zsum n f = if Nat.odd n then 2 else 0).
    { rewrite <- zsum_scale. set (F := fun i => - ((-1) ^ i * cos (2 * at_angle 0 s i))).
      rewrite (zsum_ext n _ (fun i => F (i + 1)%nat - F i)).
      - rewrite (zsum_tele n F). unfold F. rewrite T, T0, alternate_last. replace (2 * (2 * PI)) with (2 * PI + 2 * PI) by ring. rewrite Rmult_0_r, cos_plus, cos_2PI, sin_2PI, cos_0. cbn [pow].
        destruct (Nat.odd n); ring.
      - intros i _. unfold F, f, alternate. rewrite angle_next, pow_add, pow_1. set (a := at_angle 0 s i).
        replace (2 * (a + s)) with (2 * a + s + s) by ring. replace (cos (2 * a)) with (cos (2 * a + s - s)) by (f_equal; ring). generalize (2 * a + s). intros b. rewrite cos_plus, cos_minus. ring. }
    destruct (Nat.eq_dec n 4) as [->|N4].
    + change (Nat.odd 4) with false. assert (S2 : s = PI / 2) by (cbn in FP; lra). apply zsum_zero. intros i Hi. unfold f.
      enough (Z : cos (2 * at_angle 0 s i + s) = 0) by (rewrite Z; ring). unfold at_angle. rewrite S2. destruct i as [|[|[|[|k]]]]; [..|lia]; cbn [INR].
      * replace (2 * _ + _) with (PI / 2) by field. apply cos_PI2.
      * replace (2 * _ + _) with (PI / 2 + PI) by field. rewrite neg_cos, cos_PI2. ring.
      * replace (2 * _ + _) with (PI / 2 + 2 * PI) by field. rewrite cos_plus, sin_2PI, cos_2PI, cos_PI2. ring.
      * replace (2 * _ + _) with (PI / 2 + PI + 2 * PI) by field. rewrite cos_plus, sin_2PI, cos_2PI, neg_cos, cos_PI2. ring.
    + assert (C : cos s <> 0).
      { destruct (Nat.lt_ge_cases n 4) as [L|G].
        - assert (I : INR n <= 3) by (replace 3 with (INR 3) by (cbn; ring); apply le_INR; lia). apply Rlt_not_eq, cos_lt_0; nra.
        - assert (I : 5 <= INR n) by (replace 5 with (INR 5) by (cbn; ring); apply le_INR; lia). apply Rgt_not_eq, cos_gt_0; nra. }
      apply (Rmult_eq_reg_l (2 * cos s)); [|lra]. rewrite Q. destruct (Nat.odd n); [field; exact C|ring].
  - assert (C : sin s <> 0) by (apply Rgt_not_eq, sin_gt_0; assumption).
    assert (Q : 2 * sin s * zsum n f = 0); [|apply Rmult_integral in Q; destruct Q; [lra|assumption]].
    rewrite <- zsum_scale. set (F := fun i => sin (2 * at_angle 0 s i)).
    rewrite (zsum_ext n _ (fun i => F (i + 1)%nat - F i)).
    * rewrite (zsum_tele n F). unfold F. rewrite T, T0. replace (2 * (2 * PI)) with (2 * PI + 2 * PI) by ring. rewrite Rmult_0_r, sin_plus, cos_2PI, sin_2PI, sin_0. ring.
    * intros i _. unfold F, f, alternate. rewrite angle_next. set (a := at_angle 0 s i).
      replace (2 * (a + s)) with (2 * a + s + s) by ring. replace (sin (2 * a)) with (sin (2 * a + s - s)) by (f_equal; ring). generalize (2 * a + s). intros b. rewrite sin_plus, sin_minus. ring.
Qed.
Lemma tube_steps alt g r V : (3 <= V)%nat -> let A := fun i => g + sin (at_angle 0 (full V) i) * r in
  zsum V (fun j => alternate alt j * (A (j + 1)%nat - A j) ^ 2) =
  r ^ 2 * (if alt then if Nat.odd V then sin (2 * PI / INR V) * tan (2 * PI / INR V) else 0 else 2 * INR V * sin (PI / INR V) ^ 2).
Proof.
  intros H A. destruct (full_angle V H) as [[S0 SP] FE]. set (s := full V) in *.
  rewrite (zsum_ext V _ (fun j => 2 * r ^ 2 * sin (s / 2) ^ 2 * alternate alt j + 2 * r ^ 2 * sin (s / 2) ^ 2 * (alternate alt j * cos (2 * at_angle 0 s j + s)))).
  - rewrite zsum_add, !zsum_scale, alternate_sum. unfold s. rewrite cosines by exact H. fold s. rewrite <- FE. replace (PI / INR V) with (s / 2) by (rewrite FE; field; apply not_0_INR; lia).
    destruct alt; cbn [andb]; [|ring]. destruct (Nat.odd V) eqn:O; [|ring].
    assert (C : cos s <> 0).
    { intros Z. assert (E := cosines true V H). rewrite O in E. cbn [andb] in E.
      assert (I3 : 3 <= INR V) by (replace 3 with (INR 3) by (cbn; ring); apply le_INR; lia). pose proof PI_RGT_0 as PP. pose proof (full_pos V ltac:(lia)) as FP. fold s in FP.
      destruct (Nat.lt_ge_cases V 4) as [L|G].
      - assert (I : INR V <= 3) by (replace 3 with (INR 3) by (cbn; ring); apply le_INR; lia). assert (cos s < 0) by (apply cos_lt_0; nra). lra.
      - destruct (Nat.eq_dec V 4) as [->|N]; [discriminate|]. assert (I : 5 <= INR V) by (replace 5 with (INR 5) by (cbn; ring); apply le_INR; lia). assert (0 < cos s) by (apply cos_gt_0; nra). lra. }
    unfold tan. assert (S2 : 2 * sin (s / 2) ^ 2 = 1 - cos s) by (replace s with (2 * (s / 2)) at 2 by field; rewrite cos_2a_sin; ring).
    assert (P : sin s * sin s = (1 - cos s) * (1 + cos s)) by (assert (X := sin2_cos2 s); unfold Rsqr in X; lra).
    replace (sin s * (sin s / cos s)) with (sin s * sin s / cos s) by (field; exact C). rewrite P.
    replace (2 * r ^ 2 * sin (s / 2) ^ 2) with (r ^ 2 * (2 * sin (s / 2) ^ 2)) by ring. rewrite S2. field. exact C.
  - intros j _. unfold A. rewrite angle_next. replace ((g + sin (at_angle 0 s j + s) * r - (g + sin (at_angle 0 s j) * r)) ^ 2) with (r ^ 2 * (sin (at_angle 0 s j + s) - sin (at_angle 0 s j)) ^ 2) by ring.
    rewrite chord_square. ring.
Qed.


(** Alternating sums over a part of the turns *)
Lemma partial_steps n T : (3 <= n)%nat -> zsum T (fun i => alternate true i * step2 (fun i => sin (at_angle 0 (full n) i)) (fun i => cos (at_angle 0 (full n) i)) i) =
  if (n =? 4)%nat then - INR T else (1 - cos (full n)) / (2 * cos (full n)) * (-1) ^ T * sin (2 * at_angle 0 (full n) T).
Proof.
  intros H. destruct (full_angle n H) as [[S0 SP] FE]. set (s := full n) in *. set (f := fun i => alternate true i * sin (2 * at_angle 0 s i + s)).
  assert (E : zsum T (fun i => alternate true i * step2 (fun i => sin (at_angle 0 s i)) (fun i => cos (at_angle 0 s i)) i) = - (2 * sin (s / 2) ^ 2) * zsum T f).
  { rewrite <- zsum_scale. apply zsum_ext. intros i _. unfold step2, f. rewrite angle_next, chord_steps. ring. }
  rewrite E. clear E. assert (S2 : 2 * sin (s / 2) ^ 2 = 1 - cos s) by (replace s with (2 * (s / 2)) at 2 by field; rewrite cos_2a_sin; ring). rewrite S2.
  destruct ((n =? 4)%nat) eqn:N4.
  - apply Nat.eqb_eq in N4. subst n. assert (SE : s = PI / 2) by (rewrite FE; cbn; field). assert (CS : cos s = 0) by (rewrite SE; apply cos_PI2). rewrite CS.
    assert (P : forall i, cos (2 * at_angle 0 s i) = (-1) ^ i /\ sin (2 * at_angle 0 s i) = 0).
    { induction i as [|i [IC IS]]; [unfold at_angle; cbn [INR pow]; replace (2 * _) with 0 by ring; now rewrite cos_0, sin_0|]. replace (2 * at_angle 0 s (Datatypes.S i)) with (2 * at_angle 0 s i + PI) by (rewrite <- Nat.add_1_r, angle_next, SE; field). rewrite neg_cos, neg_sin, IC, IS. cbn [pow]. split; ring. }
    rewrite (zsum_ext T f (fun _ => 1)); [rewrite zsum_const; ring|]. intros i _. destruct (P i) as [PC PS]. unfold f, alternate. rewrite sin_plus, PC, PS, CS, SE, sin_PI2. rewrite Rmult_0_l, Rplus_0_l, Rmult_1_r, <- pow_add. rewrite <- (pow_1_even i). f_equal. lia.
  - apply Nat.eqb_neq in N4. assert (C : cos s <> 0).
    { assert (I3 : 3 <= INR n) by (replace 3 with (INR 3) by (cbn; ring); apply le_INR; lia). pose proof PI_RGT_0 as PP. pose proof (full_pos n ltac:(lia)) as FP. fold s in FP. destruct (Nat.lt_ge_cases n 4) as [L|G].
      - assert (I : INR n <= 3) by (replace 3 with (INR 3) by (cbn; ring); apply le_INR; lia). apply Rlt_not_eq, cos_lt_0; nra.
      - assert (I : 5 <= INR n) by (replace 5 with (INR 5) by (cbn; ring); apply le_INR; lia). apply Rgt_not_eq, cos_gt_0; nra. }
    set (F := fun i => - ((-1) ^ i * sin (2 * at_angle 0 s i))).
    assert (Q : 2 * cos s * zsum T f = F T).
    { rewrite <- zsum_scale. rewrite (zsum_ext T _ (fun i => F (i + 1)%nat - F i)).
      - rewrite (zsum_tele T F). unfold F at 2. unfold at_angle at 1. cbn [INR pow]. replace (2 * (0 + 0 * s)) with 0 by ring. rewrite sin_0. ring.
      - intros i _. unfold F, f, alternate. rewrite angle_next, pow_add, pow_1. set (a := at_angle 0 s i).
        replace (2 * (a + s)) with (2 * a + s + s) by ring. replace (sin (2 * a)) with (sin (2 * a + s - s)) by (f_equal; ring). generalize (2 * a + s). intros b. rewrite sin_plus, sin_minus. ring. }
    assert (Z : zsum T f = F T / (2 * cos s)) by (rewrite <- Q; field; exact C). rewrite Z. unfold F. field. exact C.
Qed.

(** The covers lie in planes that miss the axis of a skewed spiral. *)
Lemma cover_vsum d (up : bool) turns phi side V K : (0 < K)%nat ->
  patch_vsum (spiral_patch d up turns phi side V K) = (if up then 1 else -1) * (skewed d * vy (sp_tube d) * (sin phi * cos phi) * (INR V * sin (full V))).
Proof.
  intros PK. set (S := fun i => sin (at_angle 0 (full V) i)). set (C := fun i => cos (at_angle 0 (full V) i)). set (a := x2 (sp_ring d)). set (b := y2 (sp_ring d)). set (p := vx (sp_tube d)). set (ty := vy (sp_tube d)). set (r := vz (sp_tube d)).
  set (h := (phi / pi_2 - turns * (1 / 2)) * sp_displacement d). set (sp := sin phi). set (cp := cos phi).
  pose (q := fun i j => V3 (sp * a + frac j K * (sp * p * S i)) (h + frac j K * (ty * C i)) (cp * b + frac j K * (cp * r * S i))).
  assert (QQ : forall i j, quad q i j = - (ty * (a * r - b * p) * (sp * cp)) * ((frac (j + 1) K * frac (j + 1) K - frac j K * frac j K) * turn S C i) /\ other q i j = quad q i j).
  { intros i j. unfold quad, other, q, turn, det. vecs. generalize (frac j K) (frac (j + 1) K) (S i) (S (i + 1)%nat) (C i) (C (i + 1)%nat). intros. split; ring. }
  rewrite (patch_vsum_at _ q).
  - cbn [p_tris spiral_patch]. rewrite disc_vsum; [|exact PK| |].
    + unfold quads. rewrite (zsum_ext V _ (fun i => zsum K (fun j => (- (ty * (a * r - b * p) * (sp * cp)) * (frac (j + 1) K * frac (j + 1) K - frac j K * frac j K)) * turn S C i))).
      * rewrite zsum_prod, zsum_scale, (zsum_tele K (fun j => frac j K * frac j K)), frac0, frac1 by exact PK. unfold S, C. rewrite turn_sc. unfold skewed. fold a b p r. destruct up; cbn [sign]; ring.
      * intros i _. apply zsum_ext. intros j _. destruct (QQ i j) as [-> _]. ring.
    + intros i. unfold q. rewrite frac0. apply vec3_ext; cbn [vx vy vz]; ring.
    + intros i j _ _. symmetry. apply QQ.
  - intros i j. cbn [p_at spiral_patch fst snd]. change (1 / INR V * pi_2) with (full V). destruct j as [|j].
    + cbn [Nat.eqb]. unfold spiral_center, cover_coord, q. cbn [position]. rewrite frac0. fold sp cp a b h. apply vec3_ext; cbn [vx vy vz]; ring.
    + cbn [Nat.eqb]. unfold spiral_cover_vertex, cover_coord, q, lerp3. cbn [position]. vecs. fold sp cp a b h p r ty. fold (S i) (C i). apply vec3_ext; cbn [vx vy vz]; ring.
Qed.

Lemma screw_vsum d : sp_top d <> 0%nat -> sp_bottom d <> 0%nat ->
  let U := Nat.max 3 (sp_u d) in let V := Nat.max 3 (sp_v d) in let T := spiral_segments d in let turns := Rmax 0 (sp_turns d) in
  fold_right Rplus 0 (map patch_vsum (patches (DSpiral d))) =
  3 / 2 * (x2 (sp_ring d) * vz (sp_tube d) + y2 (sp_ring d) * vx (sp_tube d)) * vy (sp_tube d) * (INR V * sin (full V)) * (INR T * sin (full U)) +
  skewed d * vy (sp_tube d) * (INR V * sin (full V)) * (sin (at_angle 0 (full U) T) * cos (at_angle 0 (full U) T) / 2 + sin (turns * pi_2) * cos (turns * pi_2)) +
  sp_displacement d / INR U * sin (full U) / 2 * (vx (sp_tube d) * vz (sp_tube d)) * zsum V (fun j => alternate (sp_alt d) j * (sin (at_angle 0 (full V) (j + 1)%nat) - sin (at_angle 0 (full V) j)) ^ 2) * zsum T (alternate (sp_alt d)) +
  (if sp_alt d && (V =? 4)%nat then -2 * (skewed d * vy (sp_tube d)) * zsum T (fun i => alternate true i * step2 (fun i => sin (at_angle 0 (full U) i)) (fun i => cos (at_angle 0 (full U) i)) i) else 0).
Proof.
  intros Top Bottom. cbn [patches]. cbv zeta. rewrite !when_true by assumption. cbn [app map fold_right].
  set (U := Nat.max 3 (sp_u d)). set (V := Nat.max 3 (sp_v d)). set (T := spiral_segments d). set (turns := Rmax 0 (sp_turns d)). assert (HV : (3 <= V)%nat) by (unfold V; lia). assert (HU : (3 <= U)%nat) by (unfold U; lia).
  clearbody U V T turns. rewrite !cover_vsum by lia. rewrite sin_0. set (a := x2 (sp_ring d)) in *. set (b := y2 (sp_ring d)) in *. set (p := vx (sp_tube d)) in *. set (r := vz (sp_tube d)) in *. set (ty := vy (sp_tube d)). assert (ED : skewed d = a * r - b * p) by reflexivity. rewrite ED.
  set (A := fun i => a + sin (at_angle 0 (full V) i) * p). set (B := fun i => b + sin (at_angle 0 (full V) i) * r). set (Y := fun i => cos (at_angle 0 (full V) i) * ty). set (S := fun j => sin (at_angle 0 (full U) j)). set (C := fun j => cos (at_angle 0 (full U) j)).
  set (k := fun j => (frac j U - turns * (1 / 2)) * sp_displacement d).
  assert (IU : INR U <> 0) by (apply not_0_INR; lia). destruct (full_sin V ltac:(lia)) as [FS FC].
  assert (SK : forall j, skew A B j = (a * r - b * p) * (sin (at_angle 0 (full V) (j + 1)%nat) - sin (at_angle 0 (full V) j))) by (intros j; unfold skew, A, B; ring).
  rewrite (patch_vsum_at _ (screw A B Y S C k)).
  - cbn [p_tris]. rewrite bent_grid, screw_means.
    + rewrite (screw_bends A B Y S C k _ (alternate (sp_alt d)) (-1) (sin (full U)) (sp_displacement d / INR U)).
      * unfold A at 1, B at 1, Y at 1. rewrite torus_profile by lia. unfold S at 1, C at 1. rewrite turn_sc. cbn [sign].
        rewrite (zsum_ext V (fun j => skew A B j * (Y (j + 1)%nat + Y j) / 2) (fun j => (a * r - b * p) * ty / 2 * (turn (fun i => sin (at_angle 0 (full V) i)) (fun i => cos (at_angle 0 (full V) i)) j
          + (sin (at_angle 0 (full V) (j + 1)%nat) * cos (at_angle 0 (full V) (j + 1)%nat) - sin (at_angle 0 (full V) j) * cos (at_angle 0 (full V) j))))) by (intros j _; rewrite SK; unfold Y, turn; field).
        rewrite zsum_scale, zsum_add, turn_sc, (zsum_tele V (fun j => sin (at_angle 0 (full V) j) * cos (at_angle 0 (full V) j))), FS, FC.
        rewrite (zsum_ext V (fun j => alternate (sp_alt d) j * (skew A B j * (Y (j + 1)%nat - Y j))) (fun j => (a * r - b * p) * ty * (alternate (sp_alt d) j * step2 (fun i => sin (at_angle 0 (full V) i)) (fun i => cos (at_angle 0 (full V) i)) j)))
          by (intros j _; rewrite SK; unfold step2, Y; ring).
        rewrite zsum_scale, step_sum by exact HV.
        rewrite (zsum_ext V (fun j => alternate (sp_alt d) j * ((A (j + 1)%nat - A j) * (B (j + 1)%nat - B j))) (fun j => p * r * (alternate (sp_alt d) j * (sin (at_angle 0 (full V) (j + 1)%nat) - sin (at_angle 0 (full V) j)) ^ 2)))
          by (intros j _; unfold A, B; ring).
        rewrite zsum_scale. assert (S00 : S O = 0) by (unfold S, at_angle; cbn [INR]; rewrite Rmult_0_l, Rplus_0_l; apply sin_0). rewrite S00. change (sin (at_angle 0 (full U) T)) with (S T). change (cos (at_angle 0 (full U) T)) with (C T). fold S C.
        destruct (sp_alt d); cbn [andb]; [destruct (V =? 4)%nat|]; field; exact IU.
      * apply alternate_way.
      * intros i. unfold turn, S, C. rewrite angle_next, sin_plus, cos_plus. set (g := at_angle 0 (full U) i). assert (X := sin2_cos2 g). unfold Rsqr in X.
        replace (cos g * (sin g * cos (full U) + cos g * sin (full U)) - sin g * (cos g * cos (full U) - sin g * sin (full U))) with (sin (full U) * (sin g * sin g + cos g * cos g)) by ring. rewrite X. ring.
      * intros i. unfold k, frac. rewrite plus_INR. cbn [INR]. field. exact IU.
    + unfold A, B. rewrite FS. reflexivity.
    + rewrite (zsum_ext V _ (fun j => (a * r - b * p) * (sin (at_angle 0 (full V) (j + 1)%nat) - sin (at_angle 0 (full V) j)))) by (intros j _; apply SK). rewrite zsum_scale, (zsum_tele V (fun j => sin (at_angle 0 (full V) j))), FS. ring.
  - intros i j. cbn [p_at fst snd]. unfold screw, spiral_vertex. cbn [position]. fold a b p r ty.
    replace (frac i V * pi_2) with (at_angle 0 (full V) i) by (unfold frac, at_angle, full; ring).
    replace (frac j U * pi_2) with (at_angle 0 (full U) j) by (unfold frac, at_angle, full; ring). apply vec3_ext; cbn [vx vy vz]; unfold A, B, Y, S, C, k; ring.
Qed.

Lemma bent_sums d : let U := Nat.max 3 (sp_u d) in let V := Nat.max 3 (sp_v d) in
  bent_spiral d = sp_displacement d / INR U * sin (full U) / 12 * (vx (sp_tube d) * vz (sp_tube d)) *
    zsum V (fun j => alternate (sp_alt d) j * (sin (at_angle 0 (full V) (j + 1)%nat) - sin (at_angle 0 (full V) j)) ^ 2) * zsum (spiral_segments d) (alternate (sp_alt d)).
Proof.
  cbv zeta. unfold bent_spiral. set (U := Nat.max 3 (sp_u d)). set (V := Nat.max 3 (sp_v d)). set (T := spiral_segments d). assert (HV : (3 <= V)%nat) by (unfold V; lia). assert (HU : (3 <= U)%nat) by (unfold U; lia).
  assert (IU : INR U <> 0) by (apply not_0_INR; lia). destruct (full_angle U HU) as [_ EU]. clearbody U V T. rewrite <- EU.
  assert (E := tube_steps (sp_alt d) 0 1 V HV). cbv zeta in E.
  rewrite (zsum_ext V _ (fun j => alternate (sp_alt d) j * (0 + sin (at_angle 0 (full V) (j + 1)%nat) * 1 - (0 + sin (at_angle 0 (full V) j) * 1)) ^ 2)) by (intros j _; ring).
  rewrite E, alternate_sum. clear E. destruct (sp_alt d); [destruct (Nat.odd T), (Nat.odd V); cbn [andb]|]; field; exact IU.
Qed.
Lemma segments_turns d : solid (DSpiral d) -> INR (spiral_segments d) = Rmax 0 (sp_turns d) * INR (Nat.max 3 (sp_u d)).
Proof. intros (_ & _ & n & E). unfold spiral_segments. rewrite E, Int_part_INR, Nat2Z.id. reflexivity. Qed.

Theorem spiral_volume_holds d m m' : valid (DSpiral d) -> (Z.of_nat (vertex_count (DSpiral d)) <= 2 ^ 32)%Z -> solid (DSpiral d) -> generate (DSpiral d) m = Ok m' ->
  volume (geometry m' (new_triangles m m')) = spiral_volume d.
Proof.
  intros W L S G. rewrite (geometry_surface _ m m' W L G), vsum_volume. unfold surface. rewrite patches_vsum. assert (ET := segments_turns d S). destruct S as (Top & Bottom & _).
  rewrite screw_vsum by assumption. cbv zeta. unfold spiral_volume. rewrite bent_sums. cbv zeta. unfold bent_skew. set (U := Nat.max 3 (sp_u d)) in *. set (V := Nat.max 3 (sp_v d)). set (T := spiral_segments d) in *. set (turns := Rmax 0 (sp_turns d)) in *.
  assert (HV : (3 <= V)%nat) by (unfold V; lia). assert (HU : (3 <= U)%nat) by (unfold U; lia). assert (IU : INR U <> 0) by (apply not_0_INR; lia). destruct (full_angle U HU) as [_ EU]. clearbody U V T turns.
  assert (AT : at_angle 0 (full U) T = turns * pi_2) by (unfold at_angle; rewrite ET, EU; unfold pi_2; field; exact IU).
  assert (S2 : sin (4 * PI * turns) = 2 * (sin (turns * pi_2) * cos (turns * pi_2))) by (replace (4 * PI * turns) with (2 * (turns * pi_2)) by (unfold pi_2; ring); rewrite sin_2a; ring).
  rewrite partial_steps by exact HU. rewrite AT, <- EU, ET. replace (2 * (turns * pi_2)) with (4 * PI * turns) by (unfold pi_2; ring). 
  replace (turns * INR U * sin (full U)) with (turns * (INR U * sin (full U))) by ring. rewrite !full_sector by lia.
  assert (CU : (U =? 4)%nat = false -> cos (full U) <> 0).
  { intros N4. apply Nat.eqb_neq in N4. pose proof PI_RGT_0 as PP. pose proof (full_pos U ltac:(lia)) as FP. assert (I3 : 3 <= INR U) by (replace 3 with (INR 3) by (cbn; ring); apply le_INR; lia). destruct (Nat.lt_ge_cases U 4) as [L4|G4].
    - assert (I : INR U <= 3) by (replace 3 with (INR 3) by (cbn; ring); apply le_INR; lia). apply Rlt_not_eq, cos_lt_0; nra.
    - assert (I : 5 <= INR U) by (replace 5 with (INR 5) by (cbn; ring); apply le_INR; lia). apply Rgt_not_eq, cos_gt_0; nra. }
  destruct (sp_alt d); cbn [andb]; [destruct (V =? 4)%nat; [destruct (U =? 4)%nat eqn:U4|]|]; rewrite S2; field; auto.
Qed.

Lemma zsum_le n f g : (forall i, (i < n)%nat -> f i <= g i) -> zsum n f <= zsum n g.
Proof. induction n; intros H; cbn [zsum]; [lra|]. assert (A := IHn (fun i L => H i (Nat.lt_lt_succ_r _ _ L))). assert (B := H n (Nat.lt_succ_diag_r n)). lra. Qed.
Lemma zsum_abs n f : Rabs (zsum n f) <= zsum n (fun i => Rabs (f i)).
Proof. induction n; cbn [zsum]; [rewrite Rabs_R0; lra|]. apply Rle_trans with (1 := Rabs_triang _ _). lra. Qed.
Lemma alternate_abs alt i : Rabs (alternate alt i) = 1.
Proof. unfold alternate. destruct alt; [apply pow_1_abs|apply Rabs_R1]. Qed.

Lemma bent_bound d : solid (DSpiral d) ->
  Rabs (bent_spiral d) <= Rabs (sp_displacement d) * Rabs (vx (sp_tube d) * vz (sp_tube d)) * Rmax 0 (sp_turns d) * PI ^ 3 / (3 * INR (Nat.max 3 (sp_u d)) * INR (Nat.max 3 (sp_v d))).
Proof.
  intros S. assert (ET := segments_turns d S). rewrite bent_sums. cbv zeta. set (U := Nat.max 3 (sp_u d)) in *. set (V := Nat.max 3 (sp_v d)). set (T := spiral_segments d) in *.
  assert (HV : (3 <= V)%nat) by (unfold V; lia). assert (HU : (3 <= U)%nat) by (unfold U; lia). clearbody U V T.
  assert (IU : 0 < INR U) by (apply lt_0_INR; lia). assert (IV : 0 < INR V) by (apply lt_0_INR; lia). pose proof PI_RGT_0 as PP.
  destruct (full_angle U HU) as [SU EU]. set (r := vx (sp_tube d) * vz (sp_tube d)). set (turns := Rmax 0 (sp_turns d)) in *.
  assert (X : Rabs (zsum V (fun j => alternate (sp_alt d) j * (sin (at_angle 0 (full V) (j + 1)%nat) - sin (at_angle 0 (full V) j)) ^ 2)) <= 2 * PI ^ 2 / INR V).
  { apply Rle_trans with (1 := zsum_abs _ _). assert (E := tube_steps false 0 1 V HV). cbv zeta in E.
    eapply Rle_trans; [|apply Rle_trans with (1 ^ 2 * (2 * INR V * sin (PI / INR V) ^ 2)); [rewrite <- E; apply Req_le; reflexivity|]].
    - apply zsum_le. intros j _. rewrite Rabs_mult, alternate_abs. unfold alternate. rewrite !Rmult_1_l, !Rplus_0_l, !Rmult_1_r. apply Req_le. apply Rabs_pos_eq, pow2_ge_0.
    - assert (P0 : 0 <= PI / INR V) by (apply Rdiv_le_0_compat; lra).
      assert (P1 : PI / INR V <= PI) by (unfold Rdiv; rewrite <- (Rmult_1_r PI) at 2; apply Rmult_le_compat_l; [lra|]; rewrite <- Rinv_1; apply Rinv_le_contravar; [lra|]; replace 1 with (INR 1) by reflexivity; apply le_INR; lia).
      assert (Q := sin_below _ P0). assert (Q0 := sin_ge_0 _ P0 P1). assert (Q2 : sin (PI / INR V) ^ 2 <= (PI / INR V) ^ 2) by (apply pow_incr; lra).
      replace (1 ^ 2 * (2 * INR V * sin (PI / INR V) ^ 2)) with (2 * INR V * sin (PI / INR V) ^ 2) by ring. apply Rle_trans with (2 * INR V * (PI / INR V) ^ 2); [apply Rmult_le_compat_l; [lra|exact Q2]|]. apply Req_le. field. lra. }
  assert (Z : Rabs (zsum T (alternate (sp_alt d))) <= turns * INR U).
  { apply Rle_trans with (1 := zsum_abs _ _). rewrite (zsum_ext T _ (fun _ => 1)) by (intros; apply alternate_abs). rewrite zsum_const. lra. }
  assert (N : Rabs (sin (full U)) <= 2 * PI / INR U).
  { rewrite Rabs_pos_eq by (apply sin_ge_0; lra). rewrite <- EU. apply sin_below. lra. }
  rewrite !Rabs_mult with (y := zsum T _), Rabs_mult with (y := zsum V _), Rabs_mult with (y := r). unfold Rdiv at 1 2. rewrite !Rabs_mult with (y := / _), Rabs_mult with (y := sin _), !Rabs_mult with (y := / _), !Rabs_inv, (Rabs_pos_eq (INR U)), (Rabs_pos_eq 12) by lra.
  set (q := Rabs (sp_displacement d)). assert (Q0 : 0 <= q) by apply Rabs_pos. set (ar := Rabs r). assert (R0 : 0 <= ar) by apply Rabs_pos.
  apply Rle_trans with (q * / INR U * (2 * PI / INR U) * / 12 * ar * (2 * PI ^ 2 / INR V) * (turns * INR U)); [|apply Req_le; field; lra].
  assert (I : 0 <= q * / INR U) by (apply Rmult_le_pos; [exact Q0|apply Rlt_le, Rinv_0_lt_compat, IU]).
  apply Rmult_le_compat; [|apply Rabs_pos| |exact Z].
  - repeat apply Rmult_le_pos; try apply Rabs_pos; try exact Q0; try exact R0; try (apply Rlt_le, Rinv_0_lt_compat; lra).
  - apply Rmult_le_compat; [|apply Rabs_pos| |exact X]; [repeat apply Rmult_le_pos; try apply Rabs_pos; try exact Q0; try exact R0; try (apply Rlt_le, Rinv_0_lt_compat; lra)|].
    apply Rmult_le_compat_r; [exact R0|]. apply Rmult_le_compat_r; [lra|]. apply Rmult_le_compat_l; assumption.
Qed.
Theorem spiral_volume_bounds d : solid (DSpiral d) -> 0 < x2 (sp_ring d) -> 0 < y2 (sp_ring d) -> 0 < vx (sp_tube d) -> 0 < vy (sp_tube d) -> 0 < vz (sp_tube d) -> ~ (sp_alt d = true /\ Nat.max 3 (sp_v d) = 4%nat /\ skewed d <> 0) ->
  Rabs (spiral_volume d - exact_spiral d) <=
    PI ^ 2 * (x2 (sp_ring d) * vz (sp_tube d) + y2 (sp_ring d) * vx (sp_tube d)) * vy (sp_tube d) * Rmax 0 (sp_turns d) * (arc (Nat.max 3 (sp_u d)) + arc (Nat.max 3 (sp_v d))) +
    PI / 4 * Rabs (skewed d) * vy (sp_tube d) * arc (Nat.max 3 (sp_v d)) +
    Rabs (sp_displacement d) * (vx (sp_tube d) * vz (sp_tube d)) * Rmax 0 (sp_turns d) * PI ^ 3 / (3 * INR (Nat.max 3 (sp_u d)) * INR (Nat.max 3 (sp_v d))).
Proof.
  intros S G G' P Q P' NB. assert (B := bent_bound d S). rewrite (Rabs_pos_eq (vx (sp_tube d) * vz (sp_tube d))) in B by (apply Rmult_le_pos; lra). assert (T0 := Rmax_l 0 (sp_turns d)). pose proof PI_RGT_0 as PP.
  assert (NU := ngon_bounds (Nat.max 3 (sp_u d)) ltac:(lia)). assert (NV := ngon_bounds (Nat.max 3 (sp_v d)) ltac:(lia)).
  assert (U0 := ngon_pos (Nat.max 3 (sp_u d)) ltac:(lia)). assert (V0 := ngon_pos (Nat.max 3 (sp_v d)) ltac:(lia)).
  assert (AU := arc_pos (Nat.max 3 (sp_u d)) ltac:(lia)). assert (AV := arc_pos (Nat.max 3 (sp_v d)) ltac:(lia)).
  assert (BS : bent_skew d = 0). { unfold bent_skew. destruct (sp_alt d) eqn:EA; [|reflexivity]. destruct (Nat.max 3 (sp_v d) =? 4)%nat eqn:E4; [|reflexivity]. cbn [andb]. destruct (Req_dec (skewed d) 0) as [Z|Z]; [rewrite Z; unfold Rdiv; ring|]. exfalso. apply NB. split; [reflexivity|]. split; [now apply Nat.eqb_eq|exact Z]. }
  unfold spiral_volume, exact_spiral. cbv zeta. rewrite BS, Rplus_0_r. set (turns := Rmax 0 (sp_turns d)) in *. set (w := x2 (sp_ring d) * vz (sp_tube d) + y2 (sp_ring d) * vx (sp_tube d)). assert (W0 : 0 <= w) by (unfold w; apply Rplus_le_le_0_compat; apply Rmult_le_pos; lra). set (k := vy (sp_tube d) * w * turns).
  assert (K : 0 <= k) by (unfold k; repeat apply Rmult_le_pos; lra).
  assert (Z := bounds2 k _ PI _ _ PI _ K (Rlt_le _ _ U0) (Rlt_le _ _ V0) (Rlt_le _ _ PP) AU AV (Rlt_le _ _ PP) NU NV).
  set (E := _ / (3 * _ * _)) in *. set (b := bent_spiral d) in *. set (n1 := ngon (Nat.max 3 (sp_u d))) in *. set (n2 := ngon (Nat.max 3 (sp_v d))) in *. set (eU := arc (Nat.max 3 (sp_u d))) in *. set (eV := arc (Nat.max 3 (sp_v d))) in *. set (sn := sin (4 * PI * turns)). set (ty := vy (sp_tube d)) in *. set (D := skewed d) in *.
  replace (ty * n2 * (w * turns * n1 + D / 4 * sn) + b - ty * PI * (w * turns * PI + D / 4 * sn)) with ((k * n1 * n2 - k * PI * PI) + D * sn * (ty / 4 * (n2 - PI)) + b) by (unfold k; field).
  apply Rle_trans with (1 := Rabs_triang _ _). apply Rplus_le_compat; [|exact B]. apply Rle_trans with (1 := Rabs_triang _ _). apply Rplus_le_compat.
  - replace (PI ^ 2 * w * ty * turns) with (k * PI * PI) by (unfold k; ring). set (x := k * n1 * n2) in *. set (y := k * PI * PI) in *.
    assert (Y0 : 0 <= y * (eU + eV)) by (apply Rmult_le_pos; [apply Rmult_le_pos; [apply Rmult_le_pos|]|]; lra || exact K). apply Rabs_le. lra.
  - assert (SB : Rabs sn <= 1) by (apply Rabs_le; apply SIN_bound). rewrite !Rabs_mult. assert (N2 : Rabs (n2 - PI) <= PI * eV) by (apply Rabs_le; lra). rewrite (Rabs_pos_eq (ty / 4)) by lra.
    replace (PI / 4 * Rabs D * ty * eV) with (Rabs D * 1 * (ty / 4 * (PI * eV))) by field. pose proof (Rabs_pos D). pose proof (Rabs_pos (n2 - PI)).
    apply Rmult_le_compat; [apply Rmult_le_pos; [assumption|apply Rabs_pos]|apply Rmult_le_pos; lra|apply Rmult_le_compat_l; assumption|apply Rmult_le_compat_l; lra].
Qed.
Lemma Int_part_8 : Int_part (INR 8) = 8%Z.
Proof. rewrite Int_part_INR. reflexivity. Qed.
