(** * C106: vertices of generated ellipsoids and cones in double precision *)
From Coq Require Import ZArith Reals List Bool Lia Lra.
From Flocq Require Import Core IEEE754.BinarySingleNaN.
From Verif Require Import Model.Scalar Model.Vec Model.BoxFloat Model.PlaneFloat Model.ClipFloat Model.KeyframeFloat Model.MeshFloat Model.ConeFloat Spec.FloatSpec Spec.MeshFloatSpec Spec.ConeFloatSpec
  Proofs.PlaneFloatLemmas Proofs.ClipFloatLemmas Proofs.FrustumFloatLemmas Proofs.KeyframeFloatLemmas Proofs.MeshFloatLemmas Proofs.ConeFloatLemmas Props.MeshFloatProps.
Local Open Scope R_scope.

Lemma slack46 : bpow radix2 (-46) = 128 * u.
Proof. change (-46)%Z with (7 + -53)%Z. rewrite bpow_plus. reflexivity. Qed.

(** The vertices of an ellipsoid are close to the exact ones. *)
Theorem C106_ellipsoid : forall fsin fcos, trigonometry fsin fcos -> forall n m rx ry rz u v, (1 <= n <= 2 ^ 32)%Z -> (1 <= m <= 2 ^ 32)%Z -> sized rx -> sized ry -> sized rz -> (0 <= u <= n)%Z -> (0 <= v <= m)%Z ->
  let p := exact_vec (fellipsoid fsin fcos n m rx ry rz u v) in let q := ellipsoid_point n m (B2R rx) (B2R ry) (B2R rz) u v in
  Rabs (vx p - vx q) <= bpow radix2 (-46) * Rabs (B2R rx) + bpow radix2 (-1070) /\
  Rabs (vy p - vy q) <= bpow radix2 (-46) * Rabs (B2R ry) + bpow radix2 (-1070) /\
  Rabs (vz p - vz q) <= bpow radix2 (-46) * Rabs (B2R rz) + bpow radix2 (-1070).
Proof.
  intros fsin fcos (TS & TC & _) n m rx ry rz u v N M [FX BX] [FY BY] [FZ BZ] U V p q. assert (US := v_small). assert (ES := eta_small). assert (TY := tiny). rewrite slack46. set (w := bpow radix2 (-53)) in *.
  destruct (turn_near n N u U) as (F1 & E1 & B1). destruct (half_turn_near m v M V) as (F0 & E0 & B0). fold w in E1, E0. assert (D : 0 <= 32 * w <= 0.01) by lra.
  destruct (value_near fsin sin _ _ _ TS SIN_bound sin_steady F0 B0 E0 D) as (FS0 & ES0 & BS0). destruct (value_near fsin sin _ _ _ TS SIN_bound sin_steady F1 B1 E1 D) as (FS1 & ES1 & BS1). destruct (value_near fcos cos _ _ _ TC COS_bound cos_steady F1 B1 E1 D) as (FC1 & EC1 & BC1).
  fold w in ES0, ES1, EC1. assert (AS : Rabs (sin (PI * (IZR v / IZR m))) <= 1) by (apply Rabs_le, SIN_bound).
  destruct (double_trig _ _ rx _ _ FS0 FC1 FX BX ES0 EC1 BS0 BC1 AS) as [_ EX]. destruct (double_trig _ _ rz _ _ FS0 FS1 FZ BZ ES0 ES1 BS0 BS1 AS) as [_ EZ]. destruct (trig_near fcos cos _ ry _ _ TC COS_bound cos_steady F0 B0 E0 D FY BY) as [_ EY]. fold w in EX, EY, EZ.
  split; [|split]; (eapply Rle_trans; [eassumption|]; apply Rplus_le_compat; [apply Rmult_le_compat_r; [apply Rabs_pos|lra]|lra]).
Qed.
Print Assumptions C106_ellipsoid.

(** They satisfy the equation of the ellipsoid up to 2^-43, *)
Theorem C106_surface : forall fsin fcos, trigonometry fsin fcos -> forall n m rx ry rz u v, (1 <= n <= 2 ^ 32)%Z -> (1 <= m <= 2 ^ 32)%Z -> sized rx -> sized ry -> sized rz -> (0 <= u <= n)%Z -> (0 <= v <= m)%Z ->
  bpow radix2 (-900) <= Rabs (B2R rx) -> bpow radix2 (-900) <= Rabs (B2R ry) -> bpow radix2 (-900) <= Rabs (B2R rz) ->
  Rabs (off_ellipsoid (B2R rx) (B2R ry) (B2R rz) (exact_vec (fellipsoid fsin fcos n m rx ry rz u v))) <= bpow radix2 (-43).
Proof.
  intros fsin fcos T n m rx ry rz u v N M X Y Z U V LX LY LZ. destruct (C106_ellipsoid fsin fcos T n m rx ry rz u v N M X Y Z U V) as (EX & EY & EZ). set (p := exact_vec (fellipsoid fsin fcos n m rx ry rz u v)) in *. clearbody p.
  assert (US := v_small). rewrite slack46 in *. assert (S43 : bpow radix2 (-43) = 1024 * bpow radix2 (-53)) by (change (-43)%Z with (10 + -53)%Z; rewrite bpow_plus; reflexivity). rewrite S43. set (w := bpow radix2 (-53)) in *.
  assert (K : forall a r c, bpow radix2 (-900) <= Rabs r -> Rabs c <= 1 -> Rabs (a - r * c) <= 128 * w * Rabs r + bpow radix2 (-1070) -> Rabs ((a / r) ^ 2 - c ^ 2) <= 270 * w).
  { intros a r c L C E. assert (B0 := bpow_gt_0 radix2 (-900)). assert (NR : r <> 0) by (intros ->; rewrite Rabs_R0 in L; lra).
    assert (TN : bpow radix2 (-1070) <= w * Rabs r). { apply Rle_trans with (w * bpow radix2 (-900)); [unfold w; rewrite <- bpow_plus; apply bpow_le; lia|apply Rmult_le_compat_l; lra]. }
    assert (E2 : Rabs (a / r - c) <= 129 * w). { replace (a / r - c) with ((a - r * c) / r) by (field; exact NR). unfold Rdiv. rewrite Rabs_mult, Rabs_inv. apply Rmult_le_reg_r with (Rabs r); [lra|]. rewrite Rmult_assoc, Rinv_l, Rmult_1_r by lra. lra. }
    replace ((a / r) ^ 2 - c ^ 2) with ((a / r - c) * (a / r - c + 2 * c)) by ring. rewrite Rabs_mult. assert (S2 : Rabs (a / r - c + 2 * c) <= 2.01) by (apply Rabs_le_inv in E2, C; apply Rabs_le; lra).
    apply Rle_trans with (129 * w * 2.01); [apply Rmult_le_compat; try apply Rabs_pos; assumption|lra]. }
  unfold ellipsoid_point in *. cbv zeta in *. cbn [vx vy vz] in *. set (th := PI * (IZR v / IZR m)) in *. set (ph := part n u) in *.
  assert (A1 : Rabs (sin th) <= 1) by (apply Rabs_le, SIN_bound). assert (A2 : Rabs (cos th) <= 1) by (apply Rabs_le, COS_bound). assert (A3 : Rabs (sin ph) <= 1) by (apply Rabs_le, SIN_bound). assert (A4 : Rabs (cos ph) <= 1) by (apply Rabs_le, COS_bound).
  assert (P1 : Rabs (sin th * cos ph) <= 1) by (rewrite Rabs_mult; apply Rle_trans with (1 * 1); [apply Rmult_le_compat; try apply Rabs_pos; assumption|lra]). assert (P2 : Rabs (sin th * sin ph) <= 1) by (rewrite Rabs_mult; apply Rle_trans with (1 * 1); [apply Rmult_le_compat; try apply Rabs_pos; assumption|lra]).
  assert (H1 := K _ _ _ LX P1 EX). assert (H2 := K _ _ _ LY A2 EY). assert (H3 := K _ _ _ LZ P2 EZ).
  assert (ONE : (sin th * cos ph) ^ 2 + cos th ^ 2 + (sin th * sin ph) ^ 2 = 1). { assert (Q1 := sin2_cos2 th). assert (Q2 := sin2_cos2 ph). unfold Rsqr in *. replace ((sin th * cos ph) ^ 2 + cos th ^ 2 + (sin th * sin ph) ^ 2) with (sin th * sin th * (sin ph * sin ph + cos ph * cos ph) + cos th * cos th) by ring. rewrite Q2. lra. }
  unfold off_ellipsoid. apply Rabs_le_inv in H1, H2, H3. apply Rabs_le. lra.
Qed.
Print Assumptions C106_surface.

(** the first and the last column are close to each other, and all vertices of the first and the last ring are close to the poles. *)
Theorem C106_closed : forall fsin fcos, trigonometry fsin fcos -> forall n m rx ry rz, (1 <= n <= 2 ^ 32)%Z -> (1 <= m <= 2 ^ 32)%Z -> sized rx -> sized ry -> sized rz ->
  let p u v := exact_vec (fellipsoid fsin fcos n m rx ry rz u v) in
  (forall v, (0 <= v <= m)%Z -> Rabs (vx (p n v) - vx (p 0%Z v)) <= bpow radix2 (-45) * Rabs (B2R rx) + bpow radix2 (-1069) /\ vy (p n v) = vy (p 0%Z v) /\ Rabs (vz (p n v) - vz (p 0%Z v)) <= bpow radix2 (-45) * Rabs (B2R rz) + bpow radix2 (-1069)) /\
  (forall u v s, (0 <= u <= n)%Z -> (v = 0 /\ s = 1 \/ v = m /\ s = -1)%Z ->
    Rabs (vx (p u v)) <= bpow radix2 (-46) * Rabs (B2R rx) + bpow radix2 (-1070) /\ Rabs (vy (p u v) - IZR s * B2R ry) <= bpow radix2 (-46) * Rabs (B2R ry) + bpow radix2 (-1070) /\ Rabs (vz (p u v)) <= bpow radix2 (-46) * Rabs (B2R rz) + bpow radix2 (-1070)).
Proof.
  intros fsin fcos T n m rx ry rz N M X Y Z p. assert (NZ : IZR n <> 0) by (assert (1 <= IZR n) by (apply IZR_le; lia); lra). assert (MZ : IZR m <> 0) by (assert (1 <= IZR m) by (apply IZR_le; lia); lra).
  assert (E45 : bpow radix2 (-45) = 2 * bpow radix2 (-46)) by exact (double_pow (-46)). assert (E69 : bpow radix2 (-1069) = 2 * bpow radix2 (-1070)) by exact (double_pow (-1070)). split.
  - intros v V. destruct (C106_ellipsoid fsin fcos T n m rx ry rz n v N M X Y Z ltac:(lia) V) as (X1 & _ & Z1). destruct (C106_ellipsoid fsin fcos T n m rx ry rz 0 v N M X Y Z ltac:(lia) V) as (X0 & _ & Z0). fold (p n v) in X1, Z1. fold (p 0%Z v) in X0, Z0.
    unfold ellipsoid_point in *. cbv zeta in *. cbn [vx vy vz] in *. assert (P0 : part n 0 = 0) by (unfold part; field; exact NZ). assert (P1 : part n n = 2 * PI) by (unfold part; field; exact NZ). rewrite P0, sin_0, cos_0 in *. rewrite P1, sin_2PI, cos_2PI in *. rewrite E45, E69.
    apply Rabs_le_inv in X0, X1, Z0, Z1. split; [apply Rabs_le; lra|]. split; [reflexivity|apply Rabs_le; lra].
  - intros u v s U H. destruct (C106_ellipsoid fsin fcos T n m rx ry rz u v N M X Y Z U ltac:(lia)) as (X1 & Y1 & Z1). fold (p u v) in X1, Y1, Z1. unfold ellipsoid_point in *. cbv zeta in *. cbn [vx vy vz] in *.
    assert (Q : sin (PI * (IZR v / IZR m)) = 0 /\ cos (PI * (IZR v / IZR m)) = IZR s).
    { destruct H as [[-> ->]|[-> ->]]; [replace (PI * (IZR 0 / IZR m)) with 0 by (field; exact MZ); now rewrite sin_0, cos_0|replace (PI * (IZR m / IZR m)) with PI by (field; exact MZ); now rewrite sin_PI, cos_PI]. }
    destruct Q as [Q1 Q2]. rewrite Q1, Q2, !Rmult_0_l, !Rmult_0_r, !Rminus_0_r in *. rewrite (Rmult_comm (IZR s)). auto.
Qed.
Print Assumptions C106_closed.

(** The vertices of the mantle of a cone are close to the exact ones; the angles are added up, so column by column the error grows. *)
Theorem C106_cone : forall fsin fcos, trigonometry fsin fcos -> forall n m rx rz h u v, (1 <= n <= 2 ^ 20)%Z -> (1 <= m <= 2 ^ 32)%Z -> sized rx -> sized rz -> sized h -> (Z.of_nat u <= n)%Z -> (0 <= v <= m)%Z ->
  let p := exact_vec (fcone fsin fcos n m rx rz h u v) in let q := cone_point n m (B2R rx) (B2R rz) (B2R h) (Z.of_nat u) v in
  Rabs (vx p - vx q) <= bpow radix2 (-50) * (INR u + 3) * Rabs (B2R rx) + bpow radix2 (-1070) /\
  Rabs (vy p - vy q) <= bpow radix2 (-50) * Rabs (B2R h) + bpow radix2 (-1070) /\
  Rabs (vz p - vz q) <= bpow radix2 (-50) * (INR u + 3) * Rabs (B2R rz) + bpow radix2 (-1070).
Proof.
  intros fsin fcos (TS & TC & _) n m rx rz h u v N M [FX BX] [FZ BZ] [FH BH] U V p q. assert (ES := eta_small). assert (TY := tiny). rewrite slack50.
  destruct (spread_near fsin sin n m rx u v TS SIN_bound sin_steady N M FX BX U V) as [_ EX]. destruct (spread_near fcos cos n m rz u v TC COS_bound cos_steady N M FZ BZ U V) as [_ EZ]. destruct (height_near m h v M V FH BH) as [_ EY].
  split; [|split]; (eapply Rle_trans; [eassumption|]; lra).
Qed.
Print Assumptions C106_cone.

(** So are those of its bottom, *)
Theorem C106_cone_cover : forall fsin fcos, trigonometry fsin fcos -> forall n c rx rz h u v, (1 <= n <= 2 ^ 20)%Z -> (1 <= c <= 2 ^ 32)%Z -> sized rx -> sized rz -> sized h -> (Z.of_nat u <= n)%Z -> (0 <= v <= c)%Z ->
  let p := exact_vec (fcone_cover fsin fcos n c rx rz h u v) in let q := cone_cover_point n c (B2R rx) (B2R rz) (B2R h) (Z.of_nat u) v in
  Rabs (vx p - vx q) <= bpow radix2 (-50) * (INR u + 3) * Rabs (B2R rx) + bpow radix2 (-1070) /\
  Rabs (vy p - vy q) <= bpow radix2 (-54) * Rabs (B2R h) + bpow radix2 (-1070) /\
  Rabs (vz p - vz q) <= bpow radix2 (-50) * (INR u + 3) * Rabs (B2R rz) + bpow radix2 (-1070).
Proof.
  intros fsin fcos (TS & TC & _) n c rx rz h u v N M [FX BX] [FZ BZ] [FH BH] U V p q. assert (ES := eta_small). assert (TY := tiny). rewrite slack50.
  destruct (spread_near fsin sin n c rx u v TS SIN_bound sin_steady N M FX BX U V) as [_ EX]. destruct (spread_near fcos cos n c rz u v TC COS_bound cos_steady N M FZ BZ U V) as [_ EZ]. destruct (half_height_near h FH BH) as (FHH & EH & _). destruct (share_near c M v V) as (FT & _).
  destruct (opp_value (fhalf_height h)) as [FO VO]. destruct (lerp_same (Bopp (fhalf_height h)) (fshare c v)) as [_ LY]; [rewrite FO; exact FHH|exact FT|].
  split; [eapply Rle_trans; [exact EX|]; lra|]. split; [|eapply Rle_trans; [exact EZ|]; lra]. unfold p, q, fcone_cover, fcone_rim, cone_cover_point, exact_vec, flerp3. cbv zeta. cbn [fx fy fz vx vy vz]. rewrite LY, VO.
  assert (E54 : bpow radix2 (-53) * (Rabs (B2R h) / 2) = bpow radix2 (-54) * Rabs (B2R h)) by (assert (W : bpow radix2 (-53) = 2 * bpow radix2 (-54)) by exact (double_pow (-54)); rewrite W; field). rewrite E54 in EH. apply Rabs_le_inv in EH. apply Rabs_le. lra.
Qed.
Print Assumptions C106_cone_cover.

(** and the rim of the bottom has exactly the vertices of the last row of the mantle, for up to 48 rows and rings. *)
Theorem C106_cone_rims : forall fsin fcos, trigonometry fsin fcos -> forall n m c rx rz h u, (1 <= n <= 2 ^ 20)%Z -> (1 <= m <= 48)%Z -> (1 <= c <= 48)%Z -> sized rx -> sized rz -> sized h -> (Z.of_nat u <= n)%Z ->
  exact_vec (fcone_cover fsin fcos n c rx rz h u c) = exact_vec (fcone fsin fcos n m rx rz h u m).
Proof.
  intros fsin fcos (TS & TC & _) n m c rx rz h u N M C [FX BX] [FZ BZ] [FH BH] U.
  assert (N2 : (1 <= n <= 2 ^ 32)%Z) by lia. destruct (angle_exact n N2 u U ltac:(lia)) as (FA & EA & BA). assert (US := v_small). set (w := bpow radix2 (-53)) in *.
  assert (UN : 0 <= INR u <= 1048576) by (split; [apply pos_INR|rewrite INR_IZR_INZ; apply IZR_le; lia]). assert (WU : 0 <= w * INR u <= w * 1048576) by (split; [apply Rmult_le_pos; lra|apply Rmult_le_compat_l; lra]). assert (W3 : w * 1048576 <= 0.0001) by (change w with (/ 9007199254740992); lra).
  assert (D : 0 <= 8 * w * (INR u + 2) <= 0.01) by lra.
  destruct (trig_near fsin sin (fangle n u) rx _ _ TS SIN_bound sin_steady FA BA EA D FX BX) as [FRX _]. destruct (trig_near fcos cos (fangle n u) rz _ _ TC COS_bound cos_steady FA BA EA D FZ BZ) as [FRZ _].
  fold (fring_x fsin n rx u) in FRX. fold (fring_z fcos n rz u) in FRZ.
  destruct (whole_share c C) as [FC VC]. destruct (whole_share m M) as [FM VM]. destruct (half_height_near h FH BH) as (FHH & _ & BHH). destruct (opp_value (fhalf_height h)) as [FO VO].
  destruct (lerp_one _ _ FRX FC VC) as [_ LX]. destruct (lerp_one _ _ FRZ FC VC) as [_ LZ]. destruct (lerp_one _ _ FRX FM VM) as [_ KX]. destruct (lerp_one _ _ FRZ FM VM) as [_ KZ].
  destruct (lerp_same (Bopp (fhalf_height h)) (fshare c c)) as [_ LY]; [rewrite FO; exact FHH|exact FC|].
  unfold fcone_cover, fcone, fcone_rim, fcone_tip, exact_vec, flerp3. cbn [fx fy fz]. rewrite LX, LZ, KX, KZ, LY, VO, (bottom_value _ _ FHH BHH FM VM). reflexivity.
Qed.
Print Assumptions C106_cone_rims.

(** With 49 rings there is a gap: 49 * (1 / 49) is not 1. *)
Theorem C106_cone_rims_refuted : exists n m c rx rz h, sized rx /\ sized rz /\ sized h /\ (1 <= n <= 2 ^ 20)%Z /\ (1 <= m)%Z /\ (1 <= c)%Z /\ forall fsin fcos, trigonometry fsin fcos ->
  vz (exact_vec (fcone_cover fsin fcos n c rx rz h 0 c)) < vz (exact_vec (fcone fsin fcos n m rx rz h 0 m)).
Proof.
  assert (S1 : sized b64_1) by apply C98_example. exists 8%Z, 1%Z, 49%Z, b64_1, b64_1, b64_1. split; [exact S1|]. split; [exact S1|]. split; [exact S1|]. split; [lia|]. split; [lia|]. split; [lia|]. intros fsin fcos (_ & TC & C0).
  unfold fcone, fcone_cover, fcone_rim, fcone_tip, fring_z, exact_vec, flerp3. cbn [fx fy fz vz fangle]. destruct (TC b64_0 eq_refl ltac:(change (B2R b64_0) with 0; rewrite Rabs_R0; lra)) as [F0 _]. destruct one_value as [V1 F1].
  assert (P1 : 1 < bpow radix2 1024) by (change 1 with (bpow radix2 0); apply bpow_lt; lia). assert (P2 : 1 <= bpow radix2 1002) by (change 1 with (bpow radix2 0); apply bpow_le; lia).
  assert (Z : is_finite (b64_mul (fcos b64_0) b64_1) = true /\ B2R (b64_mul (fcos b64_0) b64_1) = 1). { destruct (mul_exact (fcos b64_0) b64_1 F0 F1) as [G V]; [rewrite C0, V1, Rmult_1_r; apply format_1|rewrite C0, V1, Rmult_1_r, Rabs_R1; exact P1|]. split; [exact G|]. rewrite V, C0, V1. ring. }
  destruct Z as [FZ VZ]. set (z := b64_mul (fcos b64_0) b64_1) in *. destruct (whole_share 1 ltac:(lia)) as [FS1 VS1]. destruct (lerp_one z (fshare 1 1) FZ FS1 VS1) as [_ ->]. rewrite VZ.
  assert (FS : is_finite (fshare 49 49) = true) by (vm_compute; reflexivity). assert (L : Bltb (fshare 49 49) b64_1 = true) by (vm_compute; reflexivity). assert (L2 : Bltb (fshare 49 49) b64_0 = false) by (vm_compute; reflexivity).
  apply (blt _ _ FS F1) in L. rewrite V1 in L. apply (blt_false _ b64_0 FS eq_refl) in L2. change (B2R b64_0) with 0 in L2.
  destruct (lerp_zero z (fshare 49 49) FZ FS) as [_ ->]; [rewrite VZ, Rabs_R1; exact P2|rewrite Rabs_pos_eq; lra|]. rewrite VZ, Rmult_1_l, format_b64. exact L.
Qed.
Print Assumptions C106_cone_rims_refuted.

(** Numbers for which this holds: unit radii, with the rounded sine and cosine *)
Example C106_case : exists fsin fcos, trigonometry fsin fcos /\ sized b64_1 /\ bpow radix2 (-900) <= Rabs (B2R b64_1) /\
  Rabs (off_ellipsoid 1 1 1 (exact_vec (fellipsoid fsin fcos 12 7 b64_1 b64_1 b64_1 5 3))) <= bpow radix2 (-43).
Proof.
  destruct C98_example as [T S]. destruct one_value as [V F]. assert (L : bpow radix2 (-900) <= Rabs (B2R b64_1)) by (rewrite V, Rabs_R1; change 1 with (bpow radix2 0); apply bpow_le; lia).
  do 2 eexists. split; [exact T|]. split; [exact S|]. split; [exact L|]. assert (K := C106_surface _ _ T 12 7 b64_1 b64_1 b64_1 5 3 ltac:(lia) ltac:(lia) S S S ltac:(lia) ltac:(lia) L L L). rewrite V in K. exact K.
Qed.
