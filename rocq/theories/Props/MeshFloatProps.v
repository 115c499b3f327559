(** * C98: vertices of generated cylinders and tori in double precision *)
From Coq Require Import ZArith Reals List Bool Lia Lra.
From Flocq Require Import Core IEEE754.BinarySingleNaN.
From Verif Require Import Model.Scalar Model.Vec Model.BoxFloat Model.PlaneFloat Model.ClipFloat Model.KeyframeFloat Model.MeshFloat Spec.FloatSpec Spec.MeshFloatSpec
  Proofs.PlaneFloatLemmas Proofs.ClipFloatLemmas Proofs.FrustumFloatLemmas Proofs.KeyframeFloatLemmas Proofs.MeshFloatLemmas.
Local Open Scope R_scope.

(** A size: finite and at most 2^1000 *)
Definition sized (x : b64) : Prop := is_finite x = true /\ Rabs (B2R x) <= bpow radix2 1000.

Lemma slack50 : bpow radix2 (-50) = 8 * u.
Proof. change (-50)%Z with (3 + -53)%Z. rewrite bpow_plus. reflexivity. Qed.
Lemma tiny : 16 * eta <= bpow radix2 (-1070).
Proof. change 16 with (bpow radix2 4). rewrite <- bpow_plus. apply bpow_le. lia. Qed.

(** The vertices of the mantle of a cylinder are at most (u + 3) parts in 2^50 of the radius away from the exact ones: the angles are added up, so column by column the error grows. *)
Theorem C98_cylinder : forall fsin fcos, trigonometry fsin fcos -> forall n m rx rz h u v, (1 <= n <= 2 ^ 20)%Z -> (1 <= m <= 2 ^ 32)%Z -> sized rx -> sized rz -> sized h -> (Z.of_nat u <= n)%Z -> (0 <= v <= m)%Z ->
  let p := exact_vec (fmantle fsin fcos n m rx rz h u v) in let q := cylinder_point n m (B2R rx) (B2R rz) (B2R h) (Z.of_nat u) v in
  Rabs (vx p - vx q) <= bpow radix2 (-50) * (INR u + 3) * Rabs (B2R rx) + bpow radix2 (-1070) /\
  Rabs (vy p - vy q) <= bpow radix2 (-50) * Rabs (B2R h) + bpow radix2 (-1070) /\
  Rabs (vz p - vz q) <= bpow radix2 (-50) * (INR u + 3) * Rabs (B2R rz) + bpow radix2 (-1070).
Proof.
  intros fsin fcos (TS & TC & _) n m rx rz h u v N M [FX BX] [FZ BZ] [FH BH] U V p q.
  assert (N2 : (1 <= n <= 2 ^ 32)%Z) by lia. destruct (angle_exact n N2 u U ltac:(lia)) as (FA & EA & BA). pose proof v_small as US. pose proof eta_small as ES. pose proof tiny as TY. rewrite slack50. set (w := bpow radix2 (-53)) in *.
  assert (UN : 0 <= INR u <= 1048576) by (split; [apply pos_INR|rewrite INR_IZR_INZ; apply IZR_le; lia]). assert (WU : 0 <= w * INR u <= w * 1048576) by (split; [apply Rmult_le_pos; lra|apply Rmult_le_compat_l; lra]). assert (W3 : w * 1048576 <= 0.0001) by (change w with (/ 9007199254740992); lra).
  assert (D : 0 <= 8 * w * (INR u + 2) <= 0.01) by lra.
  destruct (trig_near fsin sin (fangle n u) rx _ _ TS SIN_bound sin_steady FA BA EA D FX BX) as [_ EX]. destruct (trig_near fcos cos (fangle n u) rz _ _ TC COS_bound cos_steady FA BA EA D FZ BZ) as [_ EZ]. destruct (height_near m h v M V FH BH) as [_ EY].
  fold w in EX, EY, EZ. set (s := 8 * w * (INR u + 2)) in *.
  split; [|split].
  - eapply Rle_trans; [exact EX|]. apply Rplus_le_compat; [apply Rmult_le_compat_r; [apply Rabs_pos|unfold s; lra]|lra].
  - eapply Rle_trans; [exact EY|]. lra.
  - eapply Rle_trans; [exact EZ|]. apply Rplus_le_compat; [apply Rmult_le_compat_r; [apply Rabs_pos|unfold s; lra]|lra].
Qed.
Print Assumptions C98_cylinder.

(** So the first and the last column, which should be the same, are close to each other, and at equal heights. *)
Theorem C98_seam : forall fsin fcos, trigonometry fsin fcos -> forall n m rx rz h v, (1 <= n <= 2 ^ 20)%Z -> (1 <= m <= 2 ^ 32)%Z -> sized rx -> sized rz -> sized h -> (0 <= v <= m)%Z ->
  let p := exact_vec (fmantle fsin fcos n m rx rz h 0 v) in let q := exact_vec (fmantle fsin fcos n m rx rz h (Z.to_nat n) v) in
  Rabs (vx q - vx p) <= bpow radix2 (-50) * (IZR n + 6) * Rabs (B2R rx) + bpow radix2 (-1069) /\ vy q = vy p /\
  Rabs (vz q - vz p) <= bpow radix2 (-50) * (IZR n + 6) * Rabs (B2R rz) + bpow radix2 (-1069).
Proof.
  intros fsin fcos T n m rx rz h v N M X Z H V p q. assert (NZ : IZR n <> 0) by (assert (1 <= IZR n) by (apply IZR_le; lia); lra).
  destruct (C98_cylinder fsin fcos T n m rx rz h 0 v N M X Z H ltac:(lia) V) as (X0 & _ & Z0). destruct (C98_cylinder fsin fcos T n m rx rz h (Z.to_nat n) v N M X Z H ltac:(lia) V) as (X1 & _ & Z1).
  fold p in X0, Z0. fold q in X1, Z1. unfold cylinder_point in *. cbn [vx vy vz] in *. assert (P0 : part n (Z.of_nat 0) = 0) by (unfold part; cbn [Z.of_nat]; field; exact NZ). assert (P1 : part n (Z.of_nat (Z.to_nat n)) = 2 * PI) by (unfold part; rewrite Z2Nat.id by lia; field; exact NZ).
  rewrite P0, sin_0, cos_0 in *. rewrite P1, sin_2PI, cos_2PI in *. replace (INR (Z.to_nat n)) with (IZR n) in * by (rewrite INR_IZR_INZ, Z2Nat.id by lia; reflexivity). cbn [INR] in X0, Z0.
  assert (E : bpow radix2 (-1069) = 2 * bpow radix2 (-1070)) by exact (double_pow (-1070)). rewrite E. apply Rabs_le_inv in X0. apply Rabs_le_inv in X1. apply Rabs_le_inv in Z0. apply Rabs_le_inv in Z1.
  split; [apply Rabs_le; lra|]. split; [reflexivity|apply Rabs_le; lra].
Qed.
Print Assumptions C98_seam.

(** The rims of the covers have exactly the vertices of the first and the last row of the mantle, for up to 48 rows and rings: mantle and covers have no gap. *)
Theorem C98_rims : forall fsin fcos, trigonometry fsin fcos -> forall n m c rx rz h u, (1 <= n <= 2 ^ 20)%Z -> (1 <= m <= 48)%Z -> (1 <= c <= 48)%Z -> sized rx -> sized rz -> sized h -> (Z.of_nat u <= n)%Z ->
  exact_vec (fcover fsin fcos false n c rx rz h u c) = exact_vec (fmantle fsin fcos n m rx rz h u m) /\
  exact_vec (fcover fsin fcos true n c rx rz h u c) = exact_vec (fmantle fsin fcos n m rx rz h u 0).
Proof.
  intros fsin fcos (TS & TC & _) n m c rx rz h u N M C [FX BX] [FZ BZ] [FH BH] U.
  assert (N2 : (1 <= n <= 2 ^ 32)%Z) by lia. destruct (angle_exact n N2 u U ltac:(lia)) as (FA & EA & BA). pose proof v_small as US. set (w := bpow radix2 (-53)) in *.
  assert (UN : 0 <= INR u <= 1048576) by (split; [apply pos_INR|rewrite INR_IZR_INZ; apply IZR_le; lia]). assert (WU : 0 <= w * INR u <= w * 1048576) by (split; [apply Rmult_le_pos; lra|apply Rmult_le_compat_l; lra]). assert (W3 : w * 1048576 <= 0.0001) by (change w with (/ 9007199254740992); lra).
  assert (D : 0 <= 8 * w * (INR u + 2) <= 0.01) by lra.
  destruct (trig_near fsin sin (fangle n u) rx _ _ TS SIN_bound sin_steady FA BA EA D FX BX) as [FRX _]. destruct (trig_near fcos cos (fangle n u) rz _ _ TC COS_bound cos_steady FA BA EA D FZ BZ) as [FRZ _].
  fold (fring_x fsin n rx u) in FRX. fold (fring_z fcos n rz u) in FRZ.
  destruct (whole_share c C) as [FC VC]. destruct (whole_share m M) as [FM VM]. destruct (no_share m ltac:(lia)) as [F0 V0]. destruct (half_height_near h FH BH) as (FHH & _ & BHH).
  destruct (lerp_one _ _ FRX FC VC) as [_ LX]. destruct (lerp_one _ _ FRZ FC VC) as [_ LZ].
  destruct (side_value (fhalf_height h) false FHH) as [FB VB]. destruct (side_value (fhalf_height h) true FHH) as [FT VT]. destruct (lerp_same _ (fshare c c) FB FC) as [_ LB]. destruct (lerp_same _ (fshare c c) FT FC) as [_ LT].
  unfold fcover, fmantle, exact_vec, flerp3. cbv zeta. cbn [fx fy fz]. rewrite LX, LZ, LB, LT, VB, VT, (bottom_value _ _ FHH BHH FM VM), (top_value _ _ FHH BHH F0 V0). now split.
Qed.
Print Assumptions C98_rims.

(** The vertices of a torus are close to the exact ones; here each angle is a product. *)
Theorem C98_torus : forall fsin fcos, trigonometry fsin fcos -> forall n m rx rz tx ty tz u v, (1 <= n <= 2 ^ 32)%Z -> (1 <= m <= 2 ^ 32)%Z -> sized rx -> sized rz -> sized tx -> sized ty -> sized tz -> (0 <= u <= n)%Z -> (0 <= v <= m)%Z ->
  let p := exact_vec (ftorus fsin fcos n m rx rz tx ty tz u v) in let q := torus_point n m (B2R rx) (B2R rz) (B2R tx) (B2R ty) (B2R tz) u v in
  Rabs (vx p - vx q) <= bpow radix2 (-46) * (Rabs (B2R rx) + Rabs (B2R tx)) + bpow radix2 (-1070) /\
  Rabs (vy p - vy q) <= bpow radix2 (-46) * Rabs (B2R ty) + bpow radix2 (-1070) /\
  Rabs (vz p - vz q) <= bpow radix2 (-46) * (Rabs (B2R rz) + Rabs (B2R tz)) + bpow radix2 (-1070).
Proof.
  intros fsin fcos (TS & TC & _) n m rx rz tx ty tz u v N M X Z TX [FTY BTY] TZ U V p q. pose proof v_small as US. pose proof eta_small as ES. pose proof tiny as TY.
  assert (EW : bpow radix2 (-46) = 128 * bpow radix2 (-53)) by (change (-46)%Z with (7 + -53)%Z; rewrite bpow_plus; reflexivity). rewrite EW. clear EW. set (w := bpow radix2 (-53)) in *. set (e := bpow radix2 (-1075)) in *.
  destruct (turn_near n N u U) as (F1 & E1 & B1). destruct (turn_near m M v V) as (F0 & E0 & B0). fold w in E1, E0. assert (D : 0 <= 32 * w <= 0.01) by lra.
  destruct (value_near fsin sin _ _ _ TS SIN_bound sin_steady F0 B0 E0 D) as (FS0 & ES0 & BS0). destruct (value_near fsin sin _ _ _ TS SIN_bound sin_steady F1 B1 E1 D) as (FS1 & ES1 & BS1). destruct (value_near fcos cos _ _ _ TC COS_bound cos_steady F1 B1 E1 D) as (FC1 & EC1 & BC1).
  fold w in ES0, ES1, EC1.
  (* a ring coordinate *)
  assert (K : forall (s : b64) c r t, is_finite s = true -> Rabs (B2R s - c) <= 32 * w + 2.1 * w -> Rabs (B2R s) <= 1.02 -> Rabs c <= 1 -> sized r -> sized t ->
    Rabs (B2R (b64_add (b64_mul s r) (b64_mul (b64_mul s (fsin (fturn m v))) t)) - (B2R r + B2R t * sin (part m v)) * c) <= 128 * w * (Rabs (B2R r) + Rabs (B2R t)) + bpow radix2 (-1070)).
  { intros s c r t FS E B C [FR BR] [FT BT]. set (s0 := fsin (fturn m v)) in *. set (c0 := sin (part m v)) in *.
    destruct (scaled_near s r c _ FS FR BR E ltac:(lra)) as (FA & EA & BA).
    assert (S0 : sized s0) by (split; [exact FS0|]; apply Rle_trans with 2; [lra|change 2 with (bpow radix2 1); apply bpow_le; lia]).
    pose proof (product_error _ _ _ _ _ _ E ES0) as EP. assert (PB : Rabs (B2R s * B2R s0) <= 1.0404) by (rewrite Rabs_mult; apply Rle_trans with (1.02 * 1.02); [apply Rmult_le_compat; try apply Rabs_pos; lra|lra]).
    destruct (mul_fin s s0 1 FS FS0 ltac:(lia)) as [FM VM]; [change (bpow radix2 1) with 2; lra|]. pose proof (rnd_near _ _ PB) as RM. rewrite <- VM in RM. fold w e in RM.
    assert (EM : Rabs (B2R (b64_mul s s0) - c * c0) <= 72 * w).
    { assert ((32 * w + 2.1 * w) * Rabs (B2R s0) <= (32 * w + 2.1 * w) * 1.02) by (apply Rmult_le_compat_l; lra). assert (Rabs c * (32 * w + 2.1 * w) <= 1 * (32 * w + 2.1 * w)) by (apply Rmult_le_compat_r; lra). apply Rabs_le_inv in RM. apply Rabs_le_inv in EP. apply Rabs_le. lra. }
    assert (BM : Rabs (B2R (b64_mul s s0)) <= 1.05). { apply far_from in RM. lra. }
    destruct (scaled_near (b64_mul s s0) t _ _ FM FT BT EM BM) as (FB & EB & BB). fold w e in EA, BA, EB, BB.
    set (a := b64_mul s r) in *. set (b := b64_mul (b64_mul s s0) t) in *. pose proof (Rabs_pos (B2R r)) as PR. pose proof (Rabs_pos (B2R t)) as PT.
    assert (SB : Rabs (B2R a + B2R b) <= 1.06 * (Rabs (B2R r) + Rabs (B2R t)) + 2 * e) by (eapply Rle_trans; [apply Rabs_triang|]; lra).
    assert (Q1 : bpow radix2 1001 = 2 * bpow radix2 1000) by exact (double_pow 1000). assert (Q2 : bpow radix2 1002 = 2 * bpow radix2 1001) by exact (double_pow 1001). assert (W1 : 1 <= bpow radix2 1000) by (change 1 with (bpow radix2 0); apply bpow_le; lia).
    destruct (add_fin a b 1002 FA FB ltac:(lia)) as [_ VS]; [lra|]. rewrite VS. pose proof (rnd_near _ _ SB) as RS. fold w e in RS.
    assert (WR : 0 <= w * Rabs (B2R r)) by (apply Rmult_le_pos; lra). assert (WT : 0 <= w * Rabs (B2R t)) by (apply Rmult_le_pos; lra). assert (WE : 0 <= w * e <= / 1000000 * e) by (split; [apply Rmult_le_pos; lra|apply Rmult_le_compat_r; lra]).
    apply Rabs_le_inv in RS. apply Rabs_le_inv in EA. apply Rabs_le_inv in EB. apply Rabs_le. lra. }
  assert (AS : Rabs (sin (part n u)) <= 1) by (apply Rabs_le, SIN_bound). assert (AC : Rabs (cos (part n u)) <= 1) by (apply Rabs_le, COS_bound).
  split; [exact (K _ _ rx tx FS1 ES1 BS1 AS X TX)|]. split; [|exact (K _ _ rz tz FC1 EC1 BC1 AC Z TZ)].
  destruct (trig_near fcos cos _ ty _ _ TC COS_bound cos_steady F0 B0 E0 D FTY BTY) as [_ EY]. fold w e in EY. eapply Rle_trans; [exact EY|]. apply Rplus_le_compat; [apply Rmult_le_compat_r; [apply Rabs_pos|lra]|lra].
Qed.
Print Assumptions C98_torus.

(** There are such functions: the exact values, rounded. *)
Example C98_example : trigonometry (fun x => b64_of_R (sin (B2R x))) (fun x => b64_of_R (cos (B2R x))) /\ sized b64_1.
Proof.
  assert (K : forall g, (forall y, -1 <= g y <= 1) -> accurate (fun x => b64_of_R (g (B2R x))) g).
  { intros g G x F B. specialize (G (B2R x)). assert (A : Rabs (g (B2R x)) <= bpow radix2 0) by (change (bpow radix2 0) with 1; apply Rabs_le; exact G).
    destruct (of_R (g (B2R x))) as [V FV]; [apply Rle_lt_trans with (bpow radix2 0); [apply rnd_bound; [lia|exact A]|apply bpow_lt; lia]|]. split; [exact FV|]. rewrite V. eapply Rle_trans; [apply rnd_near, Rle_refl|].
    apply Rplus_le_compat; [apply Rmult_le_compat_r; [apply Rabs_pos|apply bpow_le; lia]|apply bpow_le; lia]. }
  destruct one_value as [V1 F1]. split; [|split; [exact F1|rewrite V1, Rabs_R1; change 1 with (bpow radix2 0); apply bpow_le; lia]].
  split; [apply K, SIN_bound|]. split; [apply K, COS_bound|]. change (B2R b64_0) with 0. rewrite cos_0.
  assert (G1 : rnd 1 = 1) by (apply round_generic; [auto with typeclass_instances|apply format_1]). destruct (of_R 1) as [V _]; [rewrite G1, Rabs_R1; change 1 with (bpow radix2 0); apply bpow_lt; lia|]. rewrite V. exact G1.
Qed.

(** The seam is not closed: with 8 columns, whatever the functions are, the last column is not where the first one is. *)
Theorem C98_seam_refuted : exists n m rx rz h, sized rx /\ sized rz /\ sized h /\ (1 <= n <= 2 ^ 20)%Z /\ (1 <= m)%Z /\ forall fsin fcos, trigonometry fsin fcos -> forall v,
  vx (exact_vec (fmantle fsin fcos n m rx rz h (Z.to_nat n) v)) < vx (exact_vec (fmantle fsin fcos n m rx rz h 0 v)).
Proof.
  assert (S1 : sized b64_1) by apply C98_example. exists 8%Z, 1%Z, b64_1, b64_1, b64_1. split; [exact S1|]. split; [exact S1|]. split; [exact S1|]. split; [lia|]. split; [lia|]. intros fsin fcos (TS & _ & _) v.
  assert (EA : fangle 8 8 = fpi2) by (apply B2SF_inj; vm_compute; reflexivity). unfold fmantle, fring_x, exact_vec. cbn [fx fy fz vx]. change (Z.to_nat 8) with 8%nat. rewrite EA. cbn [fangle]. destruct one_value as [V1 F1].
  assert (K : forall s : b64, is_finite s = true -> B2R (b64_mul s b64_1) = B2R s).
  { intros s F. assert (GX := generic_format_B2R 53 1024 s). change (SpecFloat.fexp 53 1024) with f64 in GX. destruct (mul_exact s b64_1 F F1) as [_ V]; [rewrite V1, Rmult_1_r; exact GX|rewrite V1, Rmult_1_r; apply abs_B2R_lt_emax|]. rewrite V, V1. ring. }
  destruct two_pi_near as (FP & PB & _). destruct (TS fpi2 FP ltac:(apply Rabs_le; lra)) as [FS ES]. destruct (TS b64_0 eq_refl ltac:(change (B2R b64_0) with 0; rewrite Rabs_R0; lra)) as [F0 E0]. change (B2R b64_0) with 0 in E0. rewrite sin_0, Rabs_R0, Rmult_0_r in E0.
  rewrite (K _ FS), (K _ F0). pose proof full_turn as FT. pose proof v_small as US. pose proof eta_small as EM. assert (W2 : bpow radix2 (-52) = 2 * bpow radix2 (-53)) by exact (double_pow (-53)). assert (W3 : bpow radix2 (-1074) = 2 * bpow radix2 (-1075)) by exact (double_pow (-1075)). rewrite W2, W3 in *.
  set (w := bpow radix2 (-53)) in *. rewrite (Rabs_left (sin (B2R fpi2))) in ES by lra. apply Rabs_le_inv in ES. apply Rabs_le_inv in E0.
  assert (2 * w * - sin (B2R fpi2) <= 2 * / 1000000 * - sin (B2R fpi2)) by (apply Rmult_le_compat_r; lra). lra.
Qed.
Print Assumptions C98_seam_refuted.

(** And with 49 rings the rim of the cover is not the last row of the mantle: 49 * (1 / 49) is not 1. *)
Theorem C98_rims_refuted : exists n m c rx rz h, sized rx /\ sized rz /\ sized h /\ (1 <= n <= 2 ^ 20)%Z /\ (1 <= m)%Z /\ (1 <= c)%Z /\ forall fsin fcos, trigonometry fsin fcos ->
  vz (exact_vec (fcover fsin fcos false n c rx rz h 0 c)) < vz (exact_vec (fmantle fsin fcos n m rx rz h 0 m)).
Proof.
  assert (S1 : sized b64_1) by apply C98_example. exists 8%Z, 1%Z, 49%Z, b64_1, b64_1, b64_1. split; [exact S1|]. split; [exact S1|]. split; [exact S1|]. split; [lia|]. split; [lia|]. split; [lia|]. intros fsin fcos (_ & TC & C0).
  unfold fmantle, fcover, fring_z, exact_vec, flerp3. cbv zeta. cbn [fx fy fz vz fangle]. destruct (TC b64_0 eq_refl ltac:(change (B2R b64_0) with 0; rewrite Rabs_R0; lra)) as [F0 _]. destruct one_value as [V1 F1].
  assert (P1 : 1 < bpow radix2 1024) by (change 1 with (bpow radix2 0); apply bpow_lt; lia).
  assert (Z : is_finite (b64_mul (fcos b64_0) b64_1) = true /\ B2R (b64_mul (fcos b64_0) b64_1) = 1). { destruct (mul_exact (fcos b64_0) b64_1 F0 F1) as [G V]; [rewrite C0, V1, Rmult_1_r; apply format_1|rewrite C0, V1, Rmult_1_r, Rabs_R1; exact P1|]. split; [exact G|]. rewrite V, C0, V1. ring. }
  destruct Z as [FZ VZ]. rewrite VZ. set (z := b64_mul (fcos b64_0) b64_1) in *.
  assert (ET : fshare 49 49 = @B754_finite 53 1024 false 9007199254740991 (-53) eq_refl) by (apply B2SF_inj; vm_compute; reflexivity).
  assert (VT : B2R (fshare 49 49) = 9007199254740991 / 9007199254740992) by (rewrite ET; cbn [B2R]; unfold F2R; cbn [Fnum Fexp cond_Zopp]; change (bpow radix2 (-53)) with (/ 9007199254740992); reflexivity). assert (FT : is_finite (fshare 49 49) = true) by (rewrite ET; reflexivity).
  assert (GT := generic_format_B2R 53 1024 (fshare 49 49)). change (SpecFloat.fexp 53 1024) with f64 in GT. pose proof (abs_B2R_lt_emax 53 1024 (fshare 49 49)) as BT. set (t := fshare 49 49) in *. clearbody t.
  unfold flerp. assert (D : is_finite (b64_sub z b64_0) = true /\ B2R (b64_sub z b64_0) = 1).
  { assert (G1 : rnd 1 = 1) by (apply round_generic; [auto with typeclass_instances|apply format_1]). destruct (sub_fin z b64_0 0 FZ eq_refl ltac:(lia)) as [G V]; [change (B2R b64_0) with 0; rewrite VZ, Rminus_0_r, Rabs_R1; change (bpow radix2 0) with 1; lra|]. split; [exact G|]. rewrite V, VZ. change (B2R b64_0) with 0. rewrite Rminus_0_r. exact G1. }
  destruct D as [FD VD]. destruct (mul_exact (b64_sub z b64_0) t FD FT) as [FM VM]; [rewrite VD, Rmult_1_l; exact GT|rewrite VD, Rmult_1_l; exact BT|]. rewrite VD, Rmult_1_l in VM.
  destruct (add_exact (b64_mul (b64_sub z b64_0) t) b64_0 FM eq_refl) as [_ VA]; [rewrite VM; change (B2R b64_0) with 0; rewrite Rplus_0_r; exact GT|rewrite VM; change (B2R b64_0) with 0; rewrite Rplus_0_r; exact BT|]. rewrite VA, VM, VT. change (B2R b64_0) with 0. lra.
Qed.
Print Assumptions C98_rims_refuted.
