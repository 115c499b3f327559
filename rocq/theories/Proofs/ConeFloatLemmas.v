(** Vertices of ellipsoids and cones in double precision. *)
From Coq Require Import ZArith Reals List Bool Lia Lra Psatz.
From Flocq Require Import Core IEEE754.BinarySingleNaN.
From Verif Require Import Model.Scalar Model.Vec Model.BoxFloat Model.PlaneFloat Model.ClipFloat Model.KeyframeFloat Model.MeshFloat Model.ConeFloat Spec.FloatSpec Spec.MeshFloatSpec Spec.ConeFloatSpec
  Proofs.PlaneFloatLemmas Proofs.SplineFloat Proofs.BoxRayFloatLemmas Proofs.ClipFloatLemmas Proofs.KeyframeFloatLemmas Proofs.PiDigits Proofs.MeshFloatLemmas.
Local Open Scope R_scope.

Lemma pi_near : is_finite fpi = true /\ 3.14 <= B2R fpi <= 3.145 /\ B2R fpi + u <= PI <= B2R fpi + 1.5 * u.
Proof.
  split; [reflexivity|]. destruct two_pi_near as (_ & PB & PE). assert (E : B2R fpi2 = 2 * B2R fpi).
  { destruct two_pi as [-> _]. cbn [B2R fpi]. unfold F2R. cbn [Fnum Fexp cond_Zopp]. change (bpow radix2 (-51)) with (/ 2251799813685248). lra. }
  rewrite E in *. split; lra.
Qed.
Lemma half_turn_near (m v : Z) : (1 <= m <= 2 ^ 32)%Z -> (0 <= v <= m)%Z ->
  is_finite (fhalf_turn m v) = true /\ Rabs (B2R (fhalf_turn m v) - PI * (IZR v / IZR m)) <= 32 * u /\ Rabs (B2R (fhalf_turn m v)) <= 7.
Proof.
  intros M V. destruct (share_near m M v V) as (F & E & T). destruct pi_near as (FP & PB & PE). assert (US := v_small). assert (ES := eta_small). set (t := B2R (fshare m v)) in *. set (p := B2R fpi) in *. set (w := u) in *. set (q := IZR v / IZR m) in *.
  assert (A : Rabs (t * p - q * PI) <= 2.1 * w * Rabs p + Rabs q * (1.5 * w)) by (apply product_error; [exact E|apply Rabs_le; lra]). rewrite (Rabs_pos_eq p), (Rabs_pos_eq q) in A by lra.
  assert (q * (1.5 * w) <= 1 * (1.5 * w)) by (apply Rmult_le_compat_r; lra). assert (2.1 * w * p <= 2.1 * w * 3.145) by (apply Rmult_le_compat_l; lra).
  assert (QP : 0 <= q * PI <= 3.2) by (split; [apply Rmult_le_pos; lra|apply Rle_trans with (1 * PI); [apply Rmult_le_compat_r; lra|lra]]).
  assert (B : Rabs (t * p) <= 4) by (apply Rabs_le_inv in A; apply Rabs_le; lra).
  destruct (mul_fin (fshare m v) fpi 2 F FP ltac:(lia)) as [G W]; [change (bpow radix2 2) with 4; exact B|]. fold t p in W. assert (R := rnd_near _ _ B). rewrite <- W in R. fold w in R. split; [exact G|].
  unfold fhalf_turn. rewrite (Rmult_comm PI). apply Rabs_le_inv in R, A. split; apply Rabs_le; lra.
Qed.

(** sin theta times cos phi or sin phi, scaled *)
Lemma double_trig (s c r : b64) S C : is_finite s = true -> is_finite c = true -> is_finite r = true -> Rabs (B2R r) <= bpow radix2 1000 ->
  Rabs (B2R s - S) <= 32 * u + 2.1 * u -> Rabs (B2R c - C) <= 32 * u + 2.1 * u -> Rabs (B2R s) <= 1.02 -> Rabs (B2R c) <= 1.02 -> Rabs S <= 1 ->
  is_finite (b64_mul (b64_mul s c) r) = true /\ Rabs (B2R (b64_mul (b64_mul s c) r) - B2R r * (S * C)) <= 80 * u * Rabs (B2R r) + eta.
Proof.
  intros Fs Fc Fr Br Es Ec Bs Bc BS. assert (US := v_small). assert (EM := eta_small). assert (EP := product_error _ _ _ _ _ _ Es Ec). set (w := u) in *.
  assert (PB : Rabs (B2R s * B2R c) <= 1.0404) by (rewrite Rabs_mult; apply Rle_trans with (1.02 * 1.02); [apply Rmult_le_compat; try apply Rabs_pos; lra|lra]).
  destruct (mul_fin s c 1 Fs Fc ltac:(lia)) as [FM VM]; [change (bpow radix2 1) with 2; lra|]. assert (RM := rnd_near _ _ PB). rewrite <- VM in RM. fold w in RM.
  assert (E1 : Rabs (B2R (b64_mul s c) - S * C) <= 72 * w).
  { assert ((32 * w + 2.1 * w) * Rabs (B2R c) <= (32 * w + 2.1 * w) * 1.02) by (apply Rmult_le_compat_l; lra). assert (Rabs S * (32 * w + 2.1 * w) <= 1 * (32 * w + 2.1 * w)) by (apply Rmult_le_compat_r; lra). apply Rabs_le_inv in RM, EP. apply Rabs_le. lra. }
  assert (BM : Rabs (B2R (b64_mul s c)) <= 1.05) by (apply far_from in RM; lra).
  destruct (scaled_near (b64_mul s c) r _ _ FM Fr Br E1 BM) as (FB & EB & _). split; [exact FB|]. rewrite (Rmult_comm (B2R r)). fold w in EB. eapply Rle_trans; [exact EB|]. apply Rplus_le_compat_r. apply Rmult_le_compat_r; [apply Rabs_pos|lra].
Qed.

(** Interpolation from zero *)
Lemma lerp_zero (x t : b64) : is_finite x = true -> is_finite t = true -> Rabs (B2R x) <= bpow radix2 1002 -> Rabs (B2R t) <= 2 -> is_finite (flerp b64_0 x t) = true /\ B2R (flerp b64_0 x t) = rnd (B2R x * B2R t).
Proof.
  intros F FT BX BT. unfold flerp. assert (GX := format_b64 x).
  destruct (sub_fin x b64_0 1002 F eq_refl ltac:(lia)) as [FS VS]; [change (B2R b64_0) with 0; rewrite Rminus_0_r; exact BX|]. change (B2R b64_0) with 0 in VS. rewrite Rminus_0_r, GX in VS.
  assert (B3 : Rabs (B2R x * B2R t) <= bpow radix2 1003). { rewrite Rabs_mult. change 1003%Z with (1002 + 1)%Z. rewrite bpow_plus. apply Rmult_le_compat; try apply Rabs_pos; [exact BX|exact BT]. }
  destruct (mul_fin (b64_sub x b64_0) t 1003 FS FT ltac:(lia)) as [FM VM]; [rewrite VS; exact B3|]. rewrite VS in VM.
  destruct (add_fin (b64_mul (b64_sub x b64_0) t) b64_0 1003 FM eq_refl ltac:(lia)) as [FA VA]; [change (B2R b64_0) with 0; rewrite Rplus_0_r, VM; apply rnd_bound; [lia|exact B3]|].
  split; [exact FA|]. rewrite VA. change (B2R b64_0) with 0. rewrite Rplus_0_r. rewrite format_b64. exact VM.
Qed.
Lemma spread_near (f : b64 -> b64) (g : R -> R) (n m : Z) (r : b64) (u : nat) (v : Z) : accurate f g -> (forall y, -1 <= g y <= 1) -> (forall y z, Rabs (g y - g z) <= Rabs (y - z)) ->
  (1 <= n <= 2 ^ 20)%Z -> (1 <= m <= 2 ^ 32)%Z -> is_finite r = true -> Rabs (B2R r) <= bpow radix2 1000 -> (Z.of_nat u <= n)%Z -> (0 <= v <= m)%Z ->
  let x := flerp b64_0 (b64_mul (f (fangle n u)) r) (fshare m v) in
  is_finite x = true /\ Rabs (B2R x - B2R r * (IZR v / IZR m) * g (part n (Z.of_nat u))) <= 8 * bpow radix2 (-53) * (INR u + 3) * Rabs (B2R r) + 8 * eta.
Proof.
  intros A G1 G2 N M Fr Br U V x. assert (N2 : (1 <= n <= 2 ^ 32)%Z) by lia. destruct (angle_exact n N2 u U ltac:(lia)) as (FA & EA & BA). destruct (share_near m M v V) as (FT & ET & TT). assert (US := v_small). assert (ES := eta_small). set (w := bpow radix2 (-53)) in *.
  assert (UN : 0 <= INR u <= 1048576) by (split; [apply pos_INR|rewrite INR_IZR_INZ; apply IZR_le; lia]). assert (WU : 0 <= w * INR u <= w * 1048576) by (split; [apply Rmult_le_pos; lra|apply Rmult_le_compat_l; lra]). assert (W3 : w * 1048576 <= 0.0001) by (change w with (/ 9007199254740992); lra).
  assert (D : 0 <= 8 * w * (INR u + 2) <= 0.01) by lra.
  destruct (trig_near f g (fangle n u) r _ _ A G1 G2 FA BA EA D Fr Br) as [FX EX]. fold w in EX. set (a := part n (Z.of_nat u)) in *. set (q := IZR v / IZR m) in *. set (X := b64_mul (f (fangle n u)) r) in *. set (t := B2R (fshare m v)) in *.
  set (R := Rabs (B2R r)) in *. assert (R0 : 0 <= R) by apply Rabs_pos. assert (GB : Rabs (B2R r * g a) <= R). { rewrite Rabs_mult. fold R. assert (K : Rabs (g a) <= 1) by (apply Rabs_le, G1). apply Rle_trans with (R * 1); [apply Rmult_le_compat_l; lra|lra]. }
  assert (WR : 0 <= w * R) by (apply Rmult_le_pos; lra). assert (ED : (8 * w * (INR u + 2) + 4 * w) * R <= 0.011 * R) by (apply Rmult_le_compat_r; lra). set (h := eta) in *.
  assert (BX : Rabs (B2R X) <= 1.02 * R + h) by (apply far_from in EX; lra). assert (Bt : Rabs t <= 1 + 2.1 * w) by (apply Rabs_le_inv in ET; apply Rabs_le; lra).
  assert (Q1 : bpow radix2 1001 = 2 * bpow radix2 1000) by exact (double_pow 1000). assert (Q2 : bpow radix2 1002 = 2 * bpow radix2 1001) by exact (double_pow 1001). assert (W1 : 1 <= bpow radix2 1000) by (change 1 with (bpow radix2 0); apply bpow_le; lia).
  destruct (lerp_zero X (fshare m v) FX FT) as [FL VL]; [lra|fold t; lra|]. split; [exact FL|]. unfold x. rewrite VL. fold t.
  assert (EP := product_error _ _ _ _ _ _ EX ET). fold t in EP. assert (WH : 0 <= w * h <= / 1000000 * h) by (split; [apply Rmult_le_pos; lra|apply Rmult_le_compat_r; lra]).
  assert (WW : w * (w * R) <= / 1000000 * (w * R)) by (apply Rmult_le_compat_r; lra).
  assert (BP : Rabs (B2R X * t) <= 1.03 * R + 1.1 * h). { rewrite Rabs_mult. apply Rle_trans with ((1.02 * R + h) * (1 + 2.1 * w)); [apply Rmult_le_compat; try apply Rabs_pos; assumption|]. assert (w * R <= / 1000000 * R) by (apply Rmult_le_compat_r; lra). lra. }
  assert (RN := rnd_near _ _ BP). fold w h in RN.
  assert (K1 : ((8 * w * (INR u + 2) + 4 * w) * R + h) * Rabs t <= (8 * w * (INR u + 2) + 4 * w) * R + h + 0.03 * (w * R) + h).
  { apply Rle_trans with (((8 * w * (INR u + 2) + 4 * w) * R + h) * (1 + 2.1 * w)); [apply Rmult_le_compat_l; [|exact Bt]; apply Rplus_le_le_0_compat; [apply Rmult_le_pos; lra|lra]|].
    assert (w * ((8 * w * (INR u + 2) + 4 * w) * R) <= w * (0.011 * R)) by (apply Rmult_le_compat_l; lra). lra. }
  assert (K2 : Rabs (B2R r * g a) * (2.1 * w) <= R * (2.1 * w)) by (apply Rmult_le_compat_r; lra).
  replace (B2R r * q * g a) with (B2R r * g a * q) by ring. apply Rabs_le_inv in RN, EP. apply Rabs_le. lra.
Qed.
