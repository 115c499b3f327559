(** Half-spheres in double precision. *)
From Coq Require Import ZArith Reals List Bool Lia Lra Psatz.
From Flocq Require Import Core IEEE754.BinarySingleNaN.
From Verif Require Import Model.Scalar Model.Vec Model.BoxFloat Model.PlaneFloat Model.ClipFloat Model.KeyframeFloat Model.MeshFloat Model.ConeFloat Model.CapsuleFloat Spec.FloatSpec Spec.MeshFloatSpec Spec.CapsuleFloatSpec
  Proofs.PlaneFloatLemmas Proofs.SplineFloat Proofs.BoxRayFloatLemmas Proofs.ClipFloatLemmas Proofs.KeyframeFloatLemmas Proofs.PiDigits Proofs.MeshFloatLemmas Proofs.ConeFloatLemmas.
Local Open Scope R_scope.

Lemma narrower f g : accurate8 f g -> accurate f g.
Proof. intros A x F B. apply A; [exact F|lra]. Qed.
Lemma trig_narrower fsin fcos : trigonometry8 fsin fcos -> trigonometry fsin fcos.
Proof. intros (S & C & Z). split; [now apply narrower|]. split; [now apply narrower|exact Z]. Qed.

Lemma value_near8 f g x a d : accurate8 f g -> (forall y, -1 <= g y <= 1) -> (forall y z, Rabs (g y - g z) <= Rabs (y - z)) -> is_finite x = true -> Rabs (B2R x) <= 8 -> Rabs (B2R x - a) <= d -> 0 <= d <= 0.01 ->
  is_finite (f x) = true /\ Rabs (B2R (f x) - g a) <= d + 2.1 * u /\ Rabs (B2R (f x)) <= 1.02.
Proof.
  intros A G1 G2 F B D DS. destruct (A x F B) as [FF E]. split; [exact FF|]. assert (US := v_small). assert (ES := eta_small). specialize (G1 (B2R x)) as GX. assert (AX : Rabs (g (B2R x)) <= 1) by (apply Rabs_le; exact GX).
  assert (W2 : bpow radix2 (-52) = 2 * u) by exact (double_pow (-53)). assert (W3 : bpow radix2 (-1074) = 2 * eta) by exact (double_pow (-1075)). rewrite W2, W3 in E. set (w := u) in *.
  assert (2 * w * Rabs (g (B2R x)) <= 2 * w * 1) by (apply Rmult_le_compat_l; lra). assert (S := G2 (B2R x) a). assert (HH : Rabs (B2R (f x) - g a) <= d + 2.1 * w) by (apply Rabs_le_inv in E; apply Rabs_le_inv in S; apply Rabs_le; lra).
  split; [exact HH|]. apply far_from in HH. assert (Rabs (g a) <= 1) by (apply Rabs_le; apply G1). lra.
Qed.

Lemma quarter : is_finite fpi05 = true /\ B2R fpi05 = B2R fpi / 2.
Proof.
  assert (E : fpi05 = @B754_finite 53 1024 false 7074237752028440 (-52) eq_refl) by (apply B2SF_inj; vm_compute; reflexivity). rewrite E. split; [reflexivity|].
  cbn [B2R fpi]. unfold F2R. cbn [Fnum Fexp cond_Zopp]. change (bpow radix2 (-52)) with (/ 4503599627370496). change (bpow radix2 (-51)) with (/ 2251799813685248). lra.
Qed.

Lemma theta_near (c v : Z) : (1 <= c <= 2 ^ 32)%Z -> (0 <= v <= c)%Z ->
  is_finite (fcap_theta c v) = true /\ Rabs (B2R (fcap_theta c v) - PI / 2 * (IZR v / IZR c)) <= 32 * u /\ Rabs (B2R (fcap_theta c v)) <= 7.
Proof.
  intros M V. destruct (share_near c M v V) as (F & E & T). destruct pi_near as (_ & PB & PE). destruct quarter as [FQ VQ]. assert (US := v_small). assert (ES := eta_small). set (t := B2R (fshare c v)) in *. set (p := B2R fpi) in *. set (w := u) in *. set (q := IZR v / IZR c) in *.
  assert (A : Rabs (t * (p / 2) - q * (PI / 2)) <= 2.1 * w * Rabs (p / 2) + Rabs q * (0.75 * w)) by (apply product_error; [exact E|apply Rabs_le; lra]). rewrite (Rabs_pos_eq (p / 2)), (Rabs_pos_eq q) in A by lra.
  assert (q * (0.75 * w) <= 1 * (0.75 * w)) by (apply Rmult_le_compat_r; lra). assert (2.1 * w * (p / 2) <= 2.1 * w * 1.6) by (apply Rmult_le_compat_l; lra).
  assert (QP : 0 <= q * (PI / 2) <= 1.6) by (split; [apply Rmult_le_pos; lra|apply Rle_trans with (1 * (PI / 2)); [apply Rmult_le_compat_r; lra|lra]]).
  assert (B : Rabs (t * (p / 2)) <= 2) by (apply Rabs_le_inv in A; apply Rabs_le; lra).
  destruct (mul_fin (fshare c v) fpi05 1 F FQ ltac:(lia)) as [G W]; [rewrite VQ; change (bpow radix2 1) with 2; exact B|]. rewrite VQ in W. fold t p in W. assert (R := rnd_near _ _ B). rewrite <- W in R. fold w in R. split; [exact G|].
  unfold fcap_theta. rewrite (Rmult_comm (PI / 2)). apply Rabs_le_inv in R, A. split; apply Rabs_le; lra.
Qed.

Lemma phi_near (top : bool) (n k : Z) : (1 <= n <= 2 ^ 32)%Z -> (0 <= k <= n)%Z ->
  is_finite (fcap_phi top n k) = true /\ Rabs (B2R (fcap_phi top n k) - ((if top then part n k else - part n k) + PI / 2)) <= 48 * u /\ Rabs (B2R (fcap_phi top n k)) <= 8.
Proof.
  intros N K. destruct (turn_near n N k K) as (F & E & B). destruct pi_near as (_ & PB & PE). destruct quarter as [FQ VQ]. assert (US := v_small). assert (ES := eta_small). destruct (side_value (fturn n k) top F) as [FS VS].
  assert (T : 0 <= part n k <= 2 * PI). { unfold part. destruct (share_near n N k K) as (_ & _ & T). assert (P0 := PI_RGT_0). set (q := IZR k / IZR n) in *. split; [apply Rmult_le_pos; lra|]. apply Rle_trans with (2 * PI * 1); [apply Rmult_le_compat_l; lra|lra]. }
  set (a := part n k) in *. set (x := B2R (fturn n k)) in *. set (p := B2R fpi) in *. set (w := u) in *. unfold fcap_phi, fside.
  assert (S : Rabs (B2R (b64_mul (fturn n k) (b64_of_Z (if top then 1 else -1))) + B2R fpi05 - ((if top then a else - a) + PI / 2)) <= 33 * w) by (rewrite VS, VQ; fold p; apply Rabs_le_inv in E; apply Rabs_le; destruct top; lra).
  assert (BS : Rabs (B2R (b64_mul (fturn n k) (b64_of_Z (if top then 1 else -1))) + B2R fpi05) <= 7.9) by (apply Rabs_le_inv in S; apply Rabs_le; destruct top; lra).
  destruct (add_fin _ fpi05 3 FS FQ ltac:(lia)) as [G W]; [change (bpow radix2 3) with 8; lra|]. assert (R := rnd_near _ _ BS). rewrite <- W in R. fold w in R. split; [exact G|]. split; apply Rabs_le_inv in R, S, BS; apply Rabs_le; lra.
Qed.

Lemma double_trig8 (s c r : b64) S C : is_finite s = true -> is_finite c = true -> is_finite r = true -> Rabs (B2R r) <= bpow radix2 1000 ->
  Rabs (B2R s - S) <= 32 * u + 2.1 * u -> Rabs (B2R c - C) <= 48 * u + 2.1 * u -> Rabs (B2R s) <= 1.02 -> Rabs (B2R c) <= 1.02 -> Rabs S <= 1 ->
  is_finite (b64_mul (b64_mul s c) r) = true /\ Rabs (B2R (b64_mul (b64_mul s c) r) - B2R r * (S * C)) <= 96 * u * Rabs (B2R r) + eta.
Proof.
  intros Fs Fc Fr Br Es Ec Bs Bc BS. assert (US := v_small). assert (EM := eta_small). assert (EP := product_error _ _ _ _ _ _ Es Ec). set (w := u) in *.
  assert (PB : Rabs (B2R s * B2R c) <= 1.0404) by (rewrite Rabs_mult; apply Rle_trans with (1.02 * 1.02); [apply Rmult_le_compat; try apply Rabs_pos; lra|lra]).
  destruct (mul_fin s c 1 Fs Fc ltac:(lia)) as [FM VM]; [change (bpow radix2 1) with 2; lra|]. assert (RM := rnd_near _ _ PB). rewrite <- VM in RM. fold w in RM.
  assert (E1 : Rabs (B2R (b64_mul s c) - S * C) <= 90 * w).
  { assert ((32 * w + 2.1 * w) * Rabs (B2R c) <= (32 * w + 2.1 * w) * 1.02) by (apply Rmult_le_compat_l; lra). assert (Rabs S * (48 * w + 2.1 * w) <= 1 * (48 * w + 2.1 * w)) by (apply Rmult_le_compat_r; lra). apply Rabs_le_inv in RM, EP. apply Rabs_le. lra. }
  assert (BM : Rabs (B2R (b64_mul s c)) <= 1.05) by (apply far_from in RM; lra).
  destruct (scaled_near (b64_mul s c) r _ _ FM Fr Br E1 BM) as (FB & EB & _). split; [exact FB|]. rewrite (Rmult_comm (B2R r)). fold w in EB. eapply Rle_trans; [exact EB|]. apply Rplus_le_compat_r. apply Rmult_le_compat_r; [apply Rabs_pos|lra].
Qed.

(** The height of a vertex *)
Lemma cap_height_near (top : bool) (c r h : b64) C : is_finite c = true -> is_finite r = true -> is_finite h = true -> Rabs (B2R r) <= bpow radix2 1000 -> Rabs (B2R h) <= bpow radix2 1000 ->
  Rabs (B2R c - C) <= 32 * u + 2.1 * u -> Rabs (B2R c) <= 1.02 ->
  let y := b64_add (b64_mul (b64_mul c (fside top)) r) (b64_mul (fhalf_height h) (fside top)) in
  is_finite y = true /\ Rabs (B2R y - (if top then B2R h / 2 + B2R r * C else - (B2R h / 2 + B2R r * C))) <= 40 * u * (Rabs (B2R r) + Rabs (B2R h)) + 4 * eta.
Proof.
  intros Fc Fr Fh Br Bh Ec Bc y. assert (US := v_small). assert (EM := eta_small). destruct (side_value c top Fc) as [FS VS]. destruct (half_height_near h Fh Bh) as (FH & EH & _). destruct (side_value _ top FH) as [FT VT]. fold (fside top) in *. set (w := u) in *. set (e := eta) in *.
  assert (ES : Rabs (B2R (b64_mul c (fside top)) - (if top then C else - C)) <= 32 * w + 2.1 * w) by (rewrite VS; apply Rabs_le_inv in Ec; apply Rabs_le; destruct top; lra).
  assert (BS : Rabs (B2R (b64_mul c (fside top))) <= 1.05) by (rewrite VS; destruct top; [lra|rewrite Rabs_Ropp; lra]).
  destruct (scaled_near _ r _ _ FS Fr Br ES BS) as (FA & EA & BA). fold w e in EA, BA. set (A := b64_mul (b64_mul c (fside top)) r) in *. set (P := Rabs (B2R r)) in *. set (Q := Rabs (B2R h)) in *. assert (P0 : 0 <= P) by apply Rabs_pos. assert (Q0 : 0 <= Q) by apply Rabs_pos.
  assert (HQ : - Q <= B2R h <= Q) by (apply Rabs_le_inv; apply Rle_refl).
  assert (WQ : 0 <= w * Q <= / 1000000 * Q) by (split; [apply Rmult_le_pos; lra|apply Rmult_le_compat_r; lra]). assert (WP : 0 <= w * P) by (apply Rmult_le_pos; lra).
  assert (SB : Rabs (B2R A + B2R (b64_mul (fhalf_height h) (fside top))) <= 1.06 * (P + Q) + 2 * e). { rewrite VT. apply Rabs_le_inv in BA, EH. apply Rabs_le. destruct top; lra. }
  assert (Q1 : bpow radix2 1001 = 2 * bpow radix2 1000) by exact (double_pow 1000). assert (Q2 : bpow radix2 1002 = 2 * bpow radix2 1001) by exact (double_pow 1001). assert (W1 : 1 <= bpow radix2 1000) by (change 1 with (bpow radix2 0); apply bpow_le; lia).
  destruct (add_fin A _ 1002 FA FT ltac:(lia)) as [FY VY]; [lra|]. split; [exact FY|]. unfold y. rewrite VY. assert (RS := rnd_near _ _ SB). fold w e in RS. rewrite VT in *. assert (WE : 0 <= w * e <= / 1000000 * e) by (split; [apply Rmult_le_pos; lra|apply Rmult_le_compat_r; lra]).
  apply Rabs_le_inv in RS, EA, EH. apply Rabs_le. destruct top; lra.
Qed.
