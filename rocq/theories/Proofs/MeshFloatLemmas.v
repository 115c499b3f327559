(** Rounding in the vertices of generated cylinders and tori. *)
From Coq Require Import ZArith Reals List Bool Lia Lra.
From Flocq Require Import Core IEEE754.BinarySingleNaN.
From Verif Require Import Model.Scalar Model.Vec Model.BoxFloat Model.PlaneFloat Model.ClipFloat Model.KeyframeFloat Model.MeshFloat Spec.MeshFloatSpec
  Proofs.PlaneFloatLemmas Proofs.SplineFloat Proofs.BoxRayFloatLemmas Proofs.ClipFloatLemmas Proofs.FrustumFloatLemmas Proofs.PiDigits.
Local Open Scope R_scope.

(** ** Sine and cosine are steady *)
Lemma sin_abs a : Rabs (sin a) <= Rabs a.
Proof.
  assert (P : forall x, 0 <= x -> Rabs (sin x) <= x).
  { intros x X. destruct (Req_dec x 0) as [->|E]; [rewrite sin_0, Rabs_R0; lra|]. apply Rabs_le. pose proof (SIN_bound x). pose proof (sin_lt_x x ltac:(lra)) as L. split; [|lra].
    destruct (Rle_or_lt x PI) as [M|M]; [pose proof (sin_ge_0 x ltac:(lra) M); lra|]. pose proof PI2_1. lra. }
  unfold Rabs at 2. destruct (Rcase_abs a); [rewrite <- Rabs_Ropp, <- sin_neg|]; apply P; lra.
Qed.
Lemma sin_steady a b : Rabs (sin a - sin b) <= Rabs (a - b).
Proof.
  rewrite form4, !Rabs_mult. rewrite (Rabs_pos_eq 2) by lra. pose proof (COS_bound ((a + b) / 2)) as C. assert (L : Rabs (cos ((a + b) / 2)) <= 1) by (apply Rabs_le; lra). pose proof (sin_abs ((a - b) / 2)) as S. pose proof (Rabs_pos (sin ((a - b) / 2))) as P.
  assert (H : Rabs ((a - b) / 2) = Rabs (a - b) / 2) by (unfold Rdiv; rewrite Rabs_mult, (Rabs_pos_eq (/ 2)) by lra; reflexivity). rewrite H in S. pose proof (Rabs_pos (cos ((a + b) / 2))).
  assert (2 * Rabs (cos ((a + b) / 2)) * Rabs (sin ((a - b) / 2)) <= 2 * 1 * Rabs (sin ((a - b) / 2))) by (apply Rmult_le_compat_r; lra). lra.
Qed.
Lemma cos_steady a b : Rabs (cos a - cos b) <= Rabs (a - b).
Proof. rewrite <- (sin_shift a), <- (sin_shift b). eapply Rle_trans; [apply sin_steady|]. rewrite <- (Rabs_Ropp (a - b)). right. f_equal. ring. Qed.

(** ** Numbers *)
Lemma v_small : 0 < u <= / 1000000.
Proof. split; [apply bpow_gt_0|]. apply Rle_trans with (bpow radix2 (-20)); [apply bpow_le; lia|]. change (bpow radix2 (-20)) with (/ 1048576). lra. Qed.
Lemma eta_small : 0 < eta <= / 1000000 * u.
Proof. split; [apply bpow_gt_0|]. apply Rle_trans with (bpow radix2 (-20) * u); [rewrite <- bpow_plus; apply bpow_le; lia|]. change (bpow radix2 (-20)) with (/ 1048576). pose proof v_small. lra. Qed.
Lemma product_error a b A B ea eb : Rabs (a - A) <= ea -> Rabs (b - B) <= eb -> Rabs (a * b - A * B) <= ea * Rabs b + Rabs A * eb.
Proof.
  intros HA HB. replace (a * b - A * B) with ((a - A) * b + A * (b - B)) by ring. eapply Rle_trans; [apply Rabs_triang|]. rewrite !Rabs_mult. apply Rplus_le_compat; [apply Rmult_le_compat_r|apply Rmult_le_compat_l]; auto using Rabs_pos.
Qed.
Lemma rnd_near x m : Rabs x <= m -> Rabs (rnd x - x) <= u * m + eta.
Proof. intros H. apply Rabs_le. now apply rnd_error. Qed.
Lemma far_from a x e : Rabs (a - x) <= e -> Rabs a <= Rabs x + e.
Proof. intros H. replace a with ((a - x) + x) by ring. eapply Rle_trans; [apply Rabs_triang|]. lra. Qed.

Lemma two_pi : B2R fpi2 = 7074237752028440 / 1125899906842624 /\ is_finite fpi2 = true.
Proof.
  assert (E : fpi2 = @B754_finite 53 1024 false 7074237752028440 (-50) eq_refl) by (apply B2SF_inj; vm_compute; reflexivity). rewrite E. split; [|reflexivity].
  cbn [B2R]. unfold F2R. cbn [Fnum Fexp cond_Zopp]. change (bpow radix2 (-50)) with (/ 1125899906842624). reflexivity.
Qed.
Lemma two_pi_near : is_finite fpi2 = true /\ 6.28 <= B2R fpi2 <= 6.29 /\ B2R fpi2 + 2 * u <= 2 * PI <= B2R fpi2 + 3 * u.
Proof. destruct two_pi as [-> F]. split; [exact F|]. split; [lra|]. change u with (/ 9007199254740992). pose proof pi_digits. lra. Qed.

Section Segments.
  Variable n : Z.
  Hypothesis N : (1 <= n <= 2 ^ 32)%Z.
  Let i := / IZR n.
  Lemma i_bounds : bpow radix2 (-32) <= i <= 1.
  Proof.
    assert (A : 1 <= IZR n <= IZR (2 ^ 32)) by (split; apply IZR_le; lia). unfold i. split.
    - change (bpow radix2 (-32)) with (/ IZR (2 ^ 32)). apply Rinv_le_contravar; lra.
    - rewrite <- Rinv_1. apply Rinv_le_contravar; lra.
  Qed.
  Lemma inv_near : is_finite (finv n) = true /\ Rabs (B2R (finv n) - i) <= u * i.
  Proof.
    destruct (b64_int n ltac:(lia)) as [V F]. destruct one_value as [V1 F1]. pose proof i_bounds as B. assert (NP : IZR n <> 0) by (assert (1 <= IZR n) by (apply IZR_le; lia); lra).
    assert (Q : B2R b64_1 / B2R (b64_of_Z n) = i) by (rewrite V, V1; unfold i; field; exact NP).
    destruct (div_fin b64_1 (b64_of_Z n) 0 F1 ltac:(rewrite V; exact NP) ltac:(lia)) as [G W]; [rewrite Q; apply Rabs_le; change (bpow radix2 0) with 1; pose proof (bpow_gt_0 radix2 (-32)); lra|].
    split; [exact G|]. unfold finv. rewrite W, Q. pose proof (bpow_gt_0 radix2 (-32)). rewrite <- (Rabs_pos_eq i) at 3 by lra. apply rnd_relative. rewrite Rabs_pos_eq by lra. apply Rle_trans with (bpow radix2 (-32)); [apply bpow_le; lia|lra].
  Qed.
  (** ** Angles that are added up *)
  Lemma step_near : is_finite (fstep n) = true /\ Rabs (B2R (fstep n) - 2 * PI * i) <= 16 * u * i.
  Proof.
    destruct inv_near as [F E]. destruct two_pi_near as (FP & PB & PE). pose proof i_bounds as B. pose proof v_small as US. pose proof (bpow_gt_0 radix2 (-32)) as B0. set (f := B2R (finv n)) in *. set (p := B2R fpi2) in *. set (w := u) in *. assert (I0 : 0 < i) by lra.
    assert (WI : 0 < w * i <= / 1000000 * i) by (split; [apply Rmult_lt_0_compat; lra|apply Rmult_le_compat_r; lra]). apply Rabs_le_inv in E.
    assert (P0 : 0 < f * p <= 6.3 * i). { split; [apply Rmult_lt_0_compat; lra|]. apply Rle_trans with ((1 + w) * i * p); [apply Rmult_le_compat_r; lra|]. replace ((1 + w) * i * p) with ((1 + w) * p * i) by ring. apply Rmult_le_compat_r; [lra|]. assert (w * p <= / 1000000 * 6.29) by (apply Rmult_le_compat; lra). lra. }
    assert (P1 : 6.27 * i <= f * p). { apply Rle_trans with ((1 - w) * i * 6.28); [lra|]. apply Rmult_le_compat; [apply Rmult_le_pos; lra|lra|lra|lra]. }
    assert (A : Rabs (f * p) = f * p) by (apply Rabs_pos_eq; lra).
    destruct (mul_fin (finv n) fpi2 3 F FP ltac:(lia)) as [G V]; [fold f p; rewrite A; change (bpow radix2 3) with 8; lra|]. split; [exact G|]. unfold fstep. rewrite V. fold f p.
    assert (R1 : Rabs (rnd (f * p) - f * p) <= w * (6.3 * i)).
    { eapply Rle_trans; [apply rnd_relative; rewrite A; apply Rle_trans with (bpow radix2 (-32)); [apply bpow_le; lia|lra]|]. rewrite A. apply Rmult_le_compat_l; lra. }
    assert (R2 : Rabs (f * p - i * (2 * PI)) <= (w * i) * Rabs p + Rabs i * (3 * w)) by (apply product_error; apply Rabs_le; lra).
    rewrite (Rabs_pos_eq p), (Rabs_pos_eq i) in R2 by lra. assert (w * i * p <= w * i * 6.29) by (apply Rmult_le_compat_l; lra). apply Rabs_le_inv in R1. apply Rabs_le_inv in R2. apply Rabs_le. lra.
  Qed.
  Lemma angle_near (k : nat) : (Z.of_nat k <= n)%Z -> (n <= 2 ^ 20)%Z -> is_finite (fangle n k) = true /\ Rabs (B2R (fangle n k) - INR k * B2R (fstep n)) <= INR k * (7 * u).
  Proof.
    intros K M. destruct step_near as [F E]. pose proof i_bounds as B. pose proof (bpow_gt_0 radix2 (-32)) as B0. pose proof v_small as US. pose proof eta_small as ES. set (s := B2R (fstep n)) in *. set (w := u) in *.
    assert (NI : IZR n * i = 1) by (unfold i; field; assert (1 <= IZR n) by (apply IZR_le; lia); lra).
    assert (S0 : 0 < s <= 6.29 * i).
    { pose proof pi_digits. apply Rabs_le_inv in E. assert (16 * w * i <= 16 * / 1000000 * i) by (apply Rmult_le_compat_r; lra). assert (3.14 * i <= PI * i <= 3.1416 * i) by (split; apply Rmult_le_compat_r; lra). lra. }
    induction k as [|k IH]; [split; [reflexivity|cbn [fangle INR]; change (B2R b64_0) with 0; rewrite !Rmult_0_l, Rminus_0_r, Rabs_R0; lra]|].
    destruct (IH ltac:(lia)) as [G A]. rewrite S_INR. set (x := B2R (fangle n k)) in *. assert (KN : 0 <= INR k <= IZR n - 1) by (split; [apply pos_INR|]; rewrite INR_IZR_INZ, <- minus_IZR; apply IZR_le; lia).
    assert (KS : 0 <= INR k * s <= (IZR n - 1) * (6.29 * i)) by (split; [apply Rmult_le_pos; lra|apply Rmult_le_compat; lra]).
    assert (NB : IZR n <= 1048576) by (change 1048576 with (IZR (2 ^ 20)); apply IZR_le; lia). assert (KW : 0 <= INR k * (7 * w) <= 1048576 * (7 * w)) by (split; [apply Rmult_le_pos; lra|apply Rmult_le_compat_r; lra]).
    assert (WV : 1048576 * (7 * w) <= 0.001). { change w with (/ 9007199254740992). lra. }
    apply Rabs_le_inv in A. assert (SUM : Rabs (x + s) <= 6.3). { apply Rabs_le. lra. }
    destruct (add_fin (fangle n k) (fstep n) 3 G F ltac:(lia)) as [H V]; [fold x s; change (bpow radix2 3) with 8; lra|]. split; [exact H|]. cbn [fangle]. rewrite V. fold x s.
    pose proof (rnd_near (x + s) 6.3 SUM) as R1. fold w in R1. apply Rabs_le_inv in R1. apply Rabs_le. lra.
  Qed.
  Lemma angle_exact (k : nat) : (Z.of_nat k <= n)%Z -> (n <= 2 ^ 20)%Z -> is_finite (fangle n k) = true /\ Rabs (B2R (fangle n k) - part n (Z.of_nat k)) <= 8 * u * (INR k + 2) /\ Rabs (B2R (fangle n k)) <= 7.
  Proof.
    intros K M. destruct (angle_near k K M) as [F A]. destruct step_near as [_ E]. split; [exact F|]. pose proof v_small as US. pose proof i_bounds as B. pose proof (bpow_gt_0 radix2 (-32)) as B0. set (w := u) in *. set (s := B2R (fstep n)) in *.
    assert (NI : IZR n * i = 1) by (unfold i; field; assert (1 <= IZR n) by (apply IZR_le; lia); lra).
    assert (KN : 0 <= INR k <= IZR n) by (split; [apply pos_INR|]; rewrite INR_IZR_INZ; apply IZR_le; lia). assert (KI : 0 <= INR k * i <= 1) by (split; [apply Rmult_le_pos; lra|rewrite <- NI; apply Rmult_le_compat_r; lra]).
    assert (PP : part n (Z.of_nat k) = 2 * PI * (INR k * i)) by (unfold part, Rdiv; rewrite INR_IZR_INZ; reflexivity). rewrite PP.
    assert (KE : Rabs (INR k * s - 2 * PI * (INR k * i)) <= 16 * w). { replace (INR k * s - 2 * PI * (INR k * i)) with (INR k * (s - 2 * PI * i)) by ring. rewrite Rabs_mult, (Rabs_pos_eq (INR k)) by lra. apply Rle_trans with (INR k * (16 * w * i)); [apply Rmult_le_compat_l; lra|]. replace (INR k * (16 * w * i)) with (16 * w * (INR k * i)) by ring. rewrite <- (Rmult_1_r (16 * w)) at 2. apply Rmult_le_compat_l; lra. }
    assert (NB : IZR n <= 1048576) by (change 1048576 with (IZR (2 ^ 20)); apply IZR_le; lia). assert (KW : 0 <= INR k * w <= 1048576 * w) by (split; [apply Rmult_le_pos; lra|apply Rmult_le_compat_r; lra]). assert (WV : 1048576 * w <= 0.001) by (change w with (/ 9007199254740992); lra).
    assert (T : Rabs (B2R (fangle n k) - 2 * PI * (INR k * i)) <= 8 * w * (INR k + 2)) by (apply Rabs_le_inv in A; apply Rabs_le_inv in KE; apply Rabs_le; lra).
    split; [exact T|]. apply far_from in T. pose proof pi_digits. rewrite (Rabs_pos_eq (2 * PI * (INR k * i))) in T by (apply Rmult_le_pos; lra). assert (PI * (INR k * i) <= PI * 1) by (apply Rmult_le_compat_l; lra). lra.
  Qed.

  (** ** Shares and angles by multiplication *)
  Lemma share_near (k : Z) : (0 <= k <= n)%Z -> is_finite (fshare n k) = true /\ Rabs (B2R (fshare n k) - IZR k / IZR n) <= 2.1 * u /\ 0 <= IZR k / IZR n <= 1.
  Proof.
    intros K. destruct inv_near as [F E]. pose proof i_bounds as B. pose proof (bpow_gt_0 radix2 (-32)) as B0. pose proof v_small as US. pose proof eta_small as ES. set (f := B2R (finv n)) in *. set (w := u) in *.
    assert (NI : IZR n * i = 1) by (unfold i; field; assert (1 <= IZR n) by (apply IZR_le; lia); lra). assert (KN : 0 <= IZR k <= IZR n) by (split; apply IZR_le; lia). assert (KI : 0 <= IZR k * i <= 1) by (split; [apply Rmult_le_pos; lra|rewrite <- NI; apply Rmult_le_compat_r; lra]).
    change (IZR k / IZR n) with (IZR k * i). destruct (b64_integer k ltac:(lia)) as [VK FK].
    assert (A : Rabs (IZR k * f - IZR k * i) <= w). { replace (IZR k * f - IZR k * i) with (IZR k * (f - i)) by ring. rewrite Rabs_mult, (Rabs_pos_eq (IZR k)) by lra. apply Rle_trans with (IZR k * (w * i)); [apply Rmult_le_compat_l; lra|]. replace (IZR k * (w * i)) with (w * (IZR k * i)) by ring. rewrite <- (Rmult_1_r w) at 2. apply Rmult_le_compat_l; lra. }
    pose proof (far_from _ _ _ A) as AB. rewrite (Rabs_pos_eq (IZR k * i)) in AB by lra.
    destruct (mul_fin (b64_of_Z k) (finv n) 1 FK F ltac:(lia)) as [G V]; [rewrite VK; fold f; change (bpow radix2 1) with 2; lra|]. split; [exact G|]. split; [|exact KI]. unfold fshare. rewrite V, VK. fold f.
    pose proof (rnd_near (IZR k * f) 1.01 ltac:(lra)) as R1. fold w in R1. apply Rabs_le_inv in R1. apply Rabs_le_inv in A. apply Rabs_le. lra.
  Qed.
  Lemma turn_near (k : Z) : (0 <= k <= n)%Z -> is_finite (fturn n k) = true /\ Rabs (B2R (fturn n k) - part n k) <= 32 * u /\ Rabs (B2R (fturn n k)) <= 7.
  Proof.
    intros K. destruct (share_near k K) as (F & E & T). destruct two_pi_near as (FP & PB & PE). pose proof v_small as US. pose proof eta_small as ES. set (t := B2R (fshare n k)) in *. set (p := B2R fpi2) in *. set (w := u) in *. set (q := IZR k / IZR n) in *.
    assert (A : Rabs (t * p - q * (2 * PI)) <= 2.1 * w * Rabs p + Rabs q * (3 * w)) by (apply product_error; [exact E|apply Rabs_le; lra]). rewrite (Rabs_pos_eq p), (Rabs_pos_eq q) in A by lra.
    assert (2.1 * w * p <= 2.1 * w * 6.29) by (apply Rmult_le_compat_l; lra). assert (q * (3 * w) <= 1 * (3 * w)) by (apply Rmult_le_compat_r; lra). assert (A' : Rabs (t * p - q * (2 * PI)) <= 17 * w) by lra.
    pose proof (far_from _ _ _ A') as AB. pose proof pi_digits. rewrite (Rabs_pos_eq (q * (2 * PI))) in AB by (apply Rmult_le_pos; lra). assert (q * (2 * PI) <= 1 * (2 * PI)) by (apply Rmult_le_compat_r; lra).
    destruct (mul_fin (fshare n k) fpi2 3 F FP ltac:(lia)) as [G V]; [fold t p; change (bpow radix2 3) with 8; lra|]. split; [exact G|]. unfold fturn. rewrite V. fold t p.
    pose proof (rnd_near (t * p) 6.5 ltac:(lra)) as R1. fold w in R1. assert (PQ : part n k = q * (2 * PI)) by (unfold part, q; ring). rewrite PQ.
    assert (Z : Rabs (rnd (t * p) - q * (2 * PI)) <= 32 * w) by (apply Rabs_le_inv in R1; apply Rabs_le_inv in A'; apply Rabs_le; lra). split; [exact Z|]. apply far_from in Z. rewrite (Rabs_pos_eq (q * (2 * PI))) in Z by (apply Rmult_le_pos; lra). lra.
  Qed.
End Segments.

(** ** Values of sine and cosine *)
Lemma value_near f g x a d : accurate f g -> (forall y, -1 <= g y <= 1) -> (forall y z, Rabs (g y - g z) <= Rabs (y - z)) -> is_finite x = true -> Rabs (B2R x) <= 7 -> Rabs (B2R x - a) <= d -> 0 <= d <= 0.01 ->
  is_finite (f x) = true /\ Rabs (B2R (f x) - g a) <= d + 2.1 * u /\ Rabs (B2R (f x)) <= 1.02.
Proof.
  intros A G1 G2 F B D DS. destruct (A x F B) as [FF E]. split; [exact FF|]. pose proof v_small as US. pose proof eta_small as ES. specialize (G1 (B2R x)) as GX. assert (AX : Rabs (g (B2R x)) <= 1) by (apply Rabs_le; exact GX).
  assert (W2 : bpow radix2 (-52) = 2 * u) by exact (double_pow (-53)). assert (W3 : bpow radix2 (-1074) = 2 * eta) by exact (double_pow (-1075)). rewrite W2, W3 in E. set (w := u) in *.
  assert (2 * w * Rabs (g (B2R x)) <= 2 * w * 1) by (apply Rmult_le_compat_l; lra). pose proof (G2 (B2R x) a) as S. assert (HH : Rabs (B2R (f x) - g a) <= d + 2.1 * w) by (apply Rabs_le_inv in E; apply Rabs_le_inv in S; apply Rabs_le; lra).
  split; [exact HH|]. apply far_from in HH. assert (Rabs (g a) <= 1) by (apply Rabs_le; apply G1). lra.
Qed.
(** A product with a size *)
Lemma scaled_near (s r : b64) c d : is_finite s = true -> is_finite r = true -> Rabs (B2R r) <= bpow radix2 1000 -> Rabs (B2R s - c) <= d -> Rabs (B2R s) <= 1.05 ->
  is_finite (b64_mul s r) = true /\ Rabs (B2R (b64_mul s r) - c * B2R r) <= (d + 1.05 * u) * Rabs (B2R r) + eta /\ Rabs (B2R (b64_mul s r)) <= 1.06 * Rabs (B2R r) + eta.
Proof.
  intros FS FR BR D S. pose proof v_small as US. set (w := u) in *. set (x := B2R s) in *. set (y := B2R r) in *. pose proof (Rabs_pos y) as Y0.
  assert (P : Rabs (x * y) <= 1.05 * Rabs y) by (rewrite Rabs_mult; apply Rmult_le_compat_r; lra). assert (Q : bpow radix2 1001 = 2 * bpow radix2 1000) by exact (double_pow 1000).
  destruct (mul_fin s r 1001 FS FR ltac:(lia)) as [G V]; [fold x y; lra|]. split; [exact G|]. rewrite V. fold x y. pose proof (rnd_near (x * y) _ P) as R1. fold w in R1.
  assert (E : Rabs (x * y - c * y) <= d * Rabs y) by (replace (x * y - c * y) with ((x - c) * y) by ring; rewrite Rabs_mult; apply Rmult_le_compat_r; lra).
  split; [apply Rabs_le_inv in R1; apply Rabs_le_inv in E; apply Rabs_le; lra|]. apply far_from in R1. assert (w * (1.05 * Rabs y) <= / 1000000 * (1.05 * Rabs y)) by (apply Rmult_le_compat_r; lra). lra.
Qed.

(** ** Coordinates *)
Lemma trig_near f g x r a d : accurate f g -> (forall y, -1 <= g y <= 1) -> (forall y z, Rabs (g y - g z) <= Rabs (y - z)) -> is_finite x = true -> Rabs (B2R x) <= 7 -> Rabs (B2R x - a) <= d -> 0 <= d <= 0.01 ->
  is_finite r = true -> Rabs (B2R r) <= bpow radix2 1000 -> is_finite (b64_mul (f x) r) = true /\ Rabs (B2R (b64_mul (f x) r) - B2R r * g a) <= (d + 4 * u) * Rabs (B2R r) + eta.
Proof.
  intros A G1 G2 F B D DS FR BR. destruct (value_near f g x a d A G1 G2 F B D DS) as (FV & E & V). pose proof v_small as US. destruct (scaled_near (f x) r _ _ FV FR BR E ltac:(lra)) as (FM & EM & _).
  split; [exact FM|]. rewrite (Rmult_comm (B2R r)). eapply Rle_trans; [exact EM|]. apply Rplus_le_compat_r, Rmult_le_compat_r; [apply Rabs_pos|lra].
Qed.
Lemma double_value (x : b64) : is_finite x = true -> Rabs (B2R x) <= bpow radix2 1000 -> is_finite (b64_sub (Bopp x) x) = true /\ B2R (b64_sub (Bopp x) x) = - (2 * B2R x).
Proof.
  intros F B. assert (Q : bpow radix2 1001 = 2 * bpow radix2 1000) by exact (double_pow 1000). assert (E : - B2R x - B2R x = - (2 * B2R x)) by ring.
  destruct (sub_fin (Bopp x) x 1001) as [G V]; [rewrite is_finite_Bopp; exact F|exact F|lia|rewrite B2R_Bopp, E, Rabs_Ropp, Rabs_mult, (Rabs_pos_eq 2) by lra; lra|]. split; [exact G|]. rewrite V, B2R_Bopp, E. apply round_generic; [auto with typeclass_instances|].
  apply generic_format_opp. rewrite Rmult_comm. change 2 with (bpow radix2 1). assert (GX := generic_format_B2R 53 1024 x). change (SpecFloat.fexp 53 1024) with f64 in GX. apply generic_format_FLT. apply FLT_format_generic in GX; [|reflexivity]. destruct GX as [[m e] E1 E2 E3].
  exists (Float radix2 m (e + 1)); [rewrite E1; unfold F2R; cbn [Fnum Fexp]; rewrite bpow_plus; ring|exact E2|cbn [Fexp] in *; lia].
Qed.
Lemma half_value : B2R fhalf = / 2 /\ is_finite fhalf = true.
Proof.
  assert (E : fhalf = @B754_finite 53 1024 false 4503599627370496 (-53) eq_refl) by (apply B2SF_inj; vm_compute; reflexivity). rewrite E. split; [|reflexivity]. cbn [B2R]. unfold F2R. cbn [Fnum Fexp cond_Zopp]. change (bpow radix2 (-53)) with (/ 9007199254740992). lra.
Qed.
Lemma half_height_near (h : b64) : is_finite h = true -> Rabs (B2R h) <= bpow radix2 1000 -> is_finite (fhalf_height h) = true /\ Rabs (B2R (fhalf_height h) - B2R h / 2) <= u * (Rabs (B2R h) / 2) + eta /\ Rabs (B2R (fhalf_height h)) <= bpow radix2 1000.
Proof.
  intros F B. destruct half_value as [V2 F2]. assert (A : Rabs (B2R h * / 2) = Rabs (B2R h) / 2) by (rewrite Rabs_mult, (Rabs_pos_eq (/ 2)) by lra; reflexivity). pose proof (Rabs_pos (B2R h)). assert (L : Rabs (B2R h * / 2) <= bpow radix2 1000) by lra.
  destruct (mul_fin h fhalf 1000 F F2 ltac:(lia)) as [G V]; [rewrite V2; exact L|]. split; [exact G|]. unfold fhalf_height. rewrite V, V2. split; [rewrite <- A; apply rnd_near; lra|apply rnd_bound; [lia|exact L]].
Qed.
Lemma height_near (m : Z) (h : b64) (k : Z) : (1 <= m <= 2 ^ 32)%Z -> (0 <= k <= m)%Z -> is_finite h = true -> Rabs (B2R h) <= bpow radix2 1000 ->
  let y := flerp (fhalf_height h) (Bopp (fhalf_height h)) (fshare m k) in is_finite y = true /\ Rabs (B2R y - B2R h * (1 / 2 - IZR k / IZR m)) <= 8 * u * Rabs (B2R h) + 16 * eta.
Proof.
  intros M K F B y. destruct (half_height_near h F B) as (FH & EH & BH). destruct (double_value _ FH BH) as [FD VD]. destruct (share_near m M k K) as (FT & ET & TT). pose proof v_small as US. pose proof eta_small as ES.
  unfold y, flerp. set (D := b64_sub _ _) in *. set (t := fshare m k) in *. set (H := fhalf_height h) in *. set (q := IZR k / IZR m) in *. set (w := u) in *. set (z := B2R h) in *. pose proof (Rabs_pos z) as Z0. set (e := eta) in *.
  assert (E1 : Rabs (B2R D - - z) <= w * Rabs z + 2 * e) by (rewrite VD; apply Rabs_le_inv in EH; apply Rabs_le; lra). pose proof (far_from _ _ _ E1) as D1. rewrite Rabs_Ropp in D1.
  assert (WZ : 0 <= w * Rabs z <= / 1000000 * Rabs z) by (split; [apply Rmult_le_pos; lra|apply Rmult_le_compat_r; lra]).
  pose proof (far_from _ _ _ ET) as T1. rewrite (Rabs_pos_eq q) in T1 by lra. assert (T2 : Rabs (B2R t) <= 1.01) by lra.
  pose proof (product_error _ _ _ _ _ _ E1 ET) as E2. rewrite Rabs_Ropp in E2.
  assert (E3 : Rabs (B2R D * B2R t - - z * q) <= 3.2 * (w * Rabs z) + 3 * e). { assert ((w * Rabs z + 2 * e) * Rabs (B2R t) <= (w * Rabs z + 2 * e) * 1.01) by (apply Rmult_le_compat_l; lra). lra. }
  assert (P1 : Rabs (B2R D * B2R t) <= 1.02 * Rabs z + 3 * e). { rewrite Rabs_mult. assert (Rabs (B2R D) * Rabs (B2R t) <= (1.000001 * Rabs z + 2 * e) * 1.01) by (apply Rmult_le_compat; try apply Rabs_pos; lra). lra. }
  assert (Q1 : bpow radix2 1001 = 2 * bpow radix2 1000) by exact (double_pow 1000). assert (Q2 : bpow radix2 1002 = 2 * bpow radix2 1001) by exact (double_pow 1001). assert (W1 : 1 <= bpow radix2 1000) by (change 1 with (bpow radix2 0); apply bpow_le; lia). assert (EB : e <= / 1000000) by lra.
  destruct (mul_fin D t 1001 FD FT ltac:(lia)) as [FP VP]; [lra|]. set (P := b64_mul D t) in *.
  pose proof (rnd_near _ _ P1) as R1. fold w e in R1. rewrite <- VP in R1. assert (WE : 0 <= w * e <= / 1000000 * e) by (split; [apply Rmult_le_pos; lra|apply Rmult_le_compat_r; lra]).
  assert (E4 : Rabs (B2R P - - z * q) <= 4.3 * (w * Rabs z) + 5 * e) by (apply Rabs_le_inv in R1; apply Rabs_le_inv in E3; apply Rabs_le; lra).
  assert (E5 : Rabs (B2R P + B2R H - z * (1 / 2 - q)) <= 4.9 * (w * Rabs z) + 6 * e) by (apply Rabs_le_inv in E4; apply Rabs_le_inv in EH; apply Rabs_le; lra).
  pose proof (far_from _ _ _ E5) as S1. assert (ZQ : Rabs (z * (1 / 2 - q)) <= Rabs z) by (rewrite Rabs_mult; rewrite <- (Rmult_1_r (Rabs z)) at 2; apply Rmult_le_compat_l; [lra|apply Rabs_le; lra]).
  assert (S2 : Rabs (B2R P + B2R H) <= 1.01 * Rabs z + 6 * e) by lra. destruct (add_fin P H 1002 FP FH ltac:(lia)) as [FS VS]; [lra|]. split; [exact FS|]. rewrite VS.
  pose proof (rnd_near _ _ S2) as R2. fold w e in R2. apply Rabs_le_inv in R2. apply Rabs_le_inv in E5. apply Rabs_le. lra.
Qed.

(** ** The rims *)
Lemma lerp_one (x t : b64) : is_finite x = true -> is_finite t = true -> B2R t = 1 -> is_finite (flerp b64_0 x t) = true /\ B2R (flerp b64_0 x t) = B2R x.
Proof.
  intros F FT T. unfold flerp. assert (GX := generic_format_B2R 53 1024 x). change (SpecFloat.fexp 53 1024) with f64 in GX. pose proof (abs_B2R_lt_emax 53 1024 x) as BX.
  assert (S : is_finite (b64_sub x b64_0) = true /\ B2R (b64_sub x b64_0) = B2R x).
  { assert (C := Bminus_correct 53 1024 b64_prec_gt_0 b64_prec_lt_emax mode_NE x b64_0 F eq_refl). fold (b64_sub x b64_0) in C. change (B2R b64_0) with 0 in C. rewrite Rminus_0_r in C. change (SpecFloat.fexp 53 1024) with f64 in C. cbn [round_mode] in C. rewrite (round_generic radix2 f64 ZnearestE _ GX) in C. rewrite Rlt_bool_true in C by exact BX. tauto. }
  destruct S as [FS VS]. destruct (mul_exact (b64_sub x b64_0) t FS FT) as [FM VM]; [rewrite VS, T, Rmult_1_r; exact GX|rewrite VS, T, Rmult_1_r; exact BX|]. rewrite VS, T, Rmult_1_r in VM.
  destruct (add_exact (b64_mul (b64_sub x b64_0) t) b64_0 FM eq_refl) as [FA VA]; [rewrite VM; change (B2R b64_0) with 0; rewrite Rplus_0_r; exact GX|rewrite VM; change (B2R b64_0) with 0; rewrite Rplus_0_r; exact BX|]. rewrite VM in VA. change (B2R b64_0) with 0 in VA. rewrite Rplus_0_r in VA. now split.
Qed.
Lemma lerp_same (y t : b64) : is_finite y = true -> is_finite t = true -> is_finite (flerp y y t) = true /\ B2R (flerp y y t) = B2R y.
Proof.
  intros F FT. unfold flerp. assert (GY := generic_format_B2R 53 1024 y). change (SpecFloat.fexp 53 1024) with f64 in GY. pose proof (abs_B2R_lt_emax 53 1024 y) as BY. assert (P0 : Rabs 0 < bpow radix2 1024) by (rewrite Rabs_R0; apply bpow_gt_0).
  assert (S : is_finite (b64_sub y y) = true /\ B2R (b64_sub y y) = 0).
  { assert (C := Bminus_correct 53 1024 b64_prec_gt_0 b64_prec_lt_emax mode_NE y y F F). fold (b64_sub y y) in C. replace (B2R y - B2R y) with 0 in C by ring. change (SpecFloat.fexp 53 1024) with f64 in C. cbn [round_mode] in C. rewrite round_0 in C by auto with typeclass_instances. rewrite Rlt_bool_true in C by exact P0. tauto. }
  destruct S as [FS VS]. destruct (mul_exact (b64_sub y y) t FS FT) as [FM VM]; [rewrite VS, Rmult_0_l; apply generic_format_0|rewrite VS, Rmult_0_l; exact P0|]. rewrite VS, Rmult_0_l in VM.
  destruct (add_exact (b64_mul (b64_sub y y) t) y FM F) as [FA VA]; [rewrite VM, Rplus_0_l; exact GY|rewrite VM, Rplus_0_l; exact BY|]. rewrite VM, Rplus_0_l in VA. now split.
Qed.
Lemma bottom_value (H t : b64) : is_finite H = true -> Rabs (B2R H) <= bpow radix2 1000 -> is_finite t = true -> B2R t = 1 -> B2R (flerp H (Bopp H) t) = - B2R H.
Proof.
  intros F B FT T. destruct (double_value H F B) as [FD VD]. unfold flerp. set (D := b64_sub (Bopp H) H) in *. assert (GD := generic_format_B2R 53 1024 D). change (SpecFloat.fexp 53 1024) with f64 in GD. pose proof (abs_B2R_lt_emax 53 1024 D) as BD.
  assert (GH := generic_format_B2R 53 1024 H). change (SpecFloat.fexp 53 1024) with f64 in GH. pose proof (abs_B2R_lt_emax 53 1024 H) as BH.
  destruct (mul_exact D t FD FT) as [FM VM]; [rewrite T, Rmult_1_r; exact GD|rewrite T, Rmult_1_r; exact BD|]. rewrite T, Rmult_1_r, VD in VM. assert (E : - (2 * B2R H) + B2R H = - B2R H) by ring.
  destruct (add_exact (b64_mul D t) H FM F) as [_ VA]; [rewrite VM, E; apply generic_format_opp; exact GH|rewrite VM, E, Rabs_Ropp; exact BH|]. rewrite VA, VM. exact E.
Qed.
Lemma top_value (H t : b64) : is_finite H = true -> Rabs (B2R H) <= bpow radix2 1000 -> is_finite t = true -> B2R t = 0 -> B2R (flerp H (Bopp H) t) = B2R H.
Proof.
  intros F B FT T. destruct (double_value H F B) as [FD VD]. unfold flerp. set (D := b64_sub (Bopp H) H) in *.
  assert (GH := generic_format_B2R 53 1024 H). change (SpecFloat.fexp 53 1024) with f64 in GH. pose proof (abs_B2R_lt_emax 53 1024 H) as BH.
  destruct (mul_exact D t FD FT) as [FM VM]; [rewrite T, Rmult_0_r; apply generic_format_0|rewrite T, Rmult_0_r, Rabs_R0; apply bpow_gt_0|]. rewrite T, Rmult_0_r in VM.
  destruct (add_exact (b64_mul D t) H FM F) as [_ VA]; [rewrite VM, Rplus_0_l; exact GH|rewrite VM, Rplus_0_l; exact BH|]. rewrite VA, VM. ring.
Qed.
Lemma side_value (H : b64) (top : bool) : is_finite H = true -> is_finite (b64_mul H (b64_of_Z (if top then 1 else -1))) = true /\ B2R (b64_mul H (b64_of_Z (if top then 1 else -1))) = if top then B2R H else - B2R H.
Proof.
  intros F. assert (GH := generic_format_B2R 53 1024 H). change (SpecFloat.fexp 53 1024) with f64 in GH. pose proof (abs_B2R_lt_emax 53 1024 H) as BH.
  destruct (b64_integer (if top then 1 else -1) ltac:(destruct top; cbn; lia)) as [V FV]. assert (E : B2R H * IZR (if top then 1 else -1) = if top then B2R H else - B2R H) by (destruct top; ring).
  destruct (mul_exact H (b64_of_Z (if top then 1 else -1)) F FV) as [G W]; [rewrite V, E; destruct top; [exact GH|apply generic_format_opp; exact GH]|rewrite V, E; destruct top; [|rewrite Rabs_Ropp]; exact BH|]. rewrite V, E in W. now split.
Qed.
Lemma whole_share (c : Z) : (1 <= c <= 48)%Z -> is_finite (fshare c c) = true /\ B2R (fshare c c) = 1.
Proof.
  intros C. assert (A : forallb (fun k => let x := fshare (Z.of_nat k) (Z.of_nat k) in is_finite x && Bleb x b64_1 && Bleb b64_1 x) (seq 1 48) = true) by (vm_compute; reflexivity).
  rewrite forallb_forall in A. specialize (A (Z.to_nat c) ltac:(apply in_seq; lia)). rewrite Z2Nat.id in A by lia. cbv zeta in A. apply andb_prop in A. destruct A as [A L2]. apply andb_prop in A. destruct A as [F L1]. destruct one_value as [V1 F1].
  rewrite (Bleb_correct 53 1024 _ _ F F1) in L1. rewrite (Bleb_correct 53 1024 _ _ F1 F) in L2. rewrite V1 in L1, L2. split; [exact F|].
  destruct (Rle_bool_spec (B2R (fshare c c)) 1); [|discriminate]. destruct (Rle_bool_spec 1 (B2R (fshare c c))); [|discriminate]. lra.
Qed.
Lemma no_share (m : Z) : (1 <= m <= 2 ^ 32)%Z -> is_finite (fshare m 0) = true /\ B2R (fshare m 0) = 0.
Proof.
  intros M. destruct (inv_near m M) as [F _]. unfold fshare. change (b64_of_Z 0) with b64_0. destruct (mul_exact b64_0 (finv m) eq_refl F) as [G V]; [change (B2R b64_0) with 0; rewrite Rmult_0_l; apply generic_format_0|change (B2R b64_0) with 0; rewrite Rmult_0_l, Rabs_R0; apply bpow_gt_0|].
  split; [exact G|]. rewrite V. change (B2R b64_0) with 0. ring.
Qed.

(** A full turn is not quite one. *)
Lemma sin_small d : 0 <= d <= 1 -> d / 2 <= sin d.
Proof.
  intros D. pose proof PI2_1. destruct (sin_bound d 0 ltac:(lra) ltac:(lra)) as [L _]. unfold sin_approx in L. cbn [sum_f_R0 sin_term Nat.mul Nat.add pow fact INR] in L. unfold sin_term in L. cbn [Nat.mul Nat.add pow fact INR] in L.
  assert (d * d * d <= d). { assert (d * d <= 1) by (rewrite <- (Rmult_1_r 1); apply Rmult_le_compat; lra). replace d with (1 * d) at 4 by ring. apply Rmult_le_compat_r; lra. } lra.
Qed.
Lemma full_turn : sin (B2R fpi2) <= - u.
Proof.
  destruct two_pi_near as (_ & PB & PE). set (d := 2 * PI - B2R fpi2). pose proof v_small. assert (E : B2R fpi2 = 2 * PI + - d) by (unfold d; ring). rewrite E, sin_plus, sin_2PI, cos_2PI, sin_neg. assert (D : 2 * u <= d <= 3 * u) by (unfold d; lra).
  pose proof (sin_small d ltac:(lra)). lra.
Qed.
