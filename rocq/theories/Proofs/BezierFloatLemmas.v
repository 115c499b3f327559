(** Rounding in Bezier curves. *)
From Coq Require Import ZArith Reals List Bool Lia Lra Psatz.
From Flocq Require Import Core IEEE754.BinarySingleNaN.
From Verif Require Import Model.Scalar Model.Vec Model.BoxFloat Model.PlaneFloat Model.Bezier Model.KeyframeFloat Model.ClipFloat Model.BezierFloat
  Spec.FloatSpec Spec.ClipFloatSpec Spec.BezierSpec Spec.BezierFloatSpec
  Proofs.PlaneFloatLemmas Proofs.SplineFloat Proofs.BoxRayFloatLemmas Proofs.ClipFloatLemmas Proofs.KeyframeFloatLemmas Proofs.BezierLemmas.
Import ListNotations.
Local Open Scope R_scope.

(** Products of numbers that are nearly right *)
Lemma approx_mul v h x X y Y z r1 r2 h1 h2 : 0 <= v -> 0 <= X -> 0 <= Y -> 0 <= r1 -> 0 <= h1 -> 0 <= r2 -> 0 <= h2 ->
  Rabs (x - X) <= r1 * X + h1 -> Rabs (y - Y) <= r2 * Y + h2 -> Rabs (z - x * y) <= v * Rabs (x * y) + h ->
  Rabs (z - X * Y) <= (1 + v) * ((r1 * X + h1) * ((1 + r2) * Y + h2) + X * (r2 * Y + h2)) + v * (X * Y) + h.
Proof.
  intros V PX PY P1 P2 P3 P4 A B C. set (D := (r1 * X + h1) * ((1 + r2) * Y + h2) + X * (r2 * Y + h2)).
  assert (Ay : Rabs y <= (1 + r2) * Y + h2).
  { replace y with (y - Y + Y) by ring. apply Rle_trans with (1 := Rabs_triang _ _). rewrite (Rabs_pos_eq Y PY). lra. }
  assert (E : Rabs (x * y - X * Y) <= D).
  { replace (x * y - X * Y) with ((x - X) * y + X * (y - Y)) by ring. apply Rle_trans with (1 := Rabs_triang _ _). rewrite !Rabs_mult, (Rabs_pos_eq X PX). unfold D.
    apply Rplus_le_compat; [apply Rmult_le_compat; auto using Rabs_pos|apply Rmult_le_compat_l; assumption]. }
  assert (F : Rabs (x * y) <= X * Y + D).
  { replace (x * y) with (x * y - X * Y + X * Y) by ring. apply Rle_trans with (1 := Rabs_triang _ _). rewrite (Rabs_pos_eq (X * Y)) by now apply Rmult_le_pos. lra. }
  replace (z - X * Y) with (z - x * y + (x * y - X * Y)) by ring. apply Rle_trans with (1 := Rabs_triang _ _).
  assert (G : v * Rabs (x * y) <= v * (X * Y + D)) by now apply Rmult_le_compat_l. lra.
Qed.

Lemma weight_arith v h c p P q Q a w : 0 < v <= / 1000 -> 0 <= h <= / 1000 -> 1 <= c -> 0 <= P <= 1 -> 0 <= Q <= 1 ->
  Rabs (p - P) <= 4 * v * P + 2 * h -> Rabs (q - Q) <= 50 * v * Q + 2 * h -> Rabs (a - c * p) <= v * Rabs (c * p) + h -> Rabs (w - a * q) <= v * Rabs (a * q) + h ->
  Rabs (w - c * P * Q) <= 66 * v * (c * P * Q) + 12 * (c * h).
Proof.
  intros V H C PP QQ A B D E.
  assert (X1 : Rabs (a - c * P) <= 6 * v * (c * P) + 4 * (c * h)).
  { eapply Rle_trans; [apply (approx_mul v h c c p P a 0 (4 * v) 0 (2 * h)); try lra; [replace (c - c) with 0 by ring; rewrite Rabs_R0; lra]|].
    assert (0 <= c * P) by nra. assert (0 <= v * (c * P)) by nra. assert (v * (v * (c * P)) <= / 1000 * (v * (c * P))) by nra.
    assert (0 <= c * h) by nra. assert (v * (c * h) <= / 1000 * (c * h)) by nra. assert (h <= c * h) by nra. lra. }
  eapply Rle_trans; [apply (approx_mul v h a (c * P) q Q w (6 * v) (50 * v) (4 * (c * h)) (2 * h)); try lra; nra|].
  set (k := c * P). assert (K : 0 <= k <= c) by (unfold k; nra). set (z := k * Q). assert (Z0 : 0 <= z) by (unfold z; nra).
  set (g := c * h). assert (G : 0 <= g) by (unfold g; nra). assert (G1 : h <= g) by (unfold g; nra).
  assert (KH : 0 <= k * h <= g) by (unfold g; nra). assert (GQ : 0 <= g * Q <= g) by nra. assert (GH : 0 <= g * h <= / 1000 * g) by nra.
  set (D' := (6 * v * k + 4 * g) * ((1 + 50 * v) * Q + 2 * h) + k * (50 * v * Q + 2 * h)).
  assert (VV : 0 <= v * v <= / 1000 * v) by nra.
  assert (DD : D' <= 57 * v * z + 7 * g).
  { unfold D'. replace ((6 * v * k + 4 * g) * ((1 + 50 * v) * Q + 2 * h) + k * (50 * v * Q + 2 * h))
      with (56 * v * z + 300 * (v * v) * z + 12 * (v * (k * h)) + 4 * (g * Q) + 200 * (v * (g * Q)) + 8 * (g * h) + 2 * (k * h)) by (unfold z; ring).
    assert (v * v * z <= / 1000 * v * z) by nra. assert (v * (k * h) <= / 1000 * g) by nra. assert (v * (g * Q) <= / 1000 * g) by nra. assert (0 <= v * z) by nra. lra. }
  assert (0 <= v * z) by nra. assert (v * D' <= v * (57 * v * z + 7 * g)) by nra. assert (v * v * z <= / 1000 * v * z) by nra. assert (v * g <= / 1000 * g) by nra.
  fold k z g. lra.
Qed.

(** Powers of a number with a small relative error *)
Lemma power_near v r s m : 0 <= v <= / 1000 -> 0 <= r -> (1 - v) * r <= s <= (1 + v) * r -> (m <= 20)%nat -> Rabs (s ^ m - r ^ m) <= 40 * v * r ^ m.
Proof.
  intros V R0 S M.
  assert (K : forall k, (k <= 20)%nat -> 0 <= r ^ k /\ 0 <= s ^ k /\ (1 - 2 * INR k * v) * r ^ k <= s ^ k <= (1 + 2 * INR k * v) * r ^ k).
  { induction k; intros L; [cbn [pow INR]; lra|]. destruct IHk as (A & B & C & D); [lia|]. cbn [pow]. rewrite S_INR.
    assert (I : 0 <= INR k <= 20) by (split; [apply pos_INR|replace 20 with (INR 20) by (cbn; ring); apply le_INR; lia]).
    assert (S0 : 0 <= s) by nra. assert (0 <= r * r ^ k) by nra. split; [assumption|]. split; [nra|].
    set (x := r ^ k) in *. set (y := s ^ k) in *. set (j := INR k) in *. assert (J : 0 <= j * v <= / 50) by nra. split.
    - apply Rle_trans with ((1 - v) * r * ((1 - 2 * j * v) * x)).
      + replace ((1 - v) * r * ((1 - 2 * j * v) * x)) with ((1 - 2 * (j + 1) * v) * (r * x) + (v + 2 * j * v * v) * (r * x)) by ring.
        assert (0 <= (v + 2 * j * v * v) * (r * x)) by (apply Rmult_le_pos; [nra|assumption]). lra.
      + apply Rmult_le_compat; try lra; [nra|apply Rmult_le_pos; lra].
    - apply Rle_trans with ((1 + v) * r * ((1 + 2 * j * v) * x)).
      + apply Rmult_le_compat; lra.
      + replace ((1 + v) * r * ((1 + 2 * j * v) * x)) with ((1 + 2 * (j + 1) * v) * (r * x) - v * (1 - 2 * (j * v)) * (r * x)) by ring.
        assert (0 <= v * (1 - 2 * (j * v)) * (r * x)) by (apply Rmult_le_pos; [apply Rmult_le_pos; lra|assumption]). lra. }
  destruct (K m M) as (A & B & C & D). assert (I : INR m <= 20) by (replace 20 with (INR 20) by (cbn; ring); apply le_INR; lia).
  assert (INR m * v * r ^ m <= 20 * v * r ^ m) by (apply Rmult_le_compat_r; [assumption|apply Rmult_le_compat_r; lra]).
  apply Rabs_le. lra.
Qed.

Lemma choose_bound n : forall i, (choose n i <= 2 ^ Z.of_nat n)%Z.
Proof.
  induction n; intros [|i]; [reflexivity|cbn; lia| |].
  - rewrite choose_0. assert (0 < 2 ^ Z.of_nat (S n))%Z by (apply Z.pow_pos_nonneg; lia). lia.
  - cbn [choose]. rewrite Nat2Z.inj_succ, Z.pow_succ_r by lia. assert (A := IHn i). assert (B := IHn (S i)). lia.
Qed.
Lemma choose_pos n : forall i, (i <= n)%nat -> (1 <= choose n i)%Z.
Proof.
  induction n; intros [|i] H; [reflexivity|lia|rewrite choose_0; lia|]. cbn [choose]. assert (A := IHn i ltac:(lia)). assert (B := choose_ge n (S i)). lia.
Qed.
Lemma choose_small n i : (i <= n <= 20)%nat -> (1 <= choose n i <= 2 ^ 20)%Z.
Proof.
  intros H. split; [apply choose_pos; lia|]. apply Z.le_trans with (1 := choose_bound n i). apply Z.pow_le_mono_r; lia.
Qed.

(** The parameter and one minus the parameter *)
Lemma unit_tame (t : b64) : is_finite t = true -> 0 <= B2R t <= 1 -> tame t.
Proof. intros F T. split; [exact F|]. rewrite Rabs_pos_eq by lra. apply Rle_trans with 1; [lra|]. change 1 with (bpow radix2 0). apply bpow_le. lia. Qed.
Lemma rest (t : b64) : is_finite t = true -> 0 <= B2R t <= 1 ->
  let s := b64_sub (b64_of_Z 1) t in is_finite s = true /\ 0 <= B2R s <= 1 /\ (1 - u) * (1 - B2R t) <= B2R s <= (1 + u) * (1 - B2R t) /\ (B2R t = 0 -> B2R s = 1) /\ (B2R t = 1 -> B2R s = 0).
Proof.
  intros F T. cbv zeta. destruct one_value as [V1 F1]. change (b64_of_Z 1) with b64_1.
  assert (T1 : tame b64_1) by (apply unit_tame; [exact F1|lra]). destruct (sub_relative b64_1 t T1 (unit_tame t F T)) as (Q & E & _). rewrite V1 in E.
  rewrite (Rabs_pos_eq (1 - B2R t)) in E by lra. apply Rabs_le_inv in E.
  destruct (sub_fin b64_1 t 0 F1 F ltac:(lia)) as [_ V]; [rewrite V1, Rabs_pos_eq by lra; change (bpow radix2 0) with 1; lra|]. rewrite V1 in V.
  assert (G : rnd 1 = 1) by (rewrite <- V1 at 1; rewrite format_b64; exact V1).
  split; [exact Q|]. split; [rewrite V; split; [rewrite <- rnd_0|rewrite <- G at 2]; apply rnd_mono; lra|].
  split; [lra|]. rewrite V. split; intros ->; [rewrite Rminus_0_r; exact G|replace (1 - 1) with 0 by ring; exact rnd_0].
Qed.

Lemma loop_arith v h h' M S W k x b w pr a s : 0 < v <= / 1000 -> 0 <= h -> 0 <= h' <= v -> 0 <= M -> 0 <= b -> 0 <= W -> W + b <= 1 -> 0 <= k <= 20 -> Rabs S <= M * W -> Rabs x <= M ->
  Rabs (w - b) <= 66 * v * b + h' -> Rabs (pr - x * w) <= v * Rabs (x * w) + h -> Rabs (a - S) <= M * (72 * v * W + 4 * v * k) + 3 * k * h -> Rabs (s - (a + pr)) <= v * Rabs (a + pr) + h ->
  Rabs (s - (S + b * x)) <= M * (72 * v * (W + b) + 4 * v * (k + 1)) + 3 * (k + 1) * h /\ Rabs (S + b * x) <= M * (W + b).
Proof.
  intros V H H' M0 B0 W0 WB K SM XM EW EP EA ES.
  assert (D1 : Rabs (x * w - x * b) <= M * (66 * v * b + h')).
  { replace (x * w - x * b) with (x * (w - b)) by ring. rewrite Rabs_mult. apply Rmult_le_compat; auto using Rabs_pos. }
  assert (D2 : Rabs (x * b) <= M * b) by (rewrite Rabs_mult, (Rabs_pos_eq b B0); now apply Rmult_le_compat_r).
  assert (D3 : Rabs (x * w) <= M * b + M * (66 * v * b + h')).
  { replace (x * w) with (x * b + (x * w - x * b)) by ring. apply Rle_trans with (1 := Rabs_triang _ _). lra. }
  set (mb := M * b) in *. assert (Mb : 0 <= mb) by (unfold mb; nra). set (mh := M * h') in *. assert (Mh : 0 <= mh <= v * M) by (unfold mh; nra).
  set (mw := M * W) in *. assert (Mw : 0 <= mw) by (unfold mw; nra). assert (MM : mw + mb <= M) by (unfold mb, mw; nra).
  replace (M * (66 * v * b + h')) with (66 * (v * mb) + mh) in * by (unfold mb, mh; ring).
  assert (VM : 0 <= v * M <= / 1000 * M) by nra. assert (Vb : 0 <= v * mb <= / 1000 * mb) by nra. assert (Vw : 0 <= v * mw <= / 1000 * mw) by nra.
  assert (D4 : Rabs (pr - x * b) <= 68 * (v * mb) + 2 * mh + h).
  { replace (pr - x * b) with (pr - x * w + (x * w - x * b)) by ring. apply Rle_trans with (1 := Rabs_triang _ _).
    assert (v * Rabs (x * w) <= v * (mb + (66 * (v * mb) + mh))) by (apply Rmult_le_compat_l; lra).
    assert (v * (v * mb) <= / 1000 * (v * mb)) by nra. assert (v * mh <= / 1000 * mh) by nra. lra. }
  assert (KV : 0 <= k * (v * M) <= 20 * (v * M)) by nra. assert (KH : 0 <= k * h <= 20 * h) by nra.
  replace (M * (72 * v * W + 4 * v * k) + 3 * k * h) with (72 * (v * mw) + 4 * (k * (v * M)) + 3 * (k * h)) in EA by (unfold mw; ring).
  assert (D5 : Rabs (S + b * x) <= mw + mb) by (replace (b * x) with (x * b) by ring; apply Rle_trans with (1 := Rabs_triang _ _); lra).
  assert (D6 : Rabs (a - S + (pr - x * b)) <= 72 * (v * mw) + 4 * (k * (v * M)) + 3 * (k * h) + (68 * (v * mb) + 2 * mh + h)) by (apply Rle_trans with (1 := Rabs_triang _ _); lra).
  assert (D7 : Rabs (a + pr) <= 3 / 2 * M + 61 * h).
  { replace (a + pr) with (S + b * x + (a - S + (pr - x * b))) by ring. apply Rle_trans with (1 := Rabs_triang _ _). lra. }
  split; [|unfold mb, mw in D5; lra].
  replace (s - (S + b * x)) with (s - (a + pr) + (a - S + (pr - x * b))) by ring. apply Rle_trans with (1 := Rabs_triang _ _).
  assert (v * Rabs (a + pr) <= v * (3 / 2 * M + 61 * h)) by (apply Rmult_le_compat_l; lra). assert (v * h <= / 1000 * h) by nra.
  replace (M * (72 * v * (W + b) + 4 * v * (k + 1)) + 3 * (k + 1) * h) with (72 * (v * mw) + 72 * (v * mb) + 4 * (k * (v * M)) + 4 * (v * M) + 3 * (k * h) + 3 * h) by (unfold mb, mw; ring). lra.
Qed.

Section Pow.
Variable fpow : b64 -> nat -> b64.
Hypothesis accurate : accurate_pow fpow.

Lemma eta_small : 0 < eta <= / 1000.
Proof.
  split; [apply bpow_gt_0|]. apply Rle_trans with (bpow radix2 (-10)); [apply bpow_le; lia|]. change (bpow radix2 (-10)) with (/ 1024). lra.
Qed.
Lemma rnd_abs x : Rabs (rnd x - x) <= u * Rabs x + eta.
Proof. apply Rabs_le. apply rnd_error. lra. Qed.
Lemma unit_pow x k : 0 <= x <= 1 -> 0 <= x ^ k <= 1.
Proof. intros X. induction k; cbn [pow]; [lra|nra]. Qed.

(** The weights of the control points *)
Lemma weight (t : b64) i n : is_finite t = true -> 0 <= B2R t <= 1 -> (i <= n)%nat -> (1 <= n <= 20)%nat -> exists w, fbernstein fpow t i n = Some w /\ is_finite w = true /\
  Rabs (B2R w - B (B2R t) n i) <= 66 * u * B (B2R t) n i + bpow radix2 25 * eta /\
  (B2R t = 0 -> B2R w = if (i =? 0)%nat then 1 else 0) /\ (B2R t = 1 -> B2R w = if (i =? n)%nat then 1 else 0).
Proof.
  intros F T Hi Hn. destruct (rest t F T) as (Fs & Ss & Rs & S0 & S1). set (s := b64_sub (b64_of_Z 1) t) in *.
  unfold fbernstein. replace (i <=? n)%nat with true by (symmetry; apply Nat.leb_le; lia). replace (0 <? n)%nat with true by (symmetry; apply Nat.ltb_lt; lia). cbn [andb].
  rewrite binomial64_exact by lia. fold s. eexists. split; [reflexivity|].
  destruct (choose_small n i ltac:(lia)) as [C1 C2]. destruct (b64_int (choose n i) ltac:(lia)) as [Vc Fc]. rewrite (B_choose (B2R t) n i Hi).
  set (c := b64_of_Z (choose n i)) in *. apply IZR_le in C1. apply IZR_le in C2. change (IZR (2 ^ 20)) with (bpow radix2 20) in C2. rewrite <- Vc in *.
  destruct (accurate t i F T ltac:(lia)) as (Fp & Ep & P1 & P0). destruct (accurate s (n - i)%nat Fs Ss ltac:(lia)) as (Fq & Eq & Q1 & Q0).
  set (p := fpow t i) in *. set (q := fpow s (n - i)%nat) in *.
  assert (U4 : bpow radix2 (-51) = 4 * u) by (change (-51)%Z with (2 + -53)%Z; rewrite bpow_plus; reflexivity).
  assert (H2 : bpow radix2 (-1074) = 2 * eta) by (change (-1074)%Z with (1 + -1075)%Z; rewrite bpow_plus; reflexivity). rewrite U4, H2 in Ep, Eq. clear U4 H2.
  assert (Us := u_small). assert (Hs := eta_small). assert (B20 : bpow radix2 20 = 1048576) by reflexivity.
  assert (A := unit_pow (B2R t) i T). assert (As := unit_pow (B2R s) (n - i)%nat Ss). assert (Ar : 0 <= 1 - B2R t <= 1) by lra. assert (Ar' := unit_pow (1 - B2R t) (n - i)%nat Ar).
  assert (N := power_near u (1 - B2R t) (B2R s) (n - i)%nat ltac:(lra) ltac:(lra) Rs ltac:(lia)).
  set (P := B2R t ^ i) in *. set (Q := (1 - B2R t) ^ (n - i)) in *. set (z := B2R s ^ (n - i)) in *.
  assert (Eq' : Rabs (B2R q - Q) <= 50 * u * Q + 2 * eta).
  { replace (B2R q - Q) with (B2R q - z + (z - Q)) by ring. apply Rle_trans with (1 := Rabs_triang _ _).
    assert (N' := proj2 (Rabs_le_inv _ _ N)). assert (u * Q <= / 1000 * Q) by (apply Rmult_le_compat_r; lra). assert (4 * u * z <= 4 * u * (Q + 40 * (/ 1000 * Q))) by (apply Rmult_le_compat_l; lra). assert (0 <= u * Q) by (apply Rmult_le_pos; lra). lra. }
  assert (Bp : Rabs (B2R p) <= 2).
  { replace (B2R p) with (B2R p - P + P) by ring. apply Rle_trans with (1 := Rabs_triang _ _). rewrite (Rabs_pos_eq P) by lra. assert (4 * u * P <= 4 * (/ 1000) * 1) by (apply Rmult_le_compat; lra). lra. }
  assert (Bq : Rabs (B2R q) <= 2).
  { replace (B2R q) with (B2R q - Q + Q) by ring. apply Rle_trans with (1 := Rabs_triang _ _). rewrite (Rabs_pos_eq Q) by lra. assert (50 * u * Q <= 50 * (/ 1000) * 1) by (apply Rmult_le_compat; lra). lra. }
  assert (B21 : Rabs (B2R c * B2R p) <= bpow radix2 21).
  { rewrite Rabs_mult, (Rabs_pos_eq (B2R c)) by lra. replace (bpow radix2 21) with (1048576 * 2) by (change (bpow radix2 21) with 2097152; lra). rewrite B20 in C2. apply Rmult_le_compat; try lra. apply Rabs_pos. }
  destruct (mul_fin c p 21 Fc Fp ltac:(lia) B21) as [Fa Va]. assert (Ba := rnd_bound _ 21 ltac:(lia) B21). rewrite <- Va in Ba. set (a := b64_mul c p) in *.
  assert (B22 : Rabs (B2R a * B2R q) <= bpow radix2 22).
  { rewrite Rabs_mult. replace (bpow radix2 22) with (bpow radix2 21 * 2) by (change (bpow radix2 21) with 2097152; change (bpow radix2 22) with 4194304; lra). apply Rmult_le_compat; auto using Rabs_pos. }
  destruct (mul_fin a q 22 Fa Fq ltac:(lia) B22) as [Fw Vw]. set (w := b64_mul a q) in *. split; [exact Fw|]. split; [|split].
  - assert (Xa := rnd_abs (B2R c * B2R p)). rewrite <- Va in Xa. assert (Xw := rnd_abs (B2R a * B2R q)). rewrite <- Vw in Xw.
    eapply Rle_trans; [apply (weight_arith u eta (B2R c) (B2R p) P (B2R q) Q (B2R a) (B2R w)); lra|].
    change (bpow radix2 25) with 33554432. rewrite B20 in C2. assert (B2R c * eta <= 1048576 * eta) by (apply Rmult_le_compat_r; lra). lra.
  - intros Z. destruct (Nat.eqb_spec i 0) as [->|N0].
    + assert (c = b64_1) as Ec by (unfold c; now rewrite choose_0). rewrite Vw, Va, (P1 (or_introl eq_refl)), (Q1 (or_intror (S0 Z))). rewrite Ec. destruct one_value as [O _]. rewrite O, !Rmult_1_r.
      rewrite <- O. rewrite !format_b64. reflexivity.
    + rewrite Vw, Va, (P0 N0 Z), Rmult_0_r, rnd_0, Rmult_0_l. exact rnd_0.
  - intros Z. destruct (Nat.eqb_spec i n) as [->|N0].
    + assert (c = b64_1) as Ec by (unfold c; now rewrite choose_n). rewrite Vw, Va, (P1 (or_intror Z)), (Q1 (or_introl (Nat.sub_diag n))). rewrite Ec. destruct one_value as [O _]. rewrite O, !Rmult_1_r.
      rewrite <- O. rewrite !format_b64. reflexivity.
    + rewrite Vw, (Q0 ltac:(lia) (S1 Z)), Rmult_0_r. exact rnd_0.
Qed.

(** One component of the curve *)
Variables (c : fvec -> b64) (e : vec3 -> R).
Hypothesis ce : same_component c e.
Lemma comp_step a p b : c (fplus a (fweigh p b)) = b64_add (c a) (b64_mul (c p) b).
Proof. destruct ce as [[-> _]|[[-> _]|[-> _]]]; reflexivity. Qed.
Lemma comp_sum b p v : e (vadd (vscale b (exact_vec p)) v) = b * B2R (c p) + e v.
Proof. destruct ce as [[-> ->]|[[-> ->]|[-> ->]]]; reflexivity. Qed.
Lemma comp_zero : e vzero = 0 /\ B2R (c (FV b64_0 b64_0 b64_0)) = 0 /\ is_finite (c (FV b64_0 b64_0 b64_0)) = true.
Proof. destruct ce as [[-> ->]|[[-> ->]|[-> ->]]]; repeat split. Qed.
Lemma comp_tame ps p : tame_points ps -> In p ps -> tame (c p).
Proof. intros H I. destruct (H p I) as (A & B0 & C). destruct ce as [[-> _]|[[-> _]|[-> _]]]; assumption. Qed.

Section At.
Variables (t : b64) (n : nat).
Hypotheses (Ft : is_finite t = true) (Rt : 0 <= B2R t <= 1) (Hn : (1 <= n <= 20)%nat).

Lemma total_ge x m : 0 <= x <= 1 -> forall k i, 0 <= total (B x m) i k.
Proof. intros X. induction k; intros i; cbn [total]; [lra|]. assert (Y := B_ge x m X i). assert (Z := IHk (S i)). lra. Qed.
Lemma loop M ps : 0 <= M <= bpow radix2 499 -> forall i acc S W, (i + length ps <= Datatypes.S n)%nat -> (forall p, In p ps -> is_finite (c p) = true /\ Rabs (B2R (c p)) <= M) ->
  is_finite (c acc) = true -> 0 <= W -> W + total (B (B2R t) n) i (length ps) <= 1 -> Rabs S <= M * W ->
  Rabs (B2R (c acc) - S) <= M * (72 * u * W + 4 * u * INR i) + 3 * INR i * eta ->
  exists q, fcurve_from fpow t n i ps acc = Some q /\ is_finite (c q) = true /\
    Rabs (B2R (c q) - (S + e (wsum (B (B2R t) n) i (map exact_vec ps)))) <= M * (72 * u * 1 + 4 * u * 21) + 3 * 21 * eta.
Proof.
  intros HM. assert (Us := u_small). assert (Hs := eta_small).
  induction ps as [|p ps IH]; intros i acc S W L P Fa W0 WT SM EA; cbn [fcurve_from wsum map length total] in *.
  - exists acc. split; [reflexivity|]. split; [exact Fa|]. destruct comp_zero as [-> _]. rewrite Rplus_0_r. apply Rle_trans with (1 := EA).
    assert (I : 0 <= INR i <= 21) by (split; [apply pos_INR|replace 21 with (INR 21) by (cbn; ring); apply le_INR; lia]).
    assert (72 * u * W + 4 * u * INR i <= 72 * u * 1 + 4 * u * 21) by (apply Rplus_le_compat; apply Rmult_le_compat_l; lra).
    assert (M * (72 * u * W + 4 * u * INR i) <= M * (72 * u * 1 + 4 * u * 21)) by (apply Rmult_le_compat_l; lra). assert (INR i * eta <= 21 * eta) by (apply Rmult_le_compat_r; lra). lra.
  - destruct (weight t i n Ft Rt ltac:(lia) Hn) as (w & -> & Fw & Ew & _). destruct (P p (or_introl eq_refl)) as [Fp Bp].
    assert (B0 := B_ge (B2R t) n Rt i). set (b := B (B2R t) n i) in *.
    assert (T0 : 0 <= total (B (B2R t) n) (Datatypes.S i) (length ps)).
    { apply total_ge. exact Rt. }
    assert (H25 : 0 <= bpow radix2 25 * eta <= u) by (split; [apply Rmult_le_pos; apply bpow_ge_0|rewrite <- bpow_plus; apply bpow_le; lia]).
    set (h' := bpow radix2 25 * eta) in *.
    assert (I : 0 <= INR i <= 20) by (split; [apply pos_INR|replace 20 with (INR 20) by (cbn; ring); apply le_INR; lia]).
    assert (Bw : Rabs (B2R w) <= 2).
    { replace (B2R w) with (B2R w - b + b) by ring. apply Rle_trans with (1 := Rabs_triang _ _). rewrite (Rabs_pos_eq b) by lra. assert (66 * u * b <= 66 * (/ 1000) * 1) by (apply Rmult_le_compat; lra). lra. }
    assert (Q500 : bpow radix2 500 = 2 * bpow radix2 499) by exact (double_pow 499). assert (Q501 : bpow radix2 501 = 2 * bpow radix2 500) by exact (double_pow 500).
    assert (Q502 : bpow radix2 502 = 2 * bpow radix2 501) by exact (double_pow 501).
    assert (Bx : Rabs (B2R (c p) * B2R w) <= bpow radix2 500).
    { rewrite Rabs_mult, Q500, Rmult_comm. apply Rmult_le_compat; try apply Rabs_pos; lra. }
    destruct (mul_fin (c p) w 500 Fp Fw ltac:(lia) Bx) as [Fm Vm]. assert (Bm := rnd_bound _ 500 ltac:(lia) Bx). rewrite <- Vm in Bm. assert (Em := rnd_abs (B2R (c p) * B2R w)). rewrite <- Vm in Em.
    set (m := b64_mul (c p) w) in *.
    assert (Ba : Rabs (B2R (c acc)) <= bpow radix2 501).
    { assert (G : Rabs (B2R (c acc) - S) <= M * / 2 + / 2).
      { apply Rle_trans with (1 := EA). assert (72 * u * W <= 72 * (/ 1000) * 1) by (apply Rmult_le_compat; lra). assert (4 * u * INR i <= 4 * (/ 1000) * 20) by (apply Rmult_le_compat; lra).
        assert (M * (72 * u * W + 4 * u * INR i) <= M * / 2) by (apply Rmult_le_compat_l; lra). assert (INR i * eta <= 20 * / 1000) by (apply Rmult_le_compat; lra). lra. }
      replace (B2R (c acc)) with (B2R (c acc) - S + S) by ring. apply Rle_trans with (1 := Rabs_triang _ _). assert (M * W <= M * 1) by (apply Rmult_le_compat_l; lra).
      assert (1 <= bpow radix2 499) by (change 1 with (bpow radix2 0); apply bpow_le; lia). lra. }
    assert (Bs : Rabs (B2R (c acc) + B2R m) <= bpow radix2 502) by (apply Rle_trans with (1 := Rabs_triang _ _); lra).
    destruct (add_fin (c acc) m 502 Fa Fm ltac:(lia) Bs) as [Fs Vs]. assert (Es := rnd_abs (B2R (c acc) + B2R m)). rewrite <- Vs in Es.
    destruct (loop_arith u eta h' M S W (INR i) (B2R (c p)) b (B2R w) (B2R m) (B2R (c acc)) (B2R (b64_add (c acc) m))) as [X Y]; try assumption; try lra.
    destruct (IH (Datatypes.S i) (fplus acc (fweigh p w)) (S + b * B2R (c p)) (W + b)) as (q & Eq & Fq & Xq); try lra; try lia.
    + intros p' I'. apply P. now right.
    + rewrite comp_step. exact Fs.
    + rewrite comp_step, S_INR. exact X.
    + exists q. split; [exact Eq|]. split; [exact Fq|]. rewrite comp_sum. fold b. rewrite <- Rplus_assoc. exact Xq.
Qed.

(** At the ends all weights but one are zero. *)
Lemma one_weight (k : nat) ps : (k <= n)%nat -> (forall i w, (i <= n)%nat -> fbernstein fpow t i n = Some w -> B2R w = if (i =? k)%nat then 1 else 0) -> tame_points ps ->
  forall i acc, (i + length ps = S n)%nat -> tame (c acc) -> ((i <= k)%nat -> B2R (c acc) = 0) ->
  exists q, fcurve_from fpow t n i ps acc = Some q /\ is_finite (c q) = true /\ (if (i <=? k)%nat then exists p, nth_error ps (k - i) = Some p /\ B2R (c q) = B2R (c p) else B2R (c q) = B2R (c acc)).
Proof.
  intros K H. induction ps as [|p ps IH]; intros P i acc L Ta Z; cbn [fcurve_from length] in *.
  - exists acc. split; [reflexivity|]. split; [apply Ta|]. destruct (Nat.leb_spec i k) as [C|C]; [lia|reflexivity].
  - destruct (weight t i n Ft Rt ltac:(lia) Hn) as (w & E & Fw & _). assert (V := H i w ltac:(lia) E). rewrite E.
    assert (Tp : tame (c p)) by (apply (comp_tame _ p P); now left). assert (P' : tame_points ps) by (intros x X; apply P; now right).
    assert (M : is_finite (b64_mul (c p) w) = true /\ B2R (b64_mul (c p) w) = if (i =? k)%nat then B2R (c p) else 0).
    { destruct Tp as [Fp Bp]. destruct (mul_fin (c p) w 499 Fp Fw ltac:(lia)) as [Q ->].
      - rewrite V, Rabs_mult. assert (A := Rabs_pos (B2R (c p))). destruct (i =? k)%nat; [rewrite Rabs_R1|rewrite Rabs_R0]; lra.
      - split; [exact Q|]. rewrite V. destruct (i =? k)%nat; [rewrite Rmult_1_r; apply format_b64|rewrite Rmult_0_r; exact rnd_0]. }
    destruct M as [Fm Vm]. set (m := b64_mul (c p) w) in *.
    assert (A : tame (b64_add (c acc) m) /\ B2R (b64_add (c acc) m) = if (i =? k)%nat then B2R (c p) else B2R (c acc)).
    { destruct (Nat.eqb_spec i k) as [C|C]; apply plus_0; try assumption; [right|left]; [|now split]. split; [apply Z; lia|]. split; [exact Vm|apply Tp]. }
    destruct A as [Ta' Va]. unfold m in Ta', Va. rewrite <- (comp_step acc p w) in Ta', Va.
    destruct (IH P' (S i) (fplus acc (fweigh p w)) ltac:(lia) Ta') as (q & Eq & Fq & R').
    + intros C. rewrite Va. destruct (Nat.eqb_spec i k) as [D|D]; [lia|]. apply Z. lia.
    + exists q. split; [exact Eq|]. split; [exact Fq|]. rewrite Va in R'.
      destruct (Nat.eqb_spec i k) as [D|D].
      * subst i. rewrite (proj2 (Nat.leb_gt (S k) k)) in R' by lia. rewrite Nat.leb_refl, Nat.sub_diag. exists p. split; [reflexivity|exact R'].
      * destruct (Nat.leb_spec i k) as [C|C].
        -- rewrite (proj2 (Nat.leb_le (S i) k)) in R' by lia. destruct R' as (x & X & Y). exists x. split; [|exact Y]. replace (k - i)%nat with (S (k - S i)) by lia. exact X.
        -- rewrite (proj2 (Nat.leb_gt (S i) k)) in R' by lia. exact R'.
Qed.
End At.
End Pow.
