(** The coordinates of the points that divide a circle. *)
From Coq Require Import ZArith Reals List Bool Arith Lia Lra.
From Verif Require Import Model.Vec Model.MeshGen Spec.ExtentSpec.
Local Open Scope R_scope.

Definition turn (k n : nat) : R := 2 * PI * INR k / INR n.

Lemma sin_shift a : sin a = cos (a - PI / 2).
Proof. rewrite cos_minus, cos_PI2, sin_PI2. ring. Qed.
Lemma cos_abs a : cos (Rabs a) = cos a.
Proof. unfold Rabs. destruct (Rcase_abs a); [apply cos_neg|reflexivity]. Qed.

(** cosine of an angle between b and 2 PI - b *)
Lemma cos_far a b : 0 <= b <= PI / 2 -> b <= Rabs a <= 3 * PI / 2 -> cos a <= cos b.
Proof.
  intros [B0 B1] [A0 A1]. pose proof PI_RGT_0. rewrite <- (cos_abs a). destruct (Rle_or_lt (Rabs a) PI) as [L|L].
  - destruct (Rle_lt_or_eq_dec _ _ A0) as [E|E]; [|rewrite E; apply Rle_refl]. left. apply cos_decreasing_1; lra.
  - apply Rle_trans with 0; [|apply cos_ge_0; lra]. replace (Rabs a) with (- (PI - Rabs a) + PI) by ring. rewrite neg_cos.
    enough (0 <= cos (- (PI - Rabs a))) by lra. apply cos_ge_0; lra.
Qed.

Section N.
Variable n : nat.
Hypothesis Hn : (0 < n)%nat.
Let N0 : 0 < INR n. Proof. apply lt_0_INR, Hn. Qed.

Lemma turn_quarter k : sin (turn k n) = cos (PI * IZR (4 * Z.of_nat k - Z.of_nat n) / (2 * INR n)).
Proof. rewrite sin_shift. f_equal. unfold turn. rewrite minus_IZR, mult_IZR, <- !INR_IZR_INZ. field. lra. Qed.
Lemma turn_half k : cos (turn k n) = - cos (PI * IZR (2 * Z.of_nat k - Z.of_nat n) / INR n).
Proof.
  replace (turn k n) with (PI * IZR (2 * Z.of_nat k - Z.of_nat n) / INR n + PI); [apply neg_cos|].
  unfold turn. rewrite minus_IZR, mult_IZR, <- !INR_IZR_INZ. field. lra.
Qed.

(** The distance of n from the multiples of 4 *)
Definition rest4 : Z := match (n mod 4)%nat with O => 0 | 2%nat => 2 | _ => 1 end%Z.
Lemma across_rest : across n = cos (PI * IZR rest4 / (2 * INR n)).
Proof.
  unfold across, rest4. assert (H : (n mod 4 < 4)%nat) by (apply Nat.mod_upper_bound; lia).
  destruct (n mod 4)%nat as [|[|[|[|]]]]; [|f_equal; field; lra..|lia].
  replace (PI * 0 / (2 * INR n)) with 0 by (field; lra). symmetry. apply cos_0.
Qed.
Lemma rest4_le k : (rest4 <= Z.abs (4 * Z.of_nat k - Z.of_nat n))%Z.
Proof.
  unfold rest4. pose proof (Nat.div_mod n 4 ltac:(lia)) as D. assert (H : (n mod 4 < 4)%nat) by (apply Nat.mod_upper_bound; lia).
  destruct (n mod 4)%nat as [|[|[|[|]]]]; lia.
Qed.
Lemma rest4_hit : Z.abs (4 * Z.of_nat ((n + 1) / 4) - Z.of_nat n) = rest4.
Proof.
  unfold rest4. pose proof (Nat.div_mod n 4 ltac:(lia)) as D. assert (H : (n mod 4 < 4)%nat) by (apply Nat.mod_upper_bound; lia).
  pose proof (Nat.div_mod (n + 1) 4 ltac:(lia)) as D'. assert (H' : ((n + 1) mod 4 < 4)%nat) by (apply Nat.mod_upper_bound; lia).
  destruct (n mod 4)%nat as [|[|[|[|]]]]; lia.
Qed.
Lemma rest4_small : (0 <= rest4 <= Z.of_nat n)%Z.
Proof.
  unfold rest4. pose proof (Nat.div_mod n 4 ltac:(lia)) as D. assert (H : (n mod 4 < 4)%nat) by (apply Nat.mod_upper_bound; lia).
  destruct (n mod 4)%nat as [|[|[|[|]]]]; lia.
Qed.
Lemma scaled (c m : R) : 0 < c -> 0 <= m <= c -> 0 <= PI * m / (2 * c) <= PI / 2.
Proof.
  intros C M. pose proof PI_RGT_0. split.
  - apply Rmult_le_pos; [nra|left; apply Rinv_0_lt_compat; lra].
  - apply Rmult_le_reg_r with (2 * c); [lra|]. unfold Rdiv. rewrite Rmult_assoc, Rinv_l by lra. nra.
Qed.
Lemma rest4_angle : 0 <= PI * IZR rest4 / (2 * INR n) <= PI / 2.
Proof. apply scaled; [exact N0|]. rewrite INR_IZR_INZ. destruct rest4_small. split; apply IZR_le; lia. Qed.

Lemma across_pos : 0 <= across n <= 1.
Proof. rewrite across_rest. pose proof rest4_angle. pose proof PI_RGT_0. split; [apply cos_ge_0; lra|apply COS_bound]. Qed.

Lemma across_ub k : (k <= n)%nat -> sin (turn k n) <= across n.
Proof.
  intros Hk. rewrite turn_quarter, across_rest. apply cos_far; [apply rest4_angle|]. pose proof PI_RGT_0.
  unfold Rdiv. rewrite !Rabs_mult. rewrite (Rabs_right PI) by lra. rewrite (Rabs_right (/ (2 * INR n))) by (apply Rle_ge; left; apply Rinv_0_lt_compat; lra).
  rewrite <- abs_IZR. pose proof (Rinv_0_lt_compat (2 * INR n) ltac:(lra)) as I. split.
  - apply Rmult_le_compat_r; [lra|]. apply Rmult_le_compat_l; [lra|]. apply IZR_le, rest4_le.
  - assert (A : IZR (Z.abs (4 * Z.of_nat k - Z.of_nat n)) <= 3 * INR n) by (rewrite INR_IZR_INZ, <- mult_IZR; apply IZR_le; lia).
    apply (Rle_trans _ (PI * (3 * INR n) * / (2 * INR n))); [apply Rmult_le_compat_r; [lra|]; apply Rmult_le_compat_l; lra|]. right. field. lra.
Qed.
Lemma turn_back k : (k <= n)%nat -> turn (n - k) n = - turn k n + 2 * PI.
Proof. intros. unfold turn. rewrite minus_INR by assumption. field. lra. Qed.
Lemma sin_back k : (k <= n)%nat -> sin (turn (n - k) n) = - sin (turn k n).
Proof. intros. rewrite turn_back by assumption. rewrite <- sin_neg. replace (2 * PI) with (2 * INR 1 * PI) by (cbn; ring). apply sin_period. Qed.
Lemma across_lb k : (k <= n)%nat -> - across n <= sin (turn k n).
Proof. intros. pose proof (across_ub (n - k) ltac:(lia)) as A. rewrite sin_back in A by assumption. lra. Qed.
Lemma across_hit : sin (turn ((n + 1) / 4) n) = across n.
Proof.
  rewrite turn_quarter, across_rest. rewrite <- cos_abs. f_equal. pose proof PI_RGT_0.
  unfold Rdiv. rewrite !Rabs_mult. rewrite (Rabs_right PI) by lra. rewrite (Rabs_right (/ (2 * INR n))) by (apply Rle_ge; left; apply Rinv_0_lt_compat; lra).
  rewrite <- abs_IZR, rest4_hit. reflexivity.
Qed.
Lemma quarter_le : ((n + 1) / 4 <= n)%nat.
Proof. apply Nat.div_le_upper_bound; lia. Qed.
Lemma across_hit_low : sin (turn (n - (n + 1) / 4) n) = - across n.
Proof. rewrite sin_back by apply quarter_le. now rewrite across_hit. Qed.

(** Backwards *)
Definition rest2 : Z := if Nat.even n then 0 else 1.
Lemma backwards_rest : backwards n = cos (PI * IZR rest2 / INR n).
Proof.
  unfold backwards, rest2. destruct (Nat.even n); [|f_equal; field; lra]. replace (PI * 0 / INR n) with 0 by (field; lra). symmetry. apply cos_0.
Qed.
Lemma even_cases : (Nat.even n = true /\ n = 2 * (n / 2))%nat \/ (Nat.even n = false /\ n = 2 * (n / 2) + 1)%nat.
Proof.
  destruct (Nat.even n) eqn:E; [left|right]; split; try reflexivity.
  - apply Nat.even_spec in E. destruct E as [m ->]. rewrite Nat.mul_comm, Nat.div_mul; lia.
  - assert (O : Nat.odd n = true) by (unfold Nat.odd; now rewrite E). apply Nat.odd_spec in O. destruct O as [m ->].
    replace (2 * m + 1)%nat with (1 + m * 2)%nat by lia. rewrite Nat.div_add by lia. cbn. lia.
Qed.
Lemma backwards_pos : (2 <= n)%nat -> 0 <= backwards n <= 1.
Proof.
  intros H2. rewrite backwards_rest. pose proof PI_RGT_0. split; [|apply COS_bound]. assert (A : 0 <= PI * IZR rest2 / INR n <= PI / 2).
  { replace (PI * IZR rest2 / INR n) with (PI * (2 * IZR rest2) / (2 * INR n)) by (field; lra). apply scaled; [exact N0|].
    assert (2 <= INR n) by (apply (le_INR 2), H2). unfold rest2. destruct (Nat.even n); lra. }
  apply cos_ge_0; lra.
Qed.
Lemma backwards_lb k : (2 <= n)%nat -> (k <= n)%nat -> - backwards n <= cos (turn k n).
Proof.
  intros H2 Hk. rewrite turn_half, backwards_rest. apply Ropp_le_contravar. pose proof PI_RGT_0.
  assert (2 <= INR n) by (apply (le_INR 2), H2). apply cos_far.
  - replace (PI * IZR rest2 / INR n) with (PI * (2 * IZR rest2) / (2 * INR n)) by (field; lra). apply scaled; [exact N0|]. unfold rest2. destruct (Nat.even n); lra.
  - unfold Rdiv. rewrite !Rabs_mult. rewrite (Rabs_right PI) by lra. rewrite (Rabs_right (/ INR n)) by (apply Rle_ge; left; apply Rinv_0_lt_compat; lra).
    rewrite <- abs_IZR. pose proof (Rinv_0_lt_compat (INR n) ltac:(lra)) as I. split.
    + apply Rmult_le_compat_r; [lra|]. apply Rmult_le_compat_l; [lra|]. apply IZR_le. unfold rest2. destruct even_cases as [[-> E]|[-> E]]; lia.
    + assert (A : IZR (Z.abs (2 * Z.of_nat k - Z.of_nat n)) <= INR n) by (rewrite INR_IZR_INZ; apply IZR_le; lia).
      apply (Rle_trans _ (PI * INR n * / INR n)); [apply Rmult_le_compat_r; [lra|]; apply Rmult_le_compat_l; lra|].
      rewrite Rmult_assoc, Rinv_r by lra. lra.
Qed.
Lemma backwards_hit : cos (turn (n / 2) n) = - backwards n.
Proof.
  rewrite turn_half, backwards_rest. f_equal. rewrite <- cos_abs. f_equal. pose proof PI_RGT_0.
  unfold Rdiv. rewrite !Rabs_mult. rewrite (Rabs_right PI) by lra. rewrite (Rabs_right (/ INR n)) by (apply Rle_ge; left; apply Rinv_0_lt_compat; lra).
  rewrite <- abs_IZR. replace (Z.abs (2 * Z.of_nat (n / 2) - Z.of_nat n)) with rest2; [reflexivity|]. unfold rest2. destruct even_cases as [[-> E]|[-> E]]; lia.
Qed.
Lemma half_le : (n / 2 <= n)%nat. Proof. apply Nat.div_le_upper_bound; lia. Qed.
Lemma cos_0_hit : cos (turn 0 n) = 1.
Proof. unfold turn. replace (2 * PI * INR 0 / INR n) with 0 by (cbn; field; lra). apply cos_0. Qed.

(** How close the bounds are to those of the circle *)
Lemma cos_low a : 1 - a ^ 2 / 2 <= cos a.
Proof.
  assert (C : cos a = 1 - 2 * (sin (a / 2) * sin (a / 2))) by (replace a with (2 * (a / 2)) at 1 by field; rewrite cos_2a_sin; ring). rewrite C.
  assert (E : Rabs (sin (a / 2)) <= Rabs (a / 2)).
  { unfold Rabs at 2. destruct (Rcase_abs (a / 2)).
    - replace (sin (a / 2)) with (- sin (- (a / 2))) by (rewrite sin_neg; ring). rewrite Rabs_Ropp.
      apply Rabs_le. pose proof (SIN_bound (- (a / 2))). pose proof (sin_lt_x (- (a / 2)) ltac:(lra)) as X. split; [|lra].
      destruct (Rle_or_lt (- (a / 2)) PI) as [L|L]; [pose proof (sin_ge_0 (- (a / 2)) ltac:(lra) L); lra|]. pose proof PI2_1. lra.
    - destruct (Req_dec (a / 2) 0) as [E|E]; [rewrite E, sin_0, Rabs_R0; lra|].
      apply Rabs_le. pose proof (SIN_bound (a / 2)). pose proof (sin_lt_x (a / 2) ltac:(lra)) as X. split; [|lra].
      destruct (Rle_or_lt (a / 2) PI) as [L|L]; [pose proof (sin_ge_0 (a / 2) ltac:(lra) L); lra|]. pose proof PI2_1. lra. }
  apply Rsqr_le_abs_1 in E. unfold Rsqr in E. nra.
Qed.
End N.

Lemma across_close n : (3 <= n)%nat -> 1 - PI ^ 2 / (2 * INR n ^ 2) <= across n.
Proof.
  intros H. assert (N : 3 <= INR n) by (apply (le_INR 3) in H; cbn in H; lra). rewrite (across_rest n ltac:(lia)).
  eapply Rle_trans; [|apply cos_low]. assert (Q : 0 <= IZR (rest4 n) <= 2).
  { unfold rest4. destruct (n mod 4)%nat as [|[|[|]]]; lra. }
  replace ((PI * IZR (rest4 n) / (2 * INR n)) ^ 2 / 2) with (PI ^ 2 / (2 * INR n ^ 2) * (IZR (rest4 n) ^ 2 / 4)) by (field; lra).
  assert (0 <= PI ^ 2 / (2 * INR n ^ 2)) by (apply Rmult_le_pos; [apply pow2_ge_0|left; apply Rinv_0_lt_compat; nra]).
  assert (IZR (rest4 n) ^ 2 / 4 <= 1) by nra. pose proof (Rmult_le_compat_l _ _ _ H0 H1). lra.
Qed.
Lemma backwards_close n : (3 <= n)%nat -> 1 - PI ^ 2 / (2 * INR n ^ 2) <= backwards n.
Proof.
  intros H. assert (N : 3 <= INR n) by (apply (le_INR 3) in H; cbn in H; lra). rewrite (backwards_rest n ltac:(lia)).
  eapply Rle_trans; [|apply cos_low]. assert (Q : 0 <= IZR (rest2 n) <= 1) by (unfold rest2; destruct (Nat.even n); lra).
  replace ((PI * IZR (rest2 n) / INR n) ^ 2 / 2) with (PI ^ 2 / (2 * INR n ^ 2) * (IZR (rest2 n) ^ 2)) by (field; lra).
  assert (0 <= PI ^ 2 / (2 * INR n ^ 2)) by (apply Rmult_le_pos; [apply pow2_ge_0|left; apply Rinv_0_lt_compat; nra]).
  assert (IZR (rest2 n) ^ 2 <= 1) by nra. pose proof (Rmult_le_compat_l _ _ _ H0 H1). lra.
Qed.
