(** Torus knots *)
From Coq Require Import ZArith Znumtheory Reals Arith Lia Lra.
From Verif Require Import Model.Scalar Model.Vec Model.Aabb Model.Interp Model.Bezier Model.Transforms Model.MeshGen Spec.KnotSpec Proofs.VecLemmas.
Local Open Scope R_scope.

Lemma same_angle x y : cos x = cos y -> sin x = sin y -> exists k, x - y = 2 * PI * IZR k.
Proof.
  intros C S. assert (E : cos (x - y) = 1) by (rewrite cos_minus, C, S; pose proof (sin2_cos2 y) as Q; unfold Rsqr in Q; lra).
  replace (x - y) with (2 * ((x - y) / 2)) in E by field. rewrite cos_2a_sin in E. assert (Z : sin ((x - y) / 2) = 0) by nra.
  destruct (sin_eq_0_0 _ Z) as [k K]. exists k. lra.
Qed.
Lemma knot_point d t : vx (kn_ring d) <> 0 -> vy (kn_ring d) <> 0 -> vz (kn_ring d) <> 0 -> let p := knot_curve d t in let r := kn_ring d in
  let a := 2 * PI * INR (kn_loops d) * t in let b := 2 * PI * INR (kn_turns d) * t in
  vx p / vx r = (kn_inner d + cos b) * cos a /\ vz p / vz r = (kn_inner d + cos b) * sin a /\ vy p / vy r = sin b.
Proof.
  intros X Y Z. cbn zeta. unfold knot_curve, pi_2, vmul. cbn zeta. cbn [vx vy vz].
  replace (INR (kn_loops d) * (t * (PI * 2))) with (2 * PI * INR (kn_loops d) * t) by ring. replace (INR (kn_turns d) * (t * (PI * 2))) with (2 * PI * INR (kn_turns d) * t) by ring.
  repeat split; field; assumption.
Qed.
Lemma away_value k c a : 0 <= k + c -> sqrt (((k + c) * cos a) ^ 2 + ((k + c) * sin a) ^ 2) = k + c.
Proof.
  intros H. replace (((k + c) * cos a) ^ 2 + ((k + c) * sin a) ^ 2) with (Rsqr (k + c)); [now apply sqrt_Rsqr|]. pose proof (sin2_cos2 a) as Q. unfold Rsqr in *.
  replace (((k + c) * cos a) ^ 2 + ((k + c) * sin a) ^ 2) with ((k + c) * (k + c) * (sin a * sin a + cos a * cos a)) by ring. rewrite Q. ring.
Qed.
Theorem knot_winds d : vx (kn_ring d) <> 0 -> vy (kn_ring d) <> 0 -> vz (kn_ring d) <> 0 -> 1 <= kn_inner d ->
  winds (kn_inner d) (kn_ring d) (knot_curve d) (INR (kn_loops d)) (INR (kn_turns d)).
Proof.
  intros X Y Z I t. unfold seen_at. cbn zeta. destruct (knot_point d t X Y Z) as (PX & PZ & PY). cbn zeta in *. rewrite PX, PZ, PY. rewrite away_value by (pose proof (COS_bound (2 * PI * INR (kn_turns d) * t)); lra). repeat split; ring.
Qed.
Lemma seen_on_torus inner r a b p : seen_at inner r a b p -> on_knot_torus inner r p.
Proof. unfold seen_at, on_knot_torus. cbn zeta. intros (_ & _ & -> & ->). pose proof (sin2_cos2 b) as Q. unfold Rsqr in Q. lra. Qed.
Theorem knot_on_torus d t : vx (kn_ring d) <> 0 -> vy (kn_ring d) <> 0 -> vz (kn_ring d) <> 0 -> 1 <= kn_inner d -> on_knot_torus (kn_inner d) (kn_ring d) (knot_curve d t).
Proof. intros X Y Z I. exact (seen_on_torus _ _ _ _ _ (knot_winds d X Y Z I t)). Qed.

Lemma knot_same d s t : vx (kn_ring d) <> 0 -> vy (kn_ring d) <> 0 -> vz (kn_ring d) <> 0 -> 1 < kn_inner d -> knot_curve d s = knot_curve d t ->
  exists k l, INR (kn_loops d) * (s - t) = IZR k /\ INR (kn_turns d) * (s - t) = IZR l.
Proof.
  intros X Y Z I E. assert (I' : 1 <= kn_inner d) by lra. pose proof (knot_winds d X Y Z I' s) as S. pose proof (knot_winds d X Y Z I' t) as T. unfold seen_at in *. cbn zeta in *. rewrite E in S.
  set (w := sqrt _) in *. destruct S as (S1 & S2 & S3 & S4). destruct T as (T1 & T2 & T3 & T4).
  assert (0 < w) as W by (pose proof (COS_bound (2 * PI * INR (kn_turns d) * t)); lra). pose proof PI_RGT_0.
  destruct (same_angle (2 * PI * INR (kn_loops d) * s) (2 * PI * INR (kn_loops d) * t)) as [k K]; [apply (Rmult_eq_reg_l w); lra|apply (Rmult_eq_reg_l w); lra|].
  destruct (same_angle (2 * PI * INR (kn_turns d) * s) (2 * PI * INR (kn_turns d) * t)) as [l L]; [lra|lra|].
  exists k, l. split; apply (Rmult_eq_reg_l (2 * PI)); lra.
Qed.
Lemma knot_shift d s t k l : INR (kn_loops d) * (s - t) = IZR k -> INR (kn_turns d) * (s - t) = IZR l -> knot_curve d s = knot_curve d t.
Proof.
  intros K L. unfold knot_curve. cbn zeta. unfold pi_2.
  assert (F : forall x y n, x - y = 2 * PI * IZR n -> cos x = cos y /\ sin x = sin y).
  { intros x y n E. replace x with (y + 2 * IZR n * PI) by lra. destruct (Z_le_gt_dec 0 n) as [P|P].
    - rewrite <- (Z2Nat.id n P), <- INR_IZR_INZ. split; [apply cos_period|apply sin_period].
    - split; [rewrite <- (cos_period _ (Z.to_nat (- n)))|rewrite <- (sin_period _ (Z.to_nat (- n)))]; rewrite INR_IZR_INZ, Z2Nat.id by lia; rewrite opp_IZR; f_equal; ring. }
  destruct (F (INR (kn_loops d) * (s * (PI * 2))) (INR (kn_loops d) * (t * (PI * 2))) k) as [-> ->]; [rewrite <- K; ring|].
  destruct (F (INR (kn_turns d) * (s * (PI * 2))) (INR (kn_turns d) * (t * (PI * 2))) l) as [-> ->]; [rewrite <- L; ring|]. reflexivity.
Qed.
(** A knot does not meet itself iff the numbers of its loops and turns have no common divisor. *)
Theorem knot_simple_iff d : vx (kn_ring d) <> 0 -> vy (kn_ring d) <> 0 -> vz (kn_ring d) <> 0 -> 1 < kn_inner d ->
  (simple_curve (knot_curve d) <-> Nat.gcd (kn_loops d) (kn_turns d) = 1%nat).
Proof.
  intros X Y Z I. set (p := kn_loops d). set (q := kn_turns d). split.
  - intros Hs. destruct (Nat.eq_dec (Nat.gcd p q) 1) as [|N]; [assumption|exfalso]. destruct (Nat.eq_dec (Nat.gcd p q) 0) as [G0|G0].
    + apply Nat.gcd_eq_0 in G0. destruct G0 as [P0 Q0]. assert (E : 0 = 1 / 2); [|lra]. apply Hs; [lra|lra|]. apply (knot_shift d 0 (1 / 2) 0 0); fold p q; rewrite ?P0, ?Q0; cbn [INR]; ring.
    + destruct (Nat.gcd_divide_l p q) as [x Hx]. destruct (Nat.gcd_divide_r p q) as [y Hy]. set (g := Nat.gcd p q) in *. assert (2 <= INR g) as G2 by (apply (le_INR 2); lia).
      assert (0 < / INR g <= / 2) as GI by (split; [apply Rinv_0_lt_compat; lra|apply Rinv_le_contravar; lra]).
      assert (E : / INR g = 0); [|lra]. apply Hs; [lra|lra|]. apply (knot_shift d (/ INR g) 0 (Z.of_nat x) (Z.of_nat y)); fold p q; rewrite <- INR_IZR_INZ, ?Hx, ?Hy at 1; rewrite mult_INR; field; lra.
  - intros G s t Hs Ht E. destruct (knot_same d s t X Y Z I E) as (k & l & K & L). fold p q in K, L.
    assert (exists u v, (u * Z.of_nat p + v * Z.of_nat q = 1)%Z) as (u & v & B).
    { destruct (Nat.gcd_bezout p q) as [(a & b & Q)|(a & b & Q)]; [exists (Z.of_nat a), (- Z.of_nat b)%Z|exists (- Z.of_nat b)%Z, (Z.of_nat a)]; rewrite G in Q; nia. }
    assert (D : s - t = IZR (u * k + v * l)).
    { rewrite plus_IZR, !mult_IZR, <- K, <- L, !INR_IZR_INZ. apply (f_equal IZR) in B. rewrite plus_IZR, !mult_IZR in B. replace (s - t) with ((s - t) * 1) at 1 by ring. rewrite <- B. ring. }
    assert (Z0 : (u * k + v * l = 0)%Z); [|rewrite Z0 in D; lra].
    assert (A : (-1 < u * k + v * l < 1)%Z); [|lia]. split; apply lt_IZR; rewrite <- D; cbn; lra.
Qed.
