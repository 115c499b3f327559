(** Rounding in the intersection of rays with spheres. *)
From Coq Require Import ZArith Reals List Bool Lia Lra Psatz.
From Flocq Require Import Core IEEE754.BinarySingleNaN.
From Flocq Require Import Relative.
From Verif Require Import Model.Scalar Model.Vec Model.BoxFloat Model.Plane Model.Tri Model.PlaneFloat Model.ClipFloat Model.FrustumFloat Model.TriFloat Model.SphereFloat
  Spec.FloatSpec Spec.FrustumFloatSpec Spec.TriFloatSpec Spec.SphereFloatSpec
  Proofs.VecLemmas Proofs.PlaneFloatLemmas Proofs.SplineFloat Proofs.BoxRayFloatLemmas Proofs.ClipFloatLemmas Proofs.FrustumFloatLemmas Proofs.TriFloatLemmas Proofs.MeshFloatLemmas.
Local Open Scope R_scope.

Lemma sqrt_fin (x : b64) : is_finite x = true -> 0 <= B2R x -> is_finite (b64_sqrt x) = true /\ B2R (b64_sqrt x) = rnd (sqrt (B2R x)).
Proof.
  intros F P. destruct (Bsqrt_correct 53 1024 b64_prec_gt_0 b64_prec_lt_emax mode_NE x) as (V & G & _). unfold b64_sqrt. split; [|exact V]. rewrite G.
  destruct x as [| | |s m e H]; try reflexivity; try discriminate. destruct s; [|reflexivity]. exfalso. cbn [B2R cond_Zopp] in P. pose proof (F2R_lt_0 radix2 (Float radix2 (Z.neg m) e) eq_refl). change (- Z.pos m)%Z with (Z.neg m) in P. lra.
Qed.

(** A scalar product of vectors with components that are right up to one rounding *)
Lemma dot_close p q P Q : close_vec p P -> close_vec q Q -> let S := Rabs (vx P * vx Q) + Rabs (vy P * vy Q) + Rabs (vz P * vz Q) in
  is_finite (fdot p q) = true /\ Rabs (B2R (fdot p q)) <= bpow radix2 407 /\ Rabs (B2R (fdot p q) - dot P Q) <= 5.1 * u * S + 4 * eta.
Proof.
  intros (P1 & P2 & P3) (Q1 & Q2 & Q3) S. destruct (product_close _ _ _ _ P1 Q1) as (F1 & B1 & E1). destruct (product_close _ _ _ _ P2 Q2) as (F2 & B2 & E2). destruct (product_close _ _ _ _ P3 Q3) as (F3 & B3 & E3).
  unfold fdot. set (a := b64_mul (fx p) (fx q)) in *. set (b := b64_mul (fy p) (fy q)) in *. set (c := b64_mul (fz p) (fz q)) in *.
  pose proof (bpow_gt_0 radix2 404) as D4. assert (D5 : bpow radix2 405 = 2 * bpow radix2 404) by exact (double_pow 404). assert (D6 : bpow radix2 406 = 2 * bpow radix2 405) by exact (double_pow 405). assert (D7 : bpow radix2 407 = 2 * bpow radix2 406) by exact (double_pow 406).
  assert (S1 : Rabs (B2R a + B2R b) <= bpow radix2 405) by (eapply Rle_trans; [apply Rabs_triang|]; lra). destruct (add_fin a b 405 F1 F2 ltac:(lia) S1) as [FD VD].
  assert (G : forall x : b64, generic_format radix2 f64 (B2R x)) by (intros x; apply generic_format_B2R). pose proof (sum_relative _ _ (G a) (G b)) as RD. rewrite <- VD in RD. assert (BD : Rabs (B2R (b64_add a b)) <= bpow radix2 405) by (rewrite VD; apply rnd_bound; [lia|exact S1]).
  set (d := b64_add a b) in *. assert (S2 : Rabs (B2R d + B2R c) <= bpow radix2 406) by (eapply Rle_trans; [apply Rabs_triang|]; lra). destruct (add_fin d c 406 FD F3 ltac:(lia) S2) as [FE VE].
  pose proof (sum_relative _ _ (G d) (G c)) as RE. rewrite <- VE in RE. split; [exact FE|]. split; [rewrite VE; apply Rle_trans with (bpow radix2 406); [apply rnd_bound; [lia|exact S2]|lra]|].
  unfold rel in RD, RE. set (e := B2R (b64_add d c)) in *. unfold dot. pose proof v_small as US. pose proof eta_small as ES. subst S. set (x := vx P * vx Q) in *. set (y := vy P * vy Q) in *. set (z := vz P * vz Q) in *. set (w := bpow radix2 (-53)) in *. set (h := bpow radix2 (-1075)) in *. clearbody x y z w h e. clear - US ES E1 E2 E3 RD RE.
  pose proof (Rabs_pos x) as X0. pose proof (Rabs_pos y) as Y0. pose proof (Rabs_pos z) as Z0. assert (AX : - Rabs x <= x <= Rabs x) by (apply Rabs_le_inv, Rle_refl). assert (AY : - Rabs y <= y <= Rabs y) by (apply Rabs_le_inv, Rle_refl). assert (AZ : - Rabs z <= z <= Rabs z) by (apply Rabs_le_inv, Rle_refl).
  assert (WX : 0 <= w * Rabs x <= / 1000000 * Rabs x) by (split; [apply Rmult_le_pos; lra|apply Rmult_le_compat_r; lra]). assert (WY : 0 <= w * Rabs y <= / 1000000 * Rabs y) by (split; [apply Rmult_le_pos; lra|apply Rmult_le_compat_r; lra]). assert (WZ : 0 <= w * Rabs z <= / 1000000 * Rabs z) by (split; [apply Rmult_le_pos; lra|apply Rmult_le_compat_r; lra]).
  apply Rabs_le_inv in E1. apply Rabs_le_inv in E2. apply Rabs_le_inv in E3.
  assert (WH : 0 <= w * h <= / 1000000 * h) by (split; [apply Rmult_le_pos; lra|apply Rmult_le_compat_r; lra]).
  assert (M1 : Rabs (B2R a + B2R b) <= 1.01 * (Rabs x + Rabs y) + 2 * h) by (apply Rabs_le; lra). assert (N1 : w * Rabs (B2R a + B2R b) <= w * (1.01 * (Rabs x + Rabs y) + 2 * h)) by (apply Rmult_le_compat_l; lra). apply Rabs_le_inv in RD.
  assert (M2 : Rabs (B2R d + B2R c) <= 1.02 * (Rabs x + Rabs y + Rabs z) + 4 * h) by (apply Rabs_le; lra). assert (N2 : w * Rabs (B2R d + B2R c) <= w * (1.02 * (Rabs x + Rabs y + Rabs z) + 4 * h)) by (apply Rmult_le_compat_l; lra). apply Rabs_le_inv in RE.
  apply Rabs_le. lra.
Qed.

(** The sum of products is at most the product of the lengths. *)
Lemma dot_sizes a b : Rabs (vx a * vx b) + Rabs (vy a * vy b) + Rabs (vz a * vz b) <= len a * len b.
Proof.
  pose proof (cauchy_abs (V3 (Rabs (vx a)) (Rabs (vy a)) (Rabs (vz a))) (V3 (Rabs (vx b)) (Rabs (vy b)) (Rabs (vz b)))) as K. assert (S : forall x, Rabs x * Rabs x = x * x) by (intros x; rewrite <- Rabs_mult; apply Rabs_pos_eq, Rle_0_sqr).
  unfold len, dot in K. cbn [vx vy vz] in K. rewrite !S in K. rewrite !Rabs_mult. eapply Rle_trans; [|exact K]. apply Rle_abs.
Qed.

Section Hit.
  Variables (s : fsphere) (o d : fvec).
  Hypotheses (MS : mild_sphere s) (MO : mild_vec o) (MD : mild_vec d) (UD : nearly_unit (exact_vec d)).
  Let D := vsub (exact_vec o) (exact_vec (fsorigin s)).
  Let r := B2R (fsradius s).
  Let q := len D.
  Let Q := dot D D.
  Let B := dot D (exact_vec d).
  Let w := u.
  Let k := bpow radix2 (-430).
  (** A length that exceeds all that underflows *)
  Let y := q + k.

  Lemma hit_small : 0 < w <= / 1000000 /\ 0 < k <= / 1000000 /\ 0 <= q /\ q * q = Q /\ 0 < y /\ eta <= / 1000000 * (w * y) /\ eta <= / 1000000 * (w * (y * y)) /\ w * (y * y) <= 1.01 * (w * Q) + 101 * (w * (k * k)) /\ Q <= y * y.
  Proof.
    pose proof v_small as US. assert (K0 : 0 < k) by apply bpow_gt_0. assert (K1 : k <= / 1000000) by (apply Rle_trans with (bpow radix2 (-20)); [apply bpow_le; lia|change (bpow radix2 (-20)) with (/ 1048576); lra]).
    assert (Q0 : 0 <= q) by apply len_ge. assert (QQ : q * q = Q) by apply len_sqr. unfold w in *. split; [exact US|]. split; [lra|]. split; [exact Q0|]. split; [exact QQ|]. assert (Y0 : k <= y) by (unfold y; lra). split; [lra|].
    assert (E : eta <= bpow radix2 (-20) * (u * (k * k))) by (unfold k; rewrite <- !bpow_plus; apply bpow_le; lia). assert (E2 : bpow radix2 (-20) <= / 1000000) by (change (bpow radix2 (-20)) with (/ 1048576); lra).
    assert (KK : 0 <= k * k) by (apply Rmult_le_pos; lra). assert (WK : 0 <= u * (k * k)) by (apply Rmult_le_pos; lra).
    assert (E3 : bpow radix2 (-20) * (u * (k * k)) <= / 1000000 * (u * (k * k))) by (apply Rmult_le_compat_r; lra).
    assert (W1 : u * (k * k) <= u * (y * y)) by (apply Rmult_le_compat_l; [lra|apply Rmult_le_compat; lra]). assert (W2 : u * (k * k) <= u * y) by (apply Rmult_le_compat_l; [lra|]; apply Rle_trans with (k * 1); [apply Rmult_le_compat_l; lra|lra]).
    split; [lra|]. split; [lra|]. split.
    - rewrite <- QQ. assert (0 <= u * ((q / 10 - 10 * k) * (q / 10 - 10 * k))) by (apply Rmult_le_pos; [lra|apply Rle_0_sqr]). unfold y. assert (0 <= u * (q * q)) by (apply Rmult_le_pos; [lra|apply Rle_0_sqr]). lra.
    - rewrite <- QQ. unfold y. assert (0 <= q * k) by (apply Rmult_le_pos; lra). lra.
  Qed.
  Lemma unit_size : len (exact_vec d) <= 1.001 /\ Rabs (dot (exact_vec d) (exact_vec d) - 1) <= 8 * w.
  Proof.
    unfold nearly_unit in UD. assert (E : bpow radix2 (-50) = 8 * u) by (change (-50)%Z with (3 + -53)%Z; rewrite bpow_plus; reflexivity). rewrite E in UD. split; [|exact UD]. pose proof v_small. apply Rabs_le_inv in UD.
    pose proof (len_ge (exact_vec d)) as L. pose proof (len_sqr (exact_vec d)) as LL. destruct (Rle_lt_dec (len (exact_vec d)) 1.001) as [H'|H']; [exact H'|]. assert (1.001 * 1.001 <= len (exact_vec d) * len (exact_vec d)) by (apply Rmult_le_compat; lra). lra.
  Qed.
  Lemma dif_close : close_vec (fdif s o) D.
  Proof. apply minus_close; [exact MO|apply MS]. Qed.
  Lemma r_bound : r * r <= bpow radix2 400.
  Proof.
    destruct MS as [_ [_ H]]. fold r in H. replace (r * r) with (Rabs r * Rabs r) by (rewrite <- Rabs_mult; apply Rabs_pos_eq, Rle_0_sqr). change 400%Z with (200 + 200)%Z. rewrite bpow_plus. apply Rmult_le_compat; auto using Rabs_pos.
  Qed.

  Lemma outer_near : is_finite (fouter s o) = true /\ Rabs (B2R (fouter s o)) <= bpow radix2 410 /\ Rabs (B2R (fouter s o) - (Q - r * r)) <= 6.3 * (w * (y * y)) + 2.2 * (w * (r * r)).
  Proof.
    destruct hit_small as (W & K & Q0 & QQ & Y0 & _ & E2 & _ & QY). destruct (dot_close _ _ _ _ dif_close dif_close) as (FL & BL & EL). cbv zeta in EL. fold w in EL.
    replace (Rabs (vx D * vx D) + Rabs (vy D * vy D) + Rabs (vz D * vz D)) with Q in EL by (rewrite !Rabs_pos_eq by apply Rle_0_sqr; reflexivity). fold Q in EL.
    destruct MS as [_ [FR _]]. pose proof r_bound as RB. assert (R0 : 0 <= r * r) by apply Rle_0_sqr. fold r in RB. destruct (mul_fin (fsradius s) (fsradius s) 400 FR FR ltac:(lia)) as [FM VM]; [fold r; rewrite Rabs_pos_eq by exact R0; exact RB|]. fold r in VM.
    assert (RM : Rabs (B2R (b64_mul (fsradius s) (fsradius s)) - r * r) <= w * (r * r) + eta) by (rewrite VM; apply rnd_near; rewrite Rabs_pos_eq by exact R0; apply Rle_refl).
    assert (BM : Rabs (B2R (b64_mul (fsradius s) (fsradius s))) <= bpow radix2 407) by (rewrite VM; apply rnd_bound; [lia|]; rewrite Rabs_pos_eq by exact R0; apply Rle_trans with (1 := RB), bpow_le; lia).
    unfold fouter. set (L := fdot (fdif s o) (fdif s o)) in *. set (M := b64_mul (fsradius s) (fsradius s)) in *.
    assert (D8 : bpow radix2 408 = 2 * bpow radix2 407) by exact (double_pow 407). assert (SB : Rabs (B2R L - B2R M) <= bpow radix2 408) by (unfold Rminus; eapply Rle_trans; [apply Rabs_triang|]; rewrite Rabs_Ropp; lra).
    destruct (sub_fin L M 408 FL FM ltac:(lia) SB) as [FC VC]. split; [exact FC|]. split; [rewrite VC; apply Rle_trans with (bpow radix2 408); [apply rnd_bound; [lia|exact SB]|apply bpow_le; lia]|].
    assert (RC : rel u (B2R (b64_sub L M)) (B2R L - B2R M)) by (rewrite VC; apply sum_relative; [|apply generic_format_opp]; apply generic_format_B2R). unfold rel in RC. fold w in RC.
    assert (QW : 0 <= w * Q <= w * (y * y)) by (split; [apply Rmult_le_pos; [lra|rewrite <- QQ; apply Rmult_le_pos; lra]|apply Rmult_le_compat_l; lra]). assert (RW : 0 <= w * (r * r) <= / 1000000 * (r * r)) by (split; [apply Rmult_le_pos; lra|apply Rmult_le_compat_r; lra]). assert (YW : w * (y * y) <= / 1000000 * (y * y)) by (apply Rmult_le_compat_r; [apply Rle_0_sqr|lra]).
    set (Y2 := y * y) in *. set (R2 := r * r) in *. pose proof (bpow_gt_0 radix2 (-1075)) as H0. set (h := bpow radix2 (-1075)) in *. assert (QP : 0 <= Q) by (rewrite <- QQ; apply Rmult_le_pos; lra).
    apply Rabs_le_inv in EL. apply Rabs_le_inv in RM. assert (MB : Rabs (B2R L - B2R M) <= 1.01 * Y2 + 1.01 * R2) by (apply Rabs_le; lra).
    assert (N : w * Rabs (B2R L - B2R M) <= w * (1.01 * Y2 + 1.01 * R2)) by (apply Rmult_le_compat_l; lra). apply Rabs_le_inv in RC. apply Rabs_le. lra.
  Qed.

  Lemma ahead_near : is_finite (fahead s o d) = true /\ Rabs (B2R (fahead s o d)) <= bpow radix2 407 /\ Rabs (B2R (fahead s o d) - B) <= 5.2 * (w * y) /\ Rabs B <= 1.001 * y /\ Rabs (B2R (fahead s o d)) <= 1.002 * y.
  Proof.
    destruct hit_small as (W & K & Q0 & QQ & Y0 & E1 & _). destruct unit_size as [UL _]. destruct (dot_close _ _ _ _ dif_close (mild_close d MD)) as (F & BB & E). cbv zeta in E. fold (fahead s o d) in F, BB, E. fold w B in E. pose proof (dot_sizes D (exact_vec d)) as DS. fold q in DS. pose proof (cauchy_abs D (exact_vec d)) as CA. fold q B in CA.
    pose proof (len_ge (exact_vec d)) as L0. assert (QL : q * len (exact_vec d) <= 1.001 * y) by (unfold y; apply Rle_trans with (q * 1.001); [apply Rmult_le_compat_l; lra|lra]).
    set (S := Rabs (vx D * vx (exact_vec d)) + Rabs (vy D * vy (exact_vec d)) + Rabs (vz D * vz (exact_vec d))) in *. assert (WS : w * S <= w * (1.001 * y)) by (apply Rmult_le_compat_l; lra). assert (WY : 0 <= w * y <= / 1000000 * y) by (split; [apply Rmult_le_pos; lra|apply Rmult_le_compat_r; lra]).
    assert (EB : Rabs (B2R (fahead s o d) - B) <= 5.2 * (w * y)) by lra. repeat split; try assumption; try lra. apply far_from in EB. lra.
  Qed.

  (** The two squares, and how deep the line enters *)
  Lemma disc_near : is_finite (fdisc s o d) = true /\
    Rabs (B2R (fdisc s o d) - (B2R (fahead s o d) * B2R (fahead s o d) - B2R (fouter s o))) <= 3.2 * (w * (y * y)) + 1.1 * (w * (r * r)) /\
    (0 <= B2R (fouter s o) -> B2R (fdisc s o d) <= rnd (B2R (fahead s o d) * B2R (fahead s o d))).
  Proof.
    destruct hit_small as (W & K & Q0 & QQ & Y0 & _ & E2 & _ & QY). destruct outer_near as (FC & BC & EC). destruct ahead_near as (FB & BB & _ & _ & SB).
    set (b := fahead s o d) in *. set (c := fouter s o) in *. assert (P0 : 0 <= B2R b * B2R b) by apply Rle_0_sqr.
    assert (PB : Rabs (B2R b * B2R b) <= bpow radix2 814) by (rewrite Rabs_mult; change 814%Z with (407 + 407)%Z; rewrite bpow_plus; apply Rmult_le_compat; auto using Rabs_pos). destruct (mul_fin b b 814 FB FB ltac:(lia) PB) as [FM VM].
    assert (PY : B2R b * B2R b <= 1.01 * (y * y)). { replace (B2R b * B2R b) with (Rabs (B2R b) * Rabs (B2R b)) by (rewrite <- Rabs_mult; apply Rabs_pos_eq; exact P0). apply Rle_trans with (1.002 * y * (1.002 * y)); [apply Rmult_le_compat; auto using Rabs_pos|]. assert (0 <= y * y) by apply Rle_0_sqr. lra. }
    assert (BM : Rabs (B2R (b64_mul b b)) <= bpow radix2 814) by (rewrite VM; apply rnd_bound; [lia|exact PB]).
    assert (RM : Rabs (B2R (b64_mul b b) - B2R b * B2R b) <= w * (B2R b * B2R b) + eta) by (rewrite VM; apply rnd_near; rewrite Rabs_pos_eq by exact P0; apply Rle_refl).
    unfold fdisc. fold b c. set (m := b64_mul b b) in *. assert (D5 : bpow radix2 815 = 2 * bpow radix2 814) by exact (double_pow 814). assert (BC2 : bpow radix2 410 <= bpow radix2 814) by (apply bpow_le; lia).
    assert (SS : Rabs (B2R m - B2R c) <= bpow radix2 815) by (unfold Rminus; eapply Rle_trans; [apply Rabs_triang|]; rewrite Rabs_Ropp; lra). destruct (sub_fin m c 815 FM FC ltac:(lia) SS) as [FD VD]. split; [exact FD|]. split.
    - assert (RD : rel u (B2R (b64_sub m c)) (B2R m - B2R c)) by (rewrite VD; apply sum_relative; [|apply generic_format_opp]; apply generic_format_B2R). unfold rel in RD. fold w in RD.
      assert (R0 : 0 <= r * r) by apply Rle_0_sqr. assert (Y2P : 0 <= y * y) by apply Rle_0_sqr. set (Y2 := y * y) in *. set (R2 := r * r) in *. set (b2 := B2R b * B2R b) in *.
      assert (WB : 0 <= w * b2 <= w * (1.01 * Y2)) by (split; [apply Rmult_le_pos; lra|apply Rmult_le_compat_l; lra]). assert (RW : 0 <= w * R2 <= / 1000000 * R2) by (split; [apply Rmult_le_pos; lra|apply Rmult_le_compat_r; lra]). assert (YW : 0 <= w * Y2 <= / 1000000 * Y2) by (split; [apply Rmult_le_pos; lra|apply Rmult_le_compat_r; lra]).
      pose proof (bpow_gt_0 radix2 (-1075)) as H0. set (h := bpow radix2 (-1075)) in *. assert (QP : 0 <= Q) by (rewrite <- QQ; apply Rmult_le_pos; lra).
      apply Rabs_le_inv in EC. apply Rabs_le_inv in RM. assert (MB : Rabs (B2R m - B2R c) <= 2.1 * Y2 + 1.01 * R2) by (apply Rabs_le; lra).
      assert (N : w * Rabs (B2R m - B2R c) <= w * (2.1 * Y2 + 1.01 * R2)) by (apply Rmult_le_compat_l; lra). apply Rabs_le_inv in RD. apply Rabs_le. lra.
    - intros C0. rewrite VD. rewrite <- VM. apply rnd_at_most; [apply generic_format_B2R|lra].
  Qed.

  Lemma depth_near : Rabs (B2R (fdisc s o d) - (B * B - (Q - r * r))) <= 20.1 * (w * (y * y)) + 3.3 * (w * (r * r)).
  Proof.
    destruct hit_small as (W & _ & _ & _ & Y0 & _). destruct outer_near as (_ & _ & EC). destruct ahead_near as (_ & _ & EB & SB1 & SB2). destruct disc_near as (_ & ED & _). set (b := B2R (fahead s o d)) in *.
    assert (P : Rabs ((b - B) * (b + B)) <= 5.2 * (w * y) * (2.003 * y)) by (rewrite Rabs_mult; apply Rmult_le_compat; auto using Rabs_pos; eapply Rle_trans; [apply Rabs_triang|]; lra).
    replace (5.2 * (w * y) * (2.003 * y)) with (10.4156 * (w * (y * y))) in P by lra. assert (0 <= w * (y * y)) by (apply Rmult_le_pos; [lra|apply Rle_0_sqr]).
    apply Rabs_le_inv in P. apply Rabs_le_inv in EC. apply Rabs_le_inv in ED. apply Rabs_le. lra.
  Qed.

  (** The square root of the rounded square of a number is at most the number, unless it underflows. *)
  Lemma root_square (b : b64) x : is_finite b = true -> Rabs (B2R b) <= bpow radix2 407 -> 0 <= x <= rnd (B2R b * B2R b) -> rnd (sqrt x) <= Rabs (B2R b) + bpow radix2 (-535).
  Proof.
    intros F BB X. pose proof v_small as US. set (a := Rabs (B2R b)) in *. assert (A0 : 0 <= a) by apply Rabs_pos. replace (B2R b * B2R b) with (a * a) in X by (unfold a; rewrite <- Rabs_mult; apply Rabs_pos_eq, Rle_0_sqr).
    assert (GA : generic_format radix2 f64 a) by (apply generic_format_abs, generic_format_B2R). assert (V := valid64). assert (PG : Prec_gt_0 53) by reflexivity. assert (E5 := bpow_gt_0 radix2 (-535)).
    destruct (Rle_lt_dec (bpow radix2 (-500)) a) as [A5|A5].
    - assert (AA : bpow radix2 (-1000) <= a * a) by (change (-1000)%Z with (-500 + -500)%Z; rewrite bpow_plus; apply Rmult_le_compat; auto using bpow_ge_0). assert (RA : Rabs (rnd (a * a) - a * a) <= u * (a * a)) by (rewrite <- (Rabs_pos_eq (a * a)) at 3; [|pose proof (bpow_ge_0 radix2 (-1000)); lra]; apply rnd_relative; rewrite Rabs_pos_eq; [exact AA|pose proof (bpow_ge_0 radix2 (-1000)); lra]).
      apply Rabs_le_inv in RA. set (w0 := bpow radix2 (-53)) in *. assert (SX : sqrt x <= a * (1 + w0 / 2)).
      { rewrite <- (sqrt_square (a * (1 + w0 / 2))) by (apply Rmult_le_pos; lra). apply sqrt_le_1_alt. replace (a * (1 + w0 / 2) * (a * (1 + w0 / 2))) with (a * a + w0 * (a * a) + (w0 * a / 2) * (w0 * a / 2)) by field. assert (0 <= w0 * a / 2 * (w0 * a / 2)) by apply Rle_0_sqr. lra. }
      apply Rle_trans with a; [|lra]. assert (UG : a * w0 < ulp radix2 f64 a). { pose proof (ulp_FLT_gt radix2 (3 - 1024 - 53) 53 a) as K. rewrite (Rabs_pos_eq a A0) in K. apply K. }
      apply (round_N_le_midp radix2 f64 (fun z => negb (Z.even z)) a (sqrt x) GA). rewrite succ_eq_pos by exact A0. lra.
    - assert (AA : a * a <= bpow radix2 (-1000)) by (change (-1000)%Z with (-500 + -500)%Z; rewrite bpow_plus; apply Rmult_le_compat; lra).
      assert (RA : Rabs (rnd (a * a) - a * a) <= u * (a * a) + eta) by (apply rnd_near; rewrite Rabs_pos_eq by apply Rle_0_sqr; apply Rle_refl). apply Rabs_le_inv in RA.
      set (z := bpow radix2 (-537)). assert (Z0 : 0 < z) by apply bpow_gt_0. assert (ZZ : eta <= z * z) by (unfold z; rewrite <- bpow_plus; apply bpow_le; lia). set (w0 := bpow radix2 (-53)) in *. set (h := bpow radix2 (-1075)) in *.
      assert (SX : sqrt x <= a * (1 + w0) + z).
      { assert (WA : 0 <= a * (1 + w0)) by (apply Rmult_le_pos; lra). rewrite <- (sqrt_square (a * (1 + w0) + z)) by lra. apply sqrt_le_1_alt. assert (0 <= a * (1 + w0) * z) by (apply Rmult_le_pos; lra). assert (0 <= w0 * (a * a)) by (apply Rmult_le_pos; [lra|apply Rle_0_sqr]). assert (0 <= w0 * a * (w0 * a)) by apply Rle_0_sqr. lra. }
      assert (W5 : a * w0 <= bpow radix2 (-553)) by (change (-553)%Z with (-500 + -53)%Z; rewrite bpow_plus; apply Rmult_le_compat_r; [apply bpow_ge_0|lra]). assert (WZ : bpow radix2 (-553) <= / 1000 * z) by (apply Rle_trans with (bpow radix2 (-10) * bpow radix2 (-537)); [rewrite <- bpow_plus; apply bpow_le; lia|apply Rmult_le_compat_r; [lra|change (bpow radix2 (-10)) with (/ 1024); lra]]).
      assert (S0 : 0 <= sqrt x) by apply sqrt_pos. assert (RN : Rabs (rnd (sqrt x) - sqrt x) <= w0 * (a + 2 * z) + h) by (apply rnd_near; rewrite Rabs_pos_eq by exact S0; lra). apply Rabs_le_inv in RN.
      assert (HZ : h <= / 1000 * z). { apply Rle_trans with (bpow radix2 (-10) * bpow radix2 (-537)); [rewrite <- bpow_plus; apply bpow_le; lia|apply Rmult_le_compat_r; [lra|change (bpow radix2 (-10)) with (/ 1024); lra]]. }
      assert (w0 * z <= / 1000000 * z) by (apply Rmult_le_compat_r; lra). assert (Z2 : bpow radix2 (-535) = 4 * z) by (change (-535)%Z with (2 + -537)%Z; rewrite bpow_plus; reflexivity). lra.
  Qed.

  (** The reported parameter *)
  Lemma parameter_near : 0 <= B2R (fouter s o) -> B2R (fahead s o d) <= 0 -> 0 <= B2R (fdisc s o d) -> let t := b64_sub (Bopp (fahead s o d)) (b64_sqrt (fdisc s o d)) in
    is_finite t = true /\ - bpow radix2 (-530) <= B2R t /\ Rabs (B2R t) <= 2.1 * y /\ B2R t + B <= 7.3 * (w * y) /\
    Rabs (B2R t * B2R t * dot (exact_vec d) (exact_vec d) + 2 * B2R t * B + (Q - r * r)) <= 75 * (w * (y * y)) + 4 * (w * (r * r)).
  Proof.
    intros C0 B0 D0 t. destruct hit_small as (W & K & Q0 & QQ & Y0 & E1 & E2 & _). destruct outer_near as (FC & BC & EC). destruct ahead_near as (FB & BB & EB & SB1 & SB2). destruct disc_near as (FD & ED & UP). specialize (UP C0). destruct unit_size as [_ UV].
    destruct (sqrt_fin _ FD D0) as [FS VS]. pose proof (root_square _ _ FB BB (conj D0 UP)) as RS. rewrite <- VS in RS. rewrite (Rabs_left1 _ B0) in RS, SB2.
    set (b := fahead s o d) in *. set (c := fouter s o) in *. set (e := fdisc s o d) in *. set (g := sqrt (B2R e)) in *. assert (G0 : 0 <= g) by apply sqrt_pos. assert (GG : g * g = B2R e) by (apply sqrt_sqrt; exact D0).
    set (f := b64_sqrt e) in *. assert (S0 : 0 <= B2R f) by (rewrite VS; apply rnd_at_least; [apply generic_format_0|exact G0]).
    pose proof (bpow_gt_0 radix2 (-535)) as Z0. assert (ZK : bpow radix2 (-535) <= / 1000 * k) by (apply Rle_trans with (bpow radix2 (-10) * bpow radix2 (-430)); [rewrite <- bpow_plus; apply bpow_le; lia|apply Rmult_le_compat_r; [lra|change (bpow radix2 (-10)) with (/ 1024); lra]]). assert (KY : k <= y) by (unfold y; lra).
    assert (SY : B2R f <= 1.003 * y) by lra.
    (* the difference *)
    assert (FO : is_finite (Bopp b) = true) by (rewrite is_finite_Bopp; exact FB). assert (VO : B2R (Bopp b) = - B2R b) by apply B2R_Bopp.
    assert (TB : Rabs (B2R (Bopp b) - B2R f) <= bpow radix2 409).
    { rewrite VO. assert (BP : - B2R b <= bpow radix2 407) by (rewrite (Rabs_left1 _ B0) in BB; exact BB). assert (D8 : bpow radix2 408 = 2 * bpow radix2 407) by exact (double_pow 407). assert (D9 : bpow radix2 409 = 2 * bpow radix2 408) by exact (double_pow 408). assert (bpow radix2 (-535) <= bpow radix2 407) by (apply bpow_le; lia). apply Rabs_le. lra. }
    destruct (sub_fin (Bopp b) f 409 FO FS ltac:(lia) TB) as [FT VT]. fold t in FT, VT. rewrite VO in VT. split; [exact FT|].
    assert (RT : rel u (B2R t) (- B2R b - B2R f)) by (rewrite VT, <- VO; apply sum_relative; [|apply generic_format_opp]; apply generic_format_B2R). unfold rel in RT. fold w in RT.
    split. { rewrite VT. apply rnd_at_least; [apply generic_format_opp, generic_format_FLT_bpow; [reflexivity|lia]|]. assert (bpow radix2 (-535) <= bpow radix2 (-530)) by (apply bpow_le; lia). lra. }
    assert (WY : 0 <= w * y <= / 1000000 * y) by (split; [apply Rmult_le_pos; lra|apply Rmult_le_compat_r; lra]). assert (Y2P : 0 <= y * y) by apply Rle_0_sqr. assert (WY2 : 0 <= w * (y * y) <= / 1000000 * (y * y)) by (split; [apply Rmult_le_pos; lra|apply Rmult_le_compat_r; lra]).
    assert (M : Rabs (- B2R b - B2R f) <= 2.006 * y) by (apply Rabs_le; lra). assert (N : w * Rabs (- B2R b - B2R f) <= w * (2.006 * y)) by (apply Rmult_le_compat_l; lra).
    assert (T1 : Rabs (B2R t + B2R b + B2R f) <= 2.01 * (w * y)) by (replace (B2R t + B2R b + B2R f) with (B2R t - (- B2R b - B2R f)) by ring; lra).
    assert (TY : Rabs (B2R t) <= 2.1 * y) by (apply Rabs_le_inv in T1; apply Rabs_le; lra). split; [exact TY|]. split; [apply Rabs_le_inv in T1; apply Rabs_le_inv in EB; lra|].
    (* the square of the rounded root *)
    assert (GY : g <= 1.01 * y). { pose proof (rnd_near g g ltac:(rewrite Rabs_pos_eq; lra)) as RG. rewrite <- VS in RG. fold w in RG. apply Rabs_le_inv in RG. assert (w * g <= / 1000000 * g) by (apply Rmult_le_compat_r; lra). lra. }
    assert (RG : Rabs (B2R f - g) <= 1.02 * (w * y)). { rewrite VS. eapply Rle_trans; [apply rnd_near with (m := 1.01 * y); rewrite Rabs_pos_eq; lra|]. fold w. lra. }
    assert (SQ : Rabs ((B2R f - g) * (B2R f + g)) <= 1.02 * (w * y) * (2.02 * y)) by (rewrite Rabs_mult; apply Rmult_le_compat; auto using Rabs_pos; rewrite Rabs_pos_eq; lra).
    assert (TQ : Rabs ((B2R t + B2R b + B2R f) * (B2R t + B2R b - B2R f)) <= 2.01 * (w * y) * (2.1 * y)). { rewrite Rabs_mult. apply Rmult_le_compat; auto using Rabs_pos. apply Rabs_le_inv in T1. apply Rabs_le. lra. }
    assert (VQ : Rabs (B2R t * B2R t * (dot (exact_vec d) (exact_vec d) - 1)) <= 2.1 * y * (2.1 * y) * (8 * w)) by (rewrite !Rabs_mult; apply Rmult_le_compat; auto using Rabs_pos; [apply Rmult_le_pos; apply Rabs_pos|apply Rmult_le_compat; auto using Rabs_pos]).
    assert (BQ : Rabs (B2R t * (B2R b - B)) <= 2.1 * y * (5.2 * (w * y))) by (rewrite Rabs_mult; apply Rmult_le_compat; auto using Rabs_pos).
    replace (1.02 * (w * y) * (2.02 * y)) with (2.0604 * (w * (y * y))) in SQ by lra. replace (2.01 * (w * y) * (2.1 * y)) with (4.221 * (w * (y * y))) in TQ by lra. replace (2.1 * y * (2.1 * y) * (8 * w)) with (35.28 * (w * (y * y))) in VQ by lra. replace (2.1 * y * (5.2 * (w * y))) with (10.92 * (w * (y * y))) in BQ by lra.
    assert (R0 : 0 <= r * r) by apply Rle_0_sqr. assert (WR : 0 <= w * (r * r)) by (apply Rmult_le_pos; lra).
    apply Rabs_le_inv in SQ. apply Rabs_le_inv in TQ. apply Rabs_le_inv in VQ. apply Rabs_le_inv in BQ. apply Rabs_le_inv in EC. apply Rabs_le_inv in ED.
    set (T := B2R t) in *. set (V := dot (exact_vec d) (exact_vec d)) in *. set (x := w * (y * y)) in *. set (z := w * (r * r)) in *. clearbody x z. clear - SQ TQ VQ BQ EC ED GG R0 WR WY2.
    assert (ID : T * T * V + 2 * T * B + (Q - r * r) = T * T * (V - 1) - 2 * (T * (B2R b - B)) + (T + B2R b + B2R f) * (T + B2R b - B2R f) + (B2R f - g) * (B2R f + g) + (g * g - (B2R b * B2R b - B2R c)) - (B2R c - (Q - r * r))) by ring.
    rewrite ID. rewrite GG. apply Rabs_le. lra.
  Qed.
End Hit.
