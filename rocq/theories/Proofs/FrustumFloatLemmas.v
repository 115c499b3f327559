(** Rounding in hulls and view frusta. *)
From Coq Require Import ZArith Reals List Bool Lia Lra Psatz.
From Flocq Require Import Core IEEE754.BinarySingleNaN.
From Flocq Require Import Relative Plus_error.
From Verif Require Import Model.Scalar Model.Vec Model.BoxFloat Model.Plane Model.PlaneFloat Model.ClipFloat Model.FrustumFloat
  Spec.PlaneSpec Spec.FloatSpec Spec.ClipFloatSpec Spec.FrustumFloatSpec
  Proofs.VecLemmas Proofs.PlaneLemmas Proofs.PlaneFloatLemmas Proofs.SplineFloat Proofs.BoxRayFloatLemmas Proofs.ClipFloatLemmas Proofs.KeyframeFloatLemmas.
Import ListNotations.
Local Open Scope R_scope.

Lemma sqrt_value (x : b64) : 0 < B2R x -> is_finite (b64_sqrt x) = true /\ B2R (b64_sqrt x) = rnd (sqrt (B2R x)).
Proof.
  intros P. destruct (Bsqrt_correct 53 1024 b64_prec_gt_0 b64_prec_lt_emax mode_NE x) as (V & F & _). unfold b64_sqrt. split; [|exact V]. rewrite F.
  destruct x as [s| | |s m e H]; try reflexivity; try (cbn in P; lra). destruct s; [|reflexivity]. exfalso. cbn in P.
  apply (Rlt_irrefl 0). apply Rlt_trans with (1 := P). now apply F2R_lt_0.
Qed.

(** Real numbers that are near each other, relative to the second *)
Definition rel (k x y : R) : Prop := Rabs (x - y) <= k * Rabs y.
Lemma rel_bounds k x y : rel k x y -> Rabs x <= (1 + k) * Rabs y.
Proof. intros H. unfold rel in H. replace x with (x - y + y) by ring. apply Rle_trans with (1 := Rabs_triang _ _). lra. Qed.
Lemma rel_square v x y : 0 <= v <= / 1000 -> rel v x y -> Rabs (x * x - y * y) <= 2.01 * v * (y * y).
Proof.
  intros V H. pose proof (rel_bounds _ _ _ H) as B. unfold rel in H. replace (x * x - y * y) with ((x - y) * (x + y)) by ring. rewrite Rabs_mult.
  assert (S : Rabs (x + y) <= (2 + v) * Rabs y) by (apply Rle_trans with (1 := Rabs_triang _ _); lra).
  assert (Y : Rabs y * Rabs y = y * y) by (rewrite <- Rabs_mult; apply Rabs_pos_eq; nra). pose proof (Rabs_pos y) as Y0.
  apply Rle_trans with (v * Rabs y * ((2 + v) * Rabs y)); [apply Rmult_le_compat; auto using Rabs_pos|]. replace (v * Rabs y * ((2 + v) * Rabs y)) with (v * (2 + v) * (y * y)) by (rewrite <- Y; ring).
  apply Rmult_le_compat_r; [nra|]. nra.
Qed.

(** The length of a vector nearly [e], and its reciprocal *)
Lemma length_arith v h L s c q l k : 0 < v <= / 1000 -> 0 < L -> s = L * L -> 0 <= h <= v * s / 100 ->
  Rabs (c - s) <= 2.01 * v * s + 3.25 * v * (1.01 * s) + h -> 0 <= q -> q * q = c -> Rabs (l - q) <= v * q -> Rabs (k - 1 / l) <= v * Rabs (1 / l) ->
  0 < c /\ 0 < l /\ Rabs (l - L) <= 7 * v * L /\ Rabs (k * L - 1) <= 9 * v.
Proof.
  intros V PL ES H C Q0 QQ HL HK. assert (S0 : 0 < s) by (rewrite ES; nra).
  assert (C6 : Rabs (c - s) <= 5.5 * v * s) by (assert (0 <= v * s) by nra; lra).
  apply Rabs_le_inv in C6. assert (V1 : v * s <= / 1000 * s) by nra. assert (C0 : 0 < c) by lra.
  assert (Q6 : Rabs (q - L) <= 5.5 * v * L).
  { apply Rabs_le. assert (Q1 : (q - L) * (q + L) = c - s) by (rewrite <- QQ, ES; ring).
    assert (VL : 0 <= v * L <= / 1000 * L) by nra. assert (V2 : 0 <= v * s) by nra.
    split; [destruct (Rle_dec (- (5.5 * v * L)) (q - L)); [assumption|exfalso]|destruct (Rle_dec (q - L) (5.5 * v * L)); [assumption|exfalso]].
    - assert (X : (q - L) * (q + L) <= - (5.5 * v * L) * (q + L)) by (apply Rmult_le_compat_r; lra). assert (0 < q) by nra.
      assert (0 < v * L * q) by (apply Rmult_lt_0_compat; nra). rewrite Q1 in X. replace (- (5.5 * v * L) * (q + L)) with (- (5.5 * (v * L * q)) - 5.5 * v * s) in X by (rewrite ES; ring). lra.
    - assert (X : (5.5 * v * L) * (q + L) <= (q - L) * (q + L)) by (apply Rmult_le_compat_r; lra). assert (0 < q) by lra.
      assert (0 < v * L * q) by (apply Rmult_lt_0_compat; nra). rewrite Q1 in X. replace ((5.5 * v * L) * (q + L)) with (5.5 * (v * L * q) + 5.5 * v * s) in X by (rewrite ES; ring). lra. }
  apply Rabs_le_inv in Q6. apply Rabs_le_inv in HL. assert (VL : 0 <= v * L <= / 1000 * L) by nra. assert (VVL : v * (v * L) <= / 1000 * (v * L)) by nra.
  assert (VQ : v * q <= v * L + 5.5 * (v * (v * L))) by nra.
  assert (L7 : - (7 * v * L) <= l - L <= 7 * v * L) by lra. assert (L0 : 0 < l) by lra.
  split; [exact C0|]. split; [exact L0|]. split; [now apply Rabs_le|].
  assert (I0 : 0 < 1 / l) by (apply Rdiv_lt_0_compat; lra). rewrite (Rabs_pos_eq (1 / l)) in HK by lra. apply Rabs_le_inv in HK.
  set (g := L / l). assert (GL : g * l = L) by (unfold g; field; lra). assert (G : 1 - 7.5 * v <= g <= 1 + 7.5 * v).
  { split; apply Rmult_le_reg_r with l; try assumption; rewrite GL; nra. }
  assert (KL : - (v * g) <= k * L - g <= v * g).
  { replace (k * L - g) with ((k - 1 / l) * L) by (unfold g; field; lra). replace (v * g) with (v * (1 / l) * L) by (unfold g; field; lra). nra. }
  apply Rabs_le. nra.
Qed.

Lemma scale_arith v h L k a e n : 0 < v <= / 1000 -> 0 <= h -> 0 < L -> Rabs (k * L - 1) <= 9 * v -> rel v a e -> Rabs (n - a * k) <= v * Rabs (a * k) + h -> Rabs (n - e / L) <= 12 * v * (Rabs e / L) + h.
Proof.
  intros V H0 PL K A N. pose proof (rel_bounds _ _ _ A) as AB. unfold rel in A. set (z := Rabs e / L). assert (Z0 : 0 <= z) by (unfold z; apply Rmult_le_pos; [apply Rabs_pos|left; now apply Rinv_0_lt_compat]).
  assert (D : Rabs (a * k - e / L) <= 10.1 * v * z).
  { replace (a * k - e / L) with ((e * (k * L - 1) + (a - e) * (1 + (k * L - 1))) / L) by (field; lra). unfold Rdiv. rewrite Rabs_mult, (Rabs_pos_eq (/ L)) by (left; now apply Rinv_0_lt_compat).
    unfold z. unfold Rdiv. rewrite <- Rmult_assoc. apply Rmult_le_compat_r; [left; now apply Rinv_0_lt_compat|]. apply Rle_trans with (1 := Rabs_triang _ _). rewrite !Rabs_mult.
    assert (B : Rabs (1 + (k * L - 1)) <= 1.01) by (apply Rabs_le_inv in K; apply Rabs_le; lra). pose proof (Rabs_pos e) as E0.
    assert (X1 : Rabs e * Rabs (k * L - 1) <= Rabs e * (9 * v)) by (apply Rmult_le_compat_l; assumption).
    assert (X2 : Rabs (a - e) * Rabs (1 + (k * L - 1)) <= v * Rabs e * 1.01) by (apply Rmult_le_compat; auto using Rabs_pos). assert (0 <= v * Rabs e) by (apply Rmult_le_pos; lra). lra. }
  assert (B : Rabs (a * k) <= 1.011 * z).
  { replace (a * k) with (a * k - e / L + e / L) by ring. apply Rle_trans with (1 := Rabs_triang _ _). replace (Rabs (e / L)) with z; [assert (v * z <= / 1000 * z) by (apply Rmult_le_compat_r; lra); lra|]. unfold z, Rdiv. rewrite Rabs_mult, (Rabs_pos_eq (/ L)); [reflexivity|left; now apply Rinv_0_lt_compat]. }
  replace (n - e / L) with (n - a * k + (a * k - e / L)) by ring. apply Rle_trans with (1 := Rabs_triang _ _).
  assert (X : v * Rabs (a * k) <= v * (1.011 * z)) by (apply Rmult_le_compat_l; lra). assert (0 <= v * z) by (apply Rmult_le_pos; lra). lra.
Qed.

(** The plane of a form whose row is known up to one rounding *)
Section Row.
  Variables (r : frow) (e : vec4).
  Hypothesis F1 : is_finite (fx (fxyz r)) = true.
  Hypothesis F2 : is_finite (fy (fxyz r)) = true.
  Hypothesis F3 : is_finite (fz (fxyz r)) = true.
  Hypothesis F4 : is_finite (fw r) = true.
  Hypothesis B1 : Rabs (B2R (fx (fxyz r))) <= bpow radix2 202.
  Hypothesis B2 : Rabs (B2R (fy (fxyz r))) <= bpow radix2 202.
  Hypothesis B3 : Rabs (B2R (fz (fxyz r))) <= bpow radix2 202.
  Hypothesis B4 : Rabs (B2R (fw r)) <= bpow radix2 202.
  Hypothesis E1 : rel u (B2R (fx (fxyz r))) (vx (xyz e)).
  Hypothesis E2 : rel u (B2R (fy (fxyz r))) (vy (xyz e)).
  Hypothesis E3 : rel u (B2R (fz (fxyz r))) (vz (xyz e)).
  Hypothesis E4 : rel u (B2R (fw r)) (w4 e).
  Hypothesis PR : proper e.
  Let L := len (xyz e).
  Let n := FV (Bopp (fx (fxyz r))) (Bopp (fy (fxyz r))) (Bopp (fz (fxyz r))).
  Let l := flength n.
  Let k := b64_div b64_1 l.
  Lemma length_positive : 0 < L.
  Proof. apply Rlt_le_trans with (2 := PR), bpow_gt_0. Qed.
  Lemma row_moderate : moderate_vec n.
  Proof.
    assert (W : forall x, Rabs x <= bpow radix2 202 -> Rabs x <= bpow radix2 500) by (intros x H; apply Rle_trans with (1 := H), bpow_le; lia).
    unfold n. repeat split; cbn [fx fy fz]; rewrite ?is_finite_Bopp, ?B2R_Bopp, ?Rabs_Ropp; auto.
  Qed.
  Lemma square_near : 0 < B2R (fdot n n) /\ is_finite l = true /\ 0 < B2R l /\ Rabs (B2R l - L) <= 7 * u * L /\ is_finite k = true /\ Rabs (B2R k * L - 1) <= 9 * u.
  Proof.
    pose proof length_positive as PL. pose proof row_moderate as M. destruct (dot_error n n M M) as (FD & _ & d & D & HD).
    pose proof u_small as US. set (s := L * L).
    assert (SE : s = vx (xyz e) * vx (xyz e) + vy (xyz e) * vy (xyz e) + vz (xyz e) * vz (xyz e)) by (unfold s, L; rewrite len_sqr; reflexivity).
    set (sn := dot (exact_vec n) (exact_vec n)) in *.
    assert (SN : Rabs (sn - s) <= 2.01 * u * s).
    { unfold sn, exact_vec, dot, n. cbn [fx fy fz vx vy vz]. rewrite !B2R_Bopp, SE. pose proof (rel_square u _ _ ltac:(lra) E1) as X1. pose proof (rel_square u _ _ ltac:(lra) E2) as X2. pose proof (rel_square u _ _ ltac:(lra) E3) as X3.
      apply Rabs_le_inv in X1. apply Rabs_le_inv in X2. apply Rabs_le_inv in X3. apply Rabs_le. lra. }
    assert (MG : mag3 n n = sn) by (unfold sn, exact_vec, dot; cbn [vx vy vz]; rewrite !Rabs_pos_eq by nra; reflexivity). rewrite MG in D. fold u in D.
    assert (TINY : 6 * eta <= u * s / 100).
    { assert (PS : bpow radix2 (-400) <= s). { unfold s. change (-400)%Z with (-200 + -200)%Z. rewrite bpow_plus. apply Rmult_le_compat; try apply bpow_ge_0; exact PR. }
      apply Rle_trans with (bpow radix2 (-460)).
      - apply Rle_trans with (8 * eta); [pose proof (bpow_gt_0 radix2 (-1075)); lra|]. change 8 with (bpow radix2 3). rewrite <- bpow_plus. apply bpow_le. lia.
      - apply Rle_trans with (bpow radix2 (-7) * (u * bpow radix2 (-400))). { rewrite <- !bpow_plus. apply bpow_le. lia. }
        change (bpow radix2 (-7)) with (/ 128). assert (u * bpow radix2 (-400) <= u * s) by (apply Rmult_le_compat_l; lra). pose proof (bpow_gt_0 radix2 (-400)). nra. }
    pose proof (bpow_gt_0 radix2 (-1075)) as E0. set (c := B2R (fdot n n)) in *. assert (S0 : 0 < s) by (unfold s; nra).
    assert (CS : Rabs (c - s) <= 2.01 * u * s + 3.25 * u * (1.01 * s) + 6 * eta).
    { apply Rabs_le_inv in SN. assert (U1 : u * s <= / 1000 * s) by nra. assert (sn <= 1.01 * s) by lra. assert (u * sn <= u * (1.01 * s)) by (apply Rmult_le_compat_l; lra). apply Rabs_le. lra. }
    assert (C0 : 0 < c). { apply Rabs_le_inv in CS. assert (u * s <= / 1000 * s) by nra. lra. }
    destruct (sqrt_value (fdot n n) C0) as [FL VL]. fold c in VL. fold (flength n) in FL, VL. fold l in FL, VL.
    set (q := sqrt c) in *. assert (Q0 : 0 <= q) by apply sqrt_pos. assert (QQ : q * q = c) by (apply sqrt_sqrt; lra).
    assert (QL : bpow radix2 (-1000) <= Rabs q).
    { rewrite Rabs_pos_eq by exact Q0. apply Rle_trans with (bpow radix2 (-300)); [apply bpow_le; lia|]. apply Rnot_lt_le. intros H. assert (X : q * q < bpow radix2 (-300) * bpow radix2 (-300)) by (apply Rmult_le_0_lt_compat; assumption).
      rewrite <- bpow_plus, QQ in X. apply Rabs_le_inv in CS. assert (u * s <= / 1000 * s) by nra.
      assert (PS : bpow radix2 (-400) <= s). { unfold s. change (-400)%Z with (-200 + -200)%Z. rewrite bpow_plus. apply Rmult_le_compat; try apply bpow_ge_0; exact PR. }
      assert (Y : bpow radix2 (-300 + -300) <= / 2 * bpow radix2 (-400)). { change (/ 2) with (bpow radix2 (-1)). rewrite <- bpow_plus. apply bpow_le. lia. } lra. }
    pose proof (rnd_relative q QL) as RQ. rewrite <- VL, (Rabs_pos_eq q Q0) in RQ.
    destruct (length_arith u (6 * eta) L s c q (B2R l) (1 / B2R l) US PL eq_refl ltac:(lra) CS Q0 QQ RQ ltac:(replace (1 / B2R l - 1 / B2R l) with 0 by ring; rewrite Rabs_R0; apply Rmult_le_pos; [lra|apply Rabs_pos])) as (_ & L0 & L7 & _).
    (* the reciprocal *)
    assert (UP : L <= bpow radix2 210).
    { unfold L. apply Rsqr_incr_0_var; [|apply bpow_ge_0]. unfold Rsqr. fold L. fold s. rewrite SE, <- bpow_plus.
      assert (X : forall a b, rel u a b -> Rabs a <= bpow radix2 202 -> b * b <= bpow radix2 406).
      { intros a b R A. unfold rel in R. assert (T : Rabs b <= bpow radix2 203).
        { replace b with (- (a - b) + a) by ring. apply Rle_trans with (1 := Rabs_triang _ _). rewrite Rabs_Ropp. assert (Q : bpow radix2 203 = 2 * bpow radix2 202) by exact (double_pow 202).
          assert (Rabs b <= Rabs (a - b) + Rabs a). { replace b with (- (a - b) + a) at 1 by ring. apply Rle_trans with (1 := Rabs_triang _ _). rewrite Rabs_Ropp. lra. }
          pose proof (Rabs_pos b). assert (u * Rabs b <= / 1000 * Rabs b) by nra. lra. }
        change 406%Z with (203 + 203)%Z. rewrite bpow_plus. replace (b * b) with (Rabs b * Rabs b) by (rewrite <- Rabs_mult; apply Rabs_pos_eq; nra). apply Rmult_le_compat; auto using Rabs_pos. }
      pose proof (X _ _ E1 B1). pose proof (X _ _ E2 B2). pose proof (X _ _ E3 B3). assert (T : bpow radix2 (210 + 210) >= 4 * bpow radix2 406). { apply Rle_ge. change 4 with (bpow radix2 2). rewrite <- bpow_plus. apply bpow_le. lia. }
      pose proof (bpow_gt_0 radix2 406). lra. }
    assert (LL : / 2 * L <= B2R l <= 2 * L). { apply Rabs_le_inv in L7. assert (u * L <= / 1000 * L) by nra. lra. }
    assert (IB : bpow radix2 (-1000) <= Rabs (1 / B2R l) <= bpow radix2 201).
    { rewrite Rabs_pos_eq by (left; apply Rdiv_lt_0_compat; lra). unfold Rdiv. rewrite Rmult_1_l. split.
      - apply Rle_trans with (bpow radix2 (- (211))); [apply bpow_le; lia|]. rewrite bpow_opp. apply Rinv_le; [exact L0|]. assert (Q : bpow radix2 211 = 2 * bpow radix2 210) by exact (double_pow 210). lra.
      - replace (bpow radix2 201) with (/ bpow radix2 (-201)) by (rewrite <- bpow_opp; reflexivity). apply Rinv_le; [apply bpow_gt_0|]. unfold proper in PR. fold L in PR. assert (Q : bpow radix2 (-200) = 2 * bpow radix2 (-201)) by exact (double_pow (-201)). lra. }
    destruct one_value as [V1 O1]. destruct (div_fin b64_1 l 201 O1 ltac:(lra) ltac:(lia) ltac:(rewrite V1; apply IB)) as [FK VK]. fold k in FK, VK. rewrite V1 in VK.
    pose proof (rnd_relative _ (proj1 IB)) as RK. rewrite <- VK in RK.
    destruct (length_arith u (6 * eta) L s c q (B2R l) (B2R k) US PL eq_refl ltac:(lra) CS Q0 QQ RQ RK) as (_ & _ & _ & K9).
    repeat split; assumption.
  Qed.
  Lemma scaled (a : b64) b : is_finite a = true -> Rabs (B2R a) <= bpow radix2 202 -> rel u (B2R a) b -> moderate (b64_mul a k) /\ Rabs (B2R (b64_mul a k) - b / L) <= 12 * u * (Rabs b / L) + eta.
  Proof.
    intros FA BA RA. destruct square_near as (_ & _ & _ & _ & FK & K9). pose proof length_positive as PL. pose proof u_small as US.
    assert (KB : Rabs (B2R k) <= bpow radix2 201).
    { replace (B2R k) with ((B2R k * L - 1 + 1) / L) by (field; lra). unfold Rdiv. rewrite Rabs_mult, (Rabs_pos_eq (/ L)) by (left; now apply Rinv_0_lt_compat).
      apply Rabs_le_inv in K9. change 201%Z with (1 + 200)%Z. rewrite bpow_plus. change (bpow radix2 1) with 2. apply Rmult_le_compat; [apply Rabs_pos|left; now apply Rinv_0_lt_compat|apply Rabs_le; lra|].
      replace (bpow radix2 200) with (/ bpow radix2 (-200)) by (rewrite <- bpow_opp; reflexivity). apply Rinv_le; [apply bpow_gt_0|exact PR]. }
    assert (PB : Rabs (B2R a * B2R k) <= bpow radix2 403) by (rewrite Rabs_mult; change 403%Z with (202 + 201)%Z; rewrite bpow_plus; apply Rmult_le_compat; auto using Rabs_pos).
    destruct (mul_fin a k 403 FA FK ltac:(lia) PB) as [F V]. split.
    - split; [exact F|]. rewrite V. apply Rle_trans with (bpow radix2 403); [apply rnd_bound; [lia|exact PB]|apply bpow_le; lia].
    - apply (scale_arith u eta L (B2R k) (B2R a)); auto; [apply bpow_ge_0|]. rewrite V. apply Rabs_le. apply rnd_error. lra.
  Qed.

  (** The distance of a point from the plane is the opposite of the form at the mirrored point, up to the slack *)
  Variable alt : bool.
  Let p := ffrustum_plane alt r.
  Lemma plane_parts : p = mkFPlane (FV (b64_mul (fx n) k) (b64_mul (fy n) k) (b64_mul (fz n) k)) (b64_mul (fsign alt (Bopp (fw r))) k).
  Proof.
    destruct square_near as (_ & FL & L0 & _). unfold p, ffrustum_plane, fplane_normalize, fplane_4. cbn [fnormal fdistance]. fold n. fold l.
    replace (Bltb b64_0 l) with true; [reflexivity|]. symmetry. apply blt; [reflexivity|exact FL|exact L0].
  Qed.
  Lemma opp_near (a : b64) b : is_finite a = true -> Rabs (B2R a) <= bpow radix2 202 -> rel u (B2R a) b -> moderate (b64_mul (Bopp a) k) /\ Rabs (B2R (b64_mul (Bopp a) k) - - b / L) <= 12 * u * (Rabs b / L) + eta.
  Proof.
    intros FA BA RA. rewrite <- (Rabs_Ropp b). apply scaled; rewrite ?is_finite_Bopp, ?B2R_Bopp, ?Rabs_Ropp; auto. unfold rel in *. replace (- B2R a - - b) with (- (B2R a - b)) by ring. now rewrite !Rabs_Ropp.
  Qed.
  Lemma plane_near : moderate_plane p /\
    Rabs (vx (normal (exact_plane p)) - - vx (xyz e) / L) <= 12 * u * (Rabs (vx (xyz e)) / L) + eta /\
    Rabs (vy (normal (exact_plane p)) - - vy (xyz e) / L) <= 12 * u * (Rabs (vy (xyz e)) / L) + eta /\
    Rabs (vz (normal (exact_plane p)) - - vz (xyz e) / L) <= 12 * u * (Rabs (vz (xyz e)) / L) + eta /\
    Rabs (dsign alt (distance (exact_plane p)) - - w4 e / L) <= 12 * u * (Rabs (w4 e) / L) + eta.
  Proof.
    rewrite plane_parts. destruct (opp_near _ _ F1 B1 E1) as [M1 N1]. destruct (opp_near _ _ F2 B2 E2) as [M2 N2]. destruct (opp_near _ _ F3 B3 E3) as [M3 N3].
    unfold exact_plane, exact_vec, n. cbn [fx fy fz normal distance vx vy vz fnormal fdistance].
    assert (W : moderate (b64_mul (fsign alt (Bopp (fw r))) k) /\ Rabs (dsign alt (B2R (b64_mul (fsign alt (Bopp (fw r))) k)) - - w4 e / L) <= 12 * u * (Rabs (w4 e) / L) + eta).
    { destruct alt; cbn [fsign dsign].
      - assert (OO : Bopp (Bopp (fw r)) = fw r) by apply Bopp_involutive. rewrite OO. destruct (scaled _ _ F4 B4 E4) as [M N]. split; [exact M|].
        replace (- B2R (b64_mul (fw r) k) - - w4 e / L) with (- (B2R (b64_mul (fw r) k) - w4 e / L)) by (unfold Rdiv; ring). now rewrite Rabs_Ropp.
      - apply opp_near; auto. }
    destruct W as [M4 N4]. unfold moderate_plane, moderate_vec. cbn [fnormal fdistance fx fy fz]. repeat split; try assumption; (apply M1 || apply M2 || apply M3 || apply M4).
  Qed.
End Row.

(** Values of the plane against values of the form *)
Lemma side_arith v h K L e1 e2 e3 ew x1 x2 x3 n1 n2 n3 d : 0 < v <= / 1000 -> 0 < h -> 0 < L -> 1 <= K -> Rabs x1 <= K -> Rabs x2 <= K -> Rabs x3 <= K ->
  Rabs (n1 - - e1 / L) <= 12 * v * (Rabs e1 / L) + h -> Rabs (n2 - - e2 / L) <= 12 * v * (Rabs e2 / L) + h -> Rabs (n3 - - e3 / L) <= 12 * v * (Rabs e3 / L) + h -> Rabs (d - - ew / L) <= 12 * v * (Rabs ew / L) + h ->
  let m := Rabs (e1 * x1) + Rabs (e2 * x2) + Rabs (e3 * x3) + Rabs ew in
  Rabs (n1 * x1 + n2 * x2 + n3 * x3 - d - (e1 * - x1 + e2 * - x2 + e3 * - x3 + ew) / L) <= 12 * v * (m / L) + 4 * (h * K) /\
  Rabs (n1 * x1) + Rabs (n2 * x2) + Rabs (n3 * x3) + Rabs d <= 1.02 * (m / L) + 4 * (h * K).
Proof.
  intros V H PL KK X1 X2 X3 N1 N2 N3 D m. assert (IL : 0 < / L) by now apply Rinv_0_lt_compat.
  assert (T : forall n e x, Rabs x <= K -> Rabs (n - - e / L) <= 12 * v * (Rabs e / L) + h ->
    Rabs (n * x - - e * x / L) <= 12 * v * (Rabs (e * x) / L) + h * K /\ Rabs (n * x) <= 1.02 * (Rabs (e * x) / L) + h * K).
  { intros n e x X N. assert (E : Rabs (n * x - - e * x / L) <= 12 * v * (Rabs (e * x) / L) + h * K).
    { replace (n * x - - e * x / L) with ((n - - e / L) * x) by (field; lra). rewrite !Rabs_mult. pose proof (Rabs_pos x) as P.
      apply Rle_trans with ((12 * v * (Rabs e / L) + h) * Rabs x); [now apply Rmult_le_compat_r|]. replace (12 * v * (Rabs e * Rabs x / L)) with (12 * v * (Rabs e / L) * Rabs x) by (field; lra).
      assert (h * Rabs x <= h * K) by (apply Rmult_le_compat_l; lra). lra. }
    split; [exact E|]. replace (n * x) with (n * x - - e * x / L + - (e * x) / L) by (field; lra). apply Rle_trans with (1 := Rabs_triang _ _). unfold Rdiv at 2. rewrite Rabs_mult, Rabs_Ropp, (Rabs_pos_eq (/ L)) by lra. fold (Rabs (e * x) / L).
    assert (0 <= Rabs (e * x) / L) by (apply Rmult_le_pos; [apply Rabs_pos|lra]). assert (v * (Rabs (e * x) / L) <= / 1000 * (Rabs (e * x) / L)) by (apply Rmult_le_compat_r; lra). lra. }
  destruct (T _ _ _ X1 N1) as [A1 A2]. destruct (T _ _ _ X2 N2) as [C1 C2]. destruct (T _ _ _ X3 N3) as [D1 D2].
  destruct (T d ew 1 ltac:(rewrite Rabs_R1; lra) D) as [G1 G2]. rewrite (Rmult_1_r ew), ?(Rmult_1_r d), (Rmult_1_r (- ew)) in G1. rewrite (Rmult_1_r ew), (Rmult_1_r d) in G2.
  replace (m / L) with (Rabs (e1 * x1) / L + Rabs (e2 * x2) / L + Rabs (e3 * x3) / L + Rabs ew / L) by (unfold m; field; lra). split; [|lra].
  replace (n1 * x1 + n2 * x2 + n3 * x3 - d - (e1 * - x1 + e2 * - x2 + e3 * - x3 + ew) / L) with ((n1 * x1 - - e1 * x1 / L) + (n2 * x2 - - e2 * x2 / L) + (n3 * x3 - - e3 * x3 / L) - (d - - ew / L)) by (field; lra).
  apply Rabs_le_inv in A1. apply Rabs_le_inv in C1. apply Rabs_le_inv in D1. apply Rabs_le_inv in G1. apply Rabs_le. revert A1 C1 D1 G1.
  generalize (n1 * x1 - - e1 * x1 / L) (n2 * x2 - - e2 * x2 / L) (n3 * x3 - - e3 * x3 / L) (d - - ew / L) (Rabs (e1 * x1) / L) (Rabs (e2 * x2) / L) (Rabs (e3 * x3) / L) (Rabs ew / L). intros. lra.
Qed.

(** A row of numbers that is a row [e] up to one rounding *)
Definition near_row (r : frow) (e : vec4) : Prop :=
  (is_finite (fx (fxyz r)) = true /\ is_finite (fy (fxyz r)) = true /\ is_finite (fz (fxyz r)) = true /\ is_finite (fw r) = true) /\
  (Rabs (B2R (fx (fxyz r))) <= bpow radix2 202 /\ Rabs (B2R (fy (fxyz r))) <= bpow radix2 202 /\ Rabs (B2R (fz (fxyz r))) <= bpow radix2 202 /\ Rabs (B2R (fw r)) <= bpow radix2 202) /\
  rel u (B2R (fx (fxyz r))) (vx (xyz e)) /\ rel u (B2R (fy (fxyz r))) (vy (xyz e)) /\ rel u (B2R (fz (fxyz r))) (vz (xyz e)) /\ rel u (B2R (fw r)) (w4 e).
Lemma form_side alt r e x : near_row r e -> proper e -> moderate_vec x ->
  let p := ffrustum_plane alt r in
  moderate_plane p /\ Rabs (side alt (exact_plane p) (exact_vec x) - clip e (vopp (exact_vec x)) / len (xyz e)) + slack (exact_plane p) (exact_vec x) <= blur e (exact_vec x) / len (xyz e).
Proof.
  intros ((F1 & F2 & F3 & F4) & (B1 & B2 & B3 & B4) & E1 & E2 & E3 & E4) PR X p. pose proof (length_positive e PR) as PL. pose proof u_small as US. pose proof (bpow_gt_0 radix2 (-1075)) as H0.
  destruct (plane_near r e F1 F2 F3 F4 B1 B2 B3 B4 E1 E2 E3 E4 PR alt) as (M & N1 & N2 & N3 & N4). fold p in M, N1, N2, N3, N4. split; [exact M|].
  destruct X as ((_ & X1) & (_ & X2) & (_ & X3)). assert (K1 : 1 <= bpow radix2 500) by (change 1 with (bpow radix2 0); apply bpow_le; lia).
  destruct (side_arith u eta (bpow radix2 500) (len (xyz e)) (vx (xyz e)) (vy (xyz e)) (vz (xyz e)) (w4 e) (B2R (fx x)) (B2R (fy x)) (B2R (fz x)) _ _ _ _ US H0 PL K1 X1 X2 X3 N1 N2 N3 N4) as [S1 S2].
  set (m := Rabs (vx (xyz e) * B2R (fx x)) + Rabs (vy (xyz e) * B2R (fy x)) + Rabs (vz (xyz e) * B2R (fz x)) + Rabs (w4 e)) in *.
  assert (C1 : side alt (exact_plane p) (exact_vec x) - clip e (vopp (exact_vec x)) / len (xyz e) = vx (normal (exact_plane p)) * B2R (fx x) + vy (normal (exact_plane p)) * B2R (fy x) + vz (normal (exact_plane p)) * B2R (fz x) - dsign alt (distance (exact_plane p)) -
      (vx (xyz e) * - B2R (fx x) + vy (xyz e) * - B2R (fy x) + vz (xyz e) * - B2R (fz x) + w4 e) / len (xyz e)) by (rewrite side_dsign; reflexivity).
  rewrite C1. unfold slack, blur. replace (magnitude (xyz e) (exact_vec x) (w4 e)) with m by reflexivity.
  assert (MG : magnitude (normal (exact_plane p)) (exact_vec x) (distance (exact_plane p)) <= 1.02 * (m / len (xyz e)) + 4 * (eta * bpow radix2 500)).
  { unfold magnitude. rewrite <- (dsign_abs alt (distance (exact_plane p))). exact S2. }
  assert (TINY : 8 * (eta * bpow radix2 500) + bpow radix2 (-1070) <= bpow radix2 (-500)).
  { assert (T1 : 8 * (eta * bpow radix2 500) <= bpow radix2 (-501)) by (change 8 with (bpow radix2 3); rewrite <- !bpow_plus; apply bpow_le; lia). assert (T2 : bpow radix2 (-1070) <= bpow radix2 (-501)) by (apply bpow_le; lia).
    assert (Q : bpow radix2 (-500) = 2 * bpow radix2 (-501)) by exact (double_pow (-501)). lra. }
  assert (M0 : 0 <= m / len (xyz e)).
  { apply Rmult_le_pos; [|left; now apply Rinv_0_lt_compat]. unfold m. pose proof (Rabs_pos (vx (xyz e) * B2R (fx x))). pose proof (Rabs_pos (vy (xyz e) * B2R (fy x))). pose proof (Rabs_pos (vz (xyz e) * B2R (fz x))). pose proof (Rabs_pos (w4 e)). lra. }
  replace ((bpow radix2 (-48) * m + bpow radix2 (-500) * len (xyz e)) / len (xyz e)) with (bpow radix2 (-48) * (m / len (xyz e)) + bpow radix2 (-500)) by (field; lra).
  assert (EV : bpow radix2 (-50) = 8 * u) by (change (-50)%Z with (3 + -53)%Z; rewrite bpow_plus; reflexivity). assert (EW : bpow radix2 (-48) = 32 * u) by (change (-48)%Z with (5 + -53)%Z; rewrite bpow_plus; reflexivity).
  rewrite EV, EW. set (q := m / len (xyz e)) in *. set (g := eta * bpow radix2 500) in *. assert (G0 : 0 <= g) by (apply Rmult_le_pos; apply bpow_ge_0).
  assert (X : 8 * u * magnitude (normal (exact_plane p)) (exact_vec x) (distance (exact_plane p)) <= 8 * u * (1.02 * q + 4 * g)) by (apply Rmult_le_compat_l; lra).
  assert (0 <= u * q) by (apply Rmult_le_pos; lra). assert (u * g <= / 1000 * g) by (apply Rmult_le_compat_r; lra). lra.
Qed.
(** The computed rows *)
Lemma mild_near r : mild_row r -> near_row r (exact_row r).
Proof.
  intros ((F1 & B1) & (F2 & B2) & (F3 & B3) & (F4 & B4)). assert (W : bpow radix2 200 <= bpow radix2 202) by (apply bpow_le; lia).
  assert (Z : forall x, rel u x x) by (intros x; unfold rel; replace (x - x) with 0 by ring; rewrite Rabs_R0; apply Rmult_le_pos; [apply bpow_ge_0|apply Rabs_pos]).
  unfold near_row, exact_row, exact_vec. cbn [xyz w4 vx vy vz]. repeat split; auto; eapply Rle_trans; eauto.
Qed.
Lemma sum_relative (x y : R) : generic_format radix2 f64 x -> generic_format radix2 f64 y -> rel u (rnd (x + y)) (x + y).
Proof.
  intros X Y. unfold rel. destruct (@FLT_plus_error_N_ex radix2 (3 - 1024 - 53) 53 b64_prec_gt_0 (fun x => negb (Z.even x)) x y X Y) as (e & E & R).
  change (round radix2 (FLT_exp (3 - 1024 - 53) 53) (Znearest (fun x => negb (Z.even x))) (x + y)) with (rnd (x + y)) in R. rewrite R. replace ((x + y) * (1 + e) - (x + y)) with (e * (x + y)) by ring.
  rewrite Rabs_mult. apply Rmult_le_compat_r; [apply Rabs_pos|]. apply Rle_trans with (1 := E).
  assert (U : u_ro radix2 53 = u). { unfold u_ro. change (- (53) + 1)%Z with (1 + -53)%Z. rewrite bpow_plus. change (bpow radix2 1) with 2. field. }
  rewrite U. pose proof u_small as P. apply Rmult_le_reg_r with (1 + u); [lra|]. unfold Rdiv. rewrite Rmult_assoc, Rinv_l by lra. nra.
Qed.
Lemma mild_sum (a b : b64) : mild a -> mild b -> Rabs (B2R a + B2R b) <= bpow radix2 202 /\ Rabs (B2R a - B2R b) <= bpow radix2 202.
Proof.
  intros [_ A] [_ B]. assert (Q : 4 * bpow radix2 200 = bpow radix2 202) by (change 4 with (bpow radix2 2); now rewrite <- bpow_plus). pose proof (bpow_gt_0 radix2 200). split.
  - apply Rle_trans with (1 := Rabs_triang _ _). lra.
  - unfold Rminus. apply Rle_trans with (1 := Rabs_triang _ _). rewrite Rabs_Ropp. lra.
Qed.
Lemma add_near (a b : b64) : mild a -> mild b -> is_finite (b64_add a b) = true /\ Rabs (B2R (b64_add a b)) <= bpow radix2 202 /\ rel u (B2R (b64_add a b)) (B2R a + B2R b).
Proof.
  intros A B. destruct (mild_sum a b A B) as [S _]. destruct (add_fin a b 202 (proj1 A) (proj1 B) ltac:(lia) S) as [F V]. split; [exact F|]. rewrite V. split; [apply rnd_bound; [lia|exact S]|]. apply sum_relative; apply generic_format_B2R.
Qed.
Lemma sub_near (a b : b64) : mild a -> mild b -> is_finite (b64_sub a b) = true /\ Rabs (B2R (b64_sub a b)) <= bpow radix2 202 /\ rel u (B2R (b64_sub a b)) (B2R a - B2R b).
Proof.
  intros A B. destruct (mild_sum a b A B) as [_ S]. destruct (sub_fin a b 202 (proj1 A) (proj1 B) ltac:(lia) S) as [F V]. split; [exact F|]. rewrite V. split; [apply rnd_bound; [lia|exact S]|]. apply sum_relative; [|apply generic_format_opp]; apply generic_format_B2R.
Qed.
Lemma add_row a b : mild_row a -> mild_row b -> near_row (frow_op b64_add a b) (V4 (V3 (vx (xyz (exact_row a)) + vx (xyz (exact_row b))) (vy (xyz (exact_row a)) + vy (xyz (exact_row b))) (vz (xyz (exact_row a)) + vz (xyz (exact_row b)))) (w4 (exact_row a) + w4 (exact_row b))).
Proof.
  intros (A1 & A2 & A3 & A4) (B1 & B2 & B3 & B4). destruct (add_near _ _ A1 B1) as (X1 & Y1 & Z1). destruct (add_near _ _ A2 B2) as (X2 & Y2 & Z2). destruct (add_near _ _ A3 B3) as (X3 & Y3 & Z3). destruct (add_near _ _ A4 B4) as (X4 & Y4 & Z4).
  unfold near_row, frow_op, exact_row, exact_vec. cbn [fxyz fw fx fy fz xyz w4 vx vy vz]. repeat split; assumption.
Qed.
Lemma sub_row a b : mild_row a -> mild_row b -> near_row (frow_op b64_sub a b) (V4 (V3 (vx (xyz (exact_row a)) - vx (xyz (exact_row b))) (vy (xyz (exact_row a)) - vy (xyz (exact_row b))) (vz (xyz (exact_row a)) - vz (xyz (exact_row b)))) (w4 (exact_row a) - w4 (exact_row b))).
Proof.
  intros (A1 & A2 & A3 & A4) (B1 & B2 & B3 & B4). destruct (sub_near _ _ A1 B1) as (X1 & Y1 & Z1). destruct (sub_near _ _ A2 B2) as (X2 & Y2 & Z2). destruct (sub_near _ _ A3 B3) as (X3 & Y3 & Z3). destruct (sub_near _ _ A4 B4) as (X4 & Y4 & Z4).
  unfold near_row, frow_op, exact_row, exact_vec. cbn [fxyz fw fx fy fz xyz w4 vx vy vz]. repeat split; assumption.
Qed.
Definition is_near (p : fplane) (alt : bool) (e : vec4) : Prop := exists r, p = ffrustum_plane alt r /\ near_row r e /\ proper e.
Lemma frustum_near alt m : good_mat m -> Forall2 (fun p e => is_near p alt e) (ffrustum alt m) (forms (exact_mat m)).
Proof.
  intros (M0 & M1 & M2 & M3 & P). unfold ffrustum, forms in *. cbv zeta in *. cbn [map exact_mat m0 m1 m2 m3] in *. rewrite !Forall_cons_iff in P. destruct P as (P1 & P2 & P3 & P4 & P5 & P6 & _).
  repeat constructor; eexists; (split; [reflexivity|split; [|eassumption]]); [now apply mild_near|now apply add_row|now apply sub_row|now apply sub_row|now apply add_row|now apply sub_row].
Qed.
Lemma point_near alt ps es x : Forall2 (fun p e => is_near p alt e) ps es -> moderate_vec x ->
  if fhull_point alt ps x then forall e, In e es -> clip e (vopp (exact_vec x)) < blur e (exact_vec x) else exists e, In e es /\ - blur e (exact_vec x) < clip e (vopp (exact_vec x)).
Proof.
  intros F X. induction F as [|p e ps es (r & -> & NR & PR) F IH]; [intros e []|]. cbn [fhull_point]. destruct (form_side alt r e x NR PR X) as [M S]. pose proof (length_positive e PR) as PL.
  pose proof (front_error alt _ x M X) as FE. cbv zeta in FE. set (s := side alt (exact_plane (ffrustum_plane alt r)) (exact_vec x)) in *. set (sl := slack _ _) in *. set (c := clip e (vopp (exact_vec x))) in *.
  assert (CL : forall b, (c / len (xyz e)) * len (xyz e) = c /\ (b / len (xyz e)) * len (xyz e) = b) by (intros; split; field; lra). destruct (CL (blur e (exact_vec x))) as [C1 C2].
  pose proof (Rle_abs (s - c / len (xyz e))) as A1. pose proof (Rle_abs (- (s - c / len (xyz e)))) as A2. rewrite Rabs_Ropp in A2.
  destruct (fis_front _ _ _).
  - exists e. split; [left; reflexivity|]. fold c. assert (- (blur e (exact_vec x) / len (xyz e)) < c / len (xyz e)) by lra. nra.
  - destruct (fhull_point alt ps x).
    + intros e' [<-|I]; [|now apply IH]. fold c. assert (c / len (xyz e) < blur e (exact_vec x) / len (xyz e)) by lra. nra.
    + destruct IH as (e' & I & H). exists e'. split; [now right|exact H].
Qed.
Lemma sphere_near alt ps es x (t : b64) : Forall2 (fun p e => is_near p alt e) ps es -> moderate_vec x -> is_finite t = true ->
  if fhull_sphere alt ps x t then forall e, In e es -> clip e (vopp (exact_vec x)) <= len (xyz e) * B2R t + blur e (exact_vec x) else exists e, In e es /\ len (xyz e) * B2R t - blur e (exact_vec x) < clip e (vopp (exact_vec x)).
Proof.
  intros F X T. induction F as [|p e ps es (r & -> & NR & PR) F IH]; [intros e []|]. cbn [fhull_sphere]. destruct (form_side alt r e x NR PR X) as [M S]. pose proof (length_positive e PR) as PL.
  destruct (distance_error alt _ x M X) as [FD FE]. set (s := side alt (exact_plane (ffrustum_plane alt r)) (exact_vec x)) in *. set (sl := slack _ _) in *. set (c := clip e (vopp (exact_vec x))) in *.
  assert (CL : forall b, (c / len (xyz e)) * len (xyz e) = c /\ (b / len (xyz e)) * len (xyz e) = b) by (intros; split; field; lra). destruct (CL (blur e (exact_vec x))) as [C1 C2].
  pose proof (Rle_abs (s - c / len (xyz e))) as A1. pose proof (Rle_abs (- (s - c / len (xyz e)))) as A2. rewrite Rabs_Ropp in A2.
  destruct (Bltb t _) eqn:B; [apply blt in B; auto|apply blt_false in B; auto].
  - exists e. split; [left; reflexivity|]. fold c. assert (B2R t - blur e (exact_vec x) / len (xyz e) < c / len (xyz e)) by lra. nra.
  - destruct (fhull_sphere alt ps x t).
    + intros e' [<-|I]; [|now apply IH]. fold c. assert (c / len (xyz e) <= B2R t + blur e (exact_vec x) / len (xyz e)) by lra. nra.
    + destruct IH as (e' & I & H). exists e'. split; [now right|exact H].
Qed.

(** Lengths of normals *)
Lemma len_components a : Rabs (vx a) <= len a /\ Rabs (vy a) <= len a /\ Rabs (vz a) <= len a /\ len a <= Rabs (vx a) + Rabs (vy a) + Rabs (vz a).
Proof.
  pose proof (len_ge a) as L0. pose proof (len_sqr a) as LS. unfold dot in LS. assert (K : forall x, x * x <= len a * len a -> Rabs x <= len a).
  { intros x H. apply Rsqr_incr_0_var; [|exact L0]. unfold Rsqr. replace (Rabs x * Rabs x) with (x * x); [exact H|]. rewrite <- Rabs_mult. symmetry. apply Rabs_pos_eq. nra. }
  repeat split; try (apply K; nra). pose proof (Rabs_pos (vx a)). pose proof (Rabs_pos (vy a)). pose proof (Rabs_pos (vz a)). apply Rsqr_incr_0_var; [|lra]. unfold Rsqr. rewrite LS.
  assert (S : forall x, Rabs x * Rabs x = x * x) by (intros x; rewrite <- Rabs_mult; apply Rabs_pos_eq; nra). rewrite <- (S (vx a)), <- (S (vy a)), <- (S (vz a)). nra.
Qed.
Lemma len_sub_abs a b : Rabs (len a - len b) <= len (vsub a b).
Proof.
  pose proof (len_ge a). pose proof (len_ge b). pose proof (len_ge (vsub a b)). pose proof (len_sqr a) as A. pose proof (len_sqr b) as B. pose proof (len_sqr (vsub a b)) as C. pose proof (cauchy_le a b) as D.
  assert (E : dot (vsub a b) (vsub a b) = dot a a - 2 * dot a b + dot b b) by (unfold dot, vsub; cbn; ring). rewrite E in C.
  apply Rsqr_incr_0_var; [|assumption]. unfold Rsqr. replace (Rabs (len a - len b) * Rabs (len a - len b)) with ((len a - len b) * (len a - len b)); [rewrite C, <- A, <- B; lra|]. rewrite <- Rabs_mult. symmetry. apply Rabs_pos_eq. apply Rle_0_sqr.
Qed.
Lemma unit_near n e : 0 < len e -> Rabs (vx n - - vx e / len e) <= 12 * u * (Rabs (vx e) / len e) + eta -> Rabs (vy n - - vy e / len e) <= 12 * u * (Rabs (vy e) / len e) + eta -> Rabs (vz n - - vz e / len e) <= 12 * u * (Rabs (vz e) / len e) + eta ->
  Rabs (len n - 1) <= bpow radix2 (-47).
Proof.
  intros P X Y Z. set (q := V3 (- vx e / len e) (- vy e / len e) (- vz e / len e)). assert (Q1 : len q = 1).
  { unfold q. replace (V3 _ _ _) with (vscale (- / len e) e) by (unfold vscale, Rdiv; f_equal; ring). assert (S : len (vscale (- / len e) e) * len (vscale (- / len e) e) = 1).
    { rewrite len_sqr. replace (dot (vscale (- / len e) e) (vscale (- / len e) e)) with (/ len e * / len e * dot e e) by (unfold dot, vscale; cbn; ring). rewrite <- len_sqr. field. lra. }
    pose proof (len_ge (vscale (- / len e) e)). nra. }
  rewrite <- Q1. apply Rle_trans with (1 := len_sub_abs n q). destruct (len_components (vsub n q)) as (_ & _ & _ & S). apply Rle_trans with (1 := S).
  change (Rabs (vx n - - vx e / len e) + Rabs (vy n - - vy e / len e) + Rabs (vz n - - vz e / len e) <= bpow radix2 (-47)).
  destruct (len_components e) as (C1 & C2 & C3 & _). assert (I : forall x, Rabs x <= len e -> 12 * u * (Rabs x / len e) <= 12 * u).
  { intros x H. assert (Rabs x / len e <= 1) by (apply Rmult_le_reg_r with (len e); [exact P|]; unfold Rdiv; rewrite Rmult_assoc, Rinv_l, Rmult_1_r, Rmult_1_l by lra; exact H). pose proof u_small. assert (12 * u * (Rabs x / len e) <= 12 * u * 1) by (apply Rmult_le_compat_l; lra). lra. }
  pose proof (I _ C1). pose proof (I _ C2). pose proof (I _ C3). assert (EW : bpow radix2 (-47) = 64 * u) by (change (-47)%Z with (6 + -53)%Z; rewrite bpow_plus; reflexivity). rewrite EW.
  assert (eta <= u) by (apply bpow_le; lia). pose proof u_small. lra.
Qed.

(** Integers of either sign *)
Lemma b64_integer n : (Z.abs n <= 2 ^ 53)%Z -> B2R (b64_of_Z n) = IZR n /\ is_finite (b64_of_Z n) = true.
Proof.
  intros H. destruct (Z.eq_dec n 0) as [->|N]; [now split|]. destruct (Z_lt_le_dec n 0) as [L|L]; [|apply b64_int; lia].
  assert (V := valid64). assert (C := binary_normalize_correct 53 1024 b64_prec_gt_0 b64_prec_lt_emax mode_NE n 0 false). cbv zeta in C.
  change (SpecFloat.fexp 53 1024) with f64 in C. cbn [round_mode] in C.
  replace (F2R (Float radix2 n 0)) with (IZR n) in C by (unfold F2R; cbn; ring).
  assert (G : generic_format radix2 f64 (IZR n)) by (replace (IZR n) with (- IZR (- n)) by (rewrite opp_IZR; ring); apply generic_format_opp, format_int; lia).
  rewrite (round_generic radix2 f64 ZnearestE (IZR n) G) in C.
  rewrite Rlt_bool_true in C.
  - unfold b64_of_Z. tauto.
  - replace (Rabs (IZR n)) with (IZR (- n)) by (rewrite opp_IZR, Rabs_left; [reflexivity|apply IZR_lt; lia]). apply int_small. lia.
Qed.
