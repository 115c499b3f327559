(** The closest point on a segment in double precision. *)
From Coq Require Import ZArith Reals List Bool Arith Lia Lra Psatz.
From Flocq Require Import Core IEEE754.BinarySingleNaN.
From Verif Require Import Model.Scalar Model.Vec Model.BoxFloat Model.PlaneFloat Model.Plane Model.Coll Model.ClipFloat Model.FrustumFloat Model.TriFloat Model.BezierFloat Model.LineFloat.
From Verif Require Import Spec.FloatSpec Spec.FrustumFloatSpec Spec.TriFloatSpec Spec.UniformSplineFloatSpec Spec.SplineSpec.
From Verif Require Import Proofs.VecLemmas Proofs.PlaneFloatLemmas Proofs.SplineFloat Proofs.BoxRayFloatLemmas Proofs.ClipFloatLemmas Proofs.FrustumFloatLemmas Proofs.MeshFloatLemmas Proofs.TriFloatLemmas Proofs.SphereFloatLemmas Proofs.UniformSplineFloatEval.
Local Open Scope R_scope.

Definition clamp (f L : R) : R := Rmax 0 (Rmin f L).
Lemma clamp_cases f L : 0 < L -> (f < 0 /\ clamp f L = 0) \/ (0 <= f <= L /\ clamp f L = f) \/ (L < f /\ clamp f L = L).
Proof. intros H. unfold clamp, Rmax, Rmin. repeat destruct (Rle_dec _ _); lra. Qed.
Lemma exact_closest A B X : let E := vsub B A in let L := len E in let f := dot (vscale (/ L) E) (vsub X A) in 0 < L ->
  closest_on_line (mkLine A B) X = Some (vadd A (vscale (clamp f L / L) E)).
Proof.
  intros E L f H. unfold closest_on_line, line_direction. cbn [la lb]. fold E. fold L. replace (1 / L) with (/ L) by (field; lra). fold f.
  destruct (Reqb L 0) eqn:E0; [apply Reqb_iff in E0; lra|]. destruct (clamp_cases f L H) as [[C ->]|[[C ->]|[C ->]]].
  - rewrite (proj2 (Rltb_iff _ _) C). f_equal. apply vec3_ext; cbn; unfold Rdiv; ring.
  - rewrite (proj2 (Rltb_false _ _)) by lra. rewrite (proj2 (Rltb_false _ _)) by lra. f_equal. apply vec3_ext; cbn; unfold Rdiv; ring.
  - rewrite (proj2 (Rltb_false _ _)) by lra. rewrite (proj2 (Rltb_iff _ _) C). f_equal. apply vec3_ext; unfold E; cbn; field; lra.
Qed.

(** one term of the scalar product *)
Lemma term_near v h n D q P : 0 < v <= / 1000000 -> 0 <= h -> Rabs (n - D) <= 12 * v * Rabs D + h -> rel v q P ->
  Rabs (n * q - D * P) <= 13.1 * v * Rabs (D * P) + 1.1 * (h * Rabs P) /\ Rabs (n * q) <= 1.001 * Rabs (D * P) + 1.1 * (h * Rabs P).
Proof.
  intros V H A Bq. unfold rel in Bq. set (a := n - D) in *. set (b := q - P) in *. assert (PD := Rabs_pos D). assert (PP := Rabs_pos P). rewrite Rabs_mult. set (X := Rabs D) in *. set (Y := Rabs P) in *.
  assert (K : Rabs (n * q - D * P) <= X * (v * Y) + (12 * v * X + h) * (Y * (1 + v))).
  { replace (n * q - D * P) with (D * b + a * (P + b)) by (unfold a, b; ring). apply Rle_trans with (1 := Rabs_triang _ _). rewrite !Rabs_mult. fold X. apply Rplus_le_compat.
    - apply Rmult_le_compat_l; assumption.
    - apply Rmult_le_compat; auto using Rabs_pos. apply Rle_trans with (1 := Rabs_triang _ _). fold Y. lra. }
  assert (XY : 0 <= X * Y) by (apply Rmult_le_pos; assumption). assert (HY : 0 <= h * Y) by (apply Rmult_le_pos; assumption).
  assert (VXY : 0 <= v * (X * Y) <= / 1000000 * (X * Y)) by (split; [apply Rmult_le_pos; lra|apply Rmult_le_compat_r; lra]).
  assert (VVXY : v * (v * (X * Y)) <= / 1000000 * (v * (X * Y))) by (apply Rmult_le_compat_r; lra). assert (VHY : v * (h * Y) <= / 1000000 * (h * Y)) by (apply Rmult_le_compat_r; lra).
  assert (K1 : Rabs (n * q - D * P) <= 13.1 * v * (X * Y) + 1.1 * (h * Y)) by (apply Rle_trans with (1 := K); lra).
  split; [exact K1|]. replace (n * q) with (n * q - D * P + D * P) by ring. apply Rle_trans with (1 := Rabs_triang _ _). rewrite (Rabs_mult D P). fold X Y. lra.
Qed.

Section Segment.
Variable M : R.
Variables a b x : fvec.
Hypothesis Top : M <= bpow radix2 200.
Hypothesis Wa : point_within M a.
Hypothesis Wb : point_within M b.
Hypothesis Wx : point_within M x.
Let A := exact_vec a.
Let E := vsub (exact_vec b) A.
Let L := len E.
Let P := vsub (exact_vec x) A.
Hypothesis Long : bpow radix2 (-200) <= L.
Let dir := fminus b a.
Let pos := fminus x a.
Let l := flength dir.
Let k := b64_div b64_1 l.
Let n := fweigh dir k.
Let f := fdot n pos.
Let F := dot (vscale (/ L) E) P.
Lemma within_mild v : point_within M v -> mild_vec v.
Proof. intros ((F1 & B1) & (F2 & B2) & (F3 & B3)). repeat split; try assumption; lra. Qed.
Lemma difference_small v : point_within M v -> Rabs (vx (exact_vec v) - vx A) <= 2 * M /\ Rabs (vy (exact_vec v) - vy A) <= 2 * M /\ Rabs (vz (exact_vec v) - vz A) <= 2 * M.
Proof.
  intros ((_ & B1) & (_ & B2) & (_ & B3)). destruct Wa as ((_ & A1) & (_ & A2) & (_ & A3)). unfold A, exact_vec. cbn [vx vy vz].
  assert (K : forall s t, Rabs s <= M -> Rabs t <= M -> Rabs (s - t) <= 2 * M) by (intros s t S T; unfold Rminus; apply Rle_trans with (1 := Rabs_triang _ _); rewrite Rabs_Ropp; lra).
  auto.
Qed.
Lemma length_small v : point_within M v -> len (vsub (exact_vec v) A) <= 3.4642 * M.
Proof.
  intros W. destruct (difference_small v W) as (D1 & D2 & D3). set (d := vsub (exact_vec v) A). assert (M0 : 0 <= M) by (assert (Q := Rabs_pos (vx (exact_vec v) - vx A)); lra).
  apply Rsqr_incr_0_var; [|lra]. unfold Rsqr. rewrite len_sqr. unfold d, dot, vsub. cbn [vx vy vz].
  assert (K : forall s, Rabs s <= 2 * M -> s * s <= 4 * (M * M)). { intros s S. apply Rabs_le_inv in S. nra. }
  assert (K1 := K _ D1). assert (K2 := K _ D2). assert (K3 := K _ D3). assert (0 <= M * M) by nra. lra.
Qed.
Lemma M_low : bpow radix2 (-202) <= M.
Proof. assert (Q := length_small b Wb). fold E in Q. fold L in Q. assert (T : bpow radix2 (-200) = 4 * bpow radix2 (-202)) by (change 4 with (bpow radix2 2); rewrite <- bpow_plus; reflexivity). assert (0 < bpow radix2 (-202)) by apply bpow_gt_0. lra. Qed.
Lemma eta_M : eta <= / 1000000 * (u * M).
Proof.
  apply Rle_trans with (bpow radix2 (-20) * (u * bpow radix2 (-202))); [rewrite <- !bpow_plus; apply bpow_le; lia|]. assert (U0 : 0 < u) by apply bpow_gt_0. assert (Q := M_low). assert (B0 : 0 < bpow radix2 (-202)) by apply bpow_gt_0.
  apply Rmult_le_compat; [apply bpow_ge_0|apply Rmult_le_pos; lra|change (bpow radix2 (-20)) with (/ 1048576); lra|apply Rmult_le_compat_l; lra].
Qed.
Lemma L_pos : 0 < L.
Proof. apply Rlt_le_trans with (2 := Long). apply bpow_gt_0. Qed.
Lemma dir_close : close_vec dir E.
Proof. apply minus_close; apply within_mild; assumption. Qed.
Lemma pos_close : close_vec pos P.
Proof. apply minus_close; apply within_mild; assumption. Qed.
Lemma dir_parts : is_finite l = true /\ Rabs (B2R l - L) <= 7 * u * L /\
  (forall (c : b64) y, is_finite c = true -> Rabs (B2R c) <= bpow radix2 202 -> rel u (B2R c) y -> moderate (b64_mul c k) /\ Rabs (B2R (b64_mul c k) - y / L) <= 12 * u * (Rabs y / L) + eta).
Proof.
  destruct dir_close as ((F1 & B1 & _ & R1) & (F2 & B2 & _ & R2) & (F3 & B3 & _ & R3)).
  set (r := FRow (FV (Bopp (fx dir)) (Bopp (fy dir)) (Bopp (fz dir))) b64_0). set (e := V4 (vopp E) 0).
  assert (N : FV (Bopp (fx (fxyz r))) (Bopp (fy (fxyz r))) (Bopp (fz (fxyz r))) = dir) by (unfold r; cbn [fxyz fx fy fz]; rewrite !Bopp_involutive; destruct dir; reflexivity).
  assert (LE : len (xyz e) = L) by (unfold e, L, len, dot, vopp; cbn [xyz vx vy vz]; f_equal; ring).
  assert (O : forall (c : b64) y, rel u (B2R c) y -> rel u (B2R (Bopp c)) (- y)). { intros c y R. unfold rel in *. rewrite B2R_Bopp. replace (- B2R c - - y) with (- (B2R c - y)) by ring. now rewrite !Rabs_Ropp. }
  assert (G1 : is_finite (fx (fxyz r)) = true) by (cbn; rewrite is_finite_Bopp; exact F1). assert (G2 : is_finite (fy (fxyz r)) = true) by (cbn; rewrite is_finite_Bopp; exact F2). assert (G3 : is_finite (fz (fxyz r)) = true) by (cbn; rewrite is_finite_Bopp; exact F3).
  assert (C1 : Rabs (B2R (fx (fxyz r))) <= bpow radix2 202) by (cbn [r fxyz fx]; rewrite B2R_Bopp, Rabs_Ropp; exact B1). assert (C2 : Rabs (B2R (fy (fxyz r))) <= bpow radix2 202) by (cbn [r fxyz fy]; rewrite B2R_Bopp, Rabs_Ropp; exact B2). assert (C3 : Rabs (B2R (fz (fxyz r))) <= bpow radix2 202) by (cbn [r fxyz fz]; rewrite B2R_Bopp, Rabs_Ropp; exact B3).
  assert (E1 : rel u (B2R (fx (fxyz r))) (vx (xyz e))) by (apply O; exact R1). assert (E2 : rel u (B2R (fy (fxyz r))) (vy (xyz e))) by (apply O; exact R2). assert (E3 : rel u (B2R (fz (fxyz r))) (vz (xyz e))) by (apply O; exact R3).
  assert (PR : proper e) by (unfold proper; rewrite LE; exact Long).
  destruct (square_near r e G1 G2 G3 C1 C2 C3 E1 E2 E3 PR) as (_ & FL & _ & LL & _). assert (SC := scaled r e G1 G2 G3 C1 C2 C3 E1 E2 E3 PR). rewrite LE in *. rewrite N in *. fold l in FL, LL, SC. fold k in SC.
  split; [exact FL|]. split; [exact LL|]. exact SC.
Qed.
Lemma unit_direction : len (vscale (/ L) E) = 1.
Proof. assert (L0 := L_pos). unfold len. replace (dot (vscale (/ L) E) (vscale (/ L) E)) with (/ L * / L * (L * L)). - replace (/ L * / L * (L * L)) with 1 by (field; lra). apply sqrt_1. - unfold L at 3 4. rewrite len_sqr. unfold dot, vscale. cbn. ring. Qed.
Lemma factor_near : is_finite f = true /\ Rabs (B2R f - F) <= 57 * (u * M).
Proof.
  destruct dir_close as ((F1 & B1 & _ & R1) & (F2 & B2 & _ & R2) & (F3 & B3 & _ & R3)). destruct pos_close as ((G1 & C1 & _ & Q1) & (G2 & C2 & _ & Q2) & (G3 & C3 & _ & Q3)).
  destruct dir_parts as (_ & _ & SC). destruct (SC _ _ F1 B1 R1) as [N1 D1]. destruct (SC _ _ F2 B2 R2) as [N2 D2]. destruct (SC _ _ F3 B3 R3) as [N3 D3].
  assert (L0 := L_pos). assert (V := v_small). assert (H := eta_small). assert (HM := eta_M). assert (E0 : 0 < eta) by apply bpow_gt_0.
  assert (M0 : 0 < M) by (apply Rlt_le_trans with (2 := M_low); apply bpow_gt_0). assert (UM : 0 < u * M) by (apply Rmult_lt_0_compat; [apply bpow_gt_0|exact M0]).
  destruct (difference_small x Wx) as (P1 & P2 & P3). fold P in P1, P2, P3.
  assert (W500 : forall c, Rabs c <= bpow radix2 202 -> Rabs c <= bpow radix2 500) by (intros c Hc; apply Rle_trans with (1 := Hc); apply bpow_le; lia).
  assert (MN : moderate_vec n) by (repeat split; try apply N1; try apply N2; try apply N3). assert (MP : moderate_vec pos) by (repeat split; try assumption; apply W500; assumption).
  destruct (dot_error n pos MN MP) as (FD & _ & e & He & D). fold f in FD, D. split; [exact FD|].
  assert (AL : forall y, Rabs y / L = Rabs (/ L * y)) by (intros y; rewrite Rabs_mult, (Rabs_pos_eq (/ L)) by (left; apply Rinv_0_lt_compat; exact L0); unfold Rdiv; ring).
  assert (DL : forall y, y / L = / L * y) by (intros y; unfold Rdiv; ring). rewrite !AL, !DL in D1, D2, D3.
  destruct (term_near u eta _ _ _ _ ltac:(lra) ltac:(lra) D1 Q1) as [T1 S1]. destruct (term_near u eta _ _ _ _ ltac:(lra) ltac:(lra) D2 Q2) as [T2 S2]. destruct (term_near u eta _ _ _ _ ltac:(lra) ltac:(lra) D3 Q3) as [T3 S3].
  assert (S := dot_sizes (vscale (/ L) E) P). rewrite unit_direction in S. assert (LP := length_small x Wx). fold P in LP. cbn [vscale vx vy vz] in S.
  change (fx n) with (b64_mul (fx dir) k) in He. change (fy n) with (b64_mul (fy dir) k) in He. change (fz n) with (b64_mul (fz dir) k) in He.
  unfold F, dot. cbn [vscale vx vy vz].
  assert (D' : - e <= B2R f - (B2R (b64_mul (fx dir) k) * B2R (fx pos) + B2R (b64_mul (fy dir) k) * B2R (fy pos) + B2R (b64_mul (fz dir) k) * B2R (fz pos)) <= e) by exact D.
  set (X1 := Rabs (/ L * vx E * vx P)) in *. set (X2 := Rabs (/ L * vy E * vy P)) in *. set (X3 := Rabs (/ L * vz E * vz P)) in *.
  assert (K : forall y, Rabs y <= 2 * M -> 0 <= eta * Rabs y <= / 100000 * (u * M)).
  { intros y Y. split; [apply Rmult_le_pos; [lra|apply Rabs_pos]|]. apply Rle_trans with (/ 1000000 * u * (2 * M)); [apply Rmult_le_compat; [lra|apply Rabs_pos|exact (proj2 H)|exact Y]|]. lra. }
  assert (K1 := K _ P1). assert (K2 := K _ P2). assert (K3 := K _ P3). change (vx (exact_vec x) - vx A) with (vx P) in K1. change (vy (exact_vec x) - vy A) with (vy P) in K2. change (vz (exact_vec x) - vz A) with (vz P) in K3.
  set (Y1 := eta * Rabs (vx P)) in *. set (Y2 := eta * Rabs (vy P)) in *. set (Y3 := eta * Rabs (vz P)) in *. set (Z := X1 + X2 + X3) in *.
  assert (X10 : 0 <= X1) by apply Rabs_pos. assert (X20 : 0 <= X2) by apply Rabs_pos. assert (X30 : 0 <= X3) by apply Rabs_pos.
  assert (UZ : u * Z <= 3.4642 * (u * M)). { replace (3.4642 * (u * M)) with (u * (3.4642 * M)) by ring. apply Rmult_le_compat_l; lra. }
  set (m3 := Rabs _ + Rabs _ + Rabs _) in He. assert (M3 : m3 <= 1.001 * Z + / 10000 * (u * M)) by (unfold m3, Z; lra).
  assert (UM3 : u * m3 <= 1.001 * (u * Z) + / 10000 * (u * M)).
  { apply Rle_trans with (u * (1.001 * Z + / 10000 * (u * M))); [apply Rmult_le_compat_l; lra|]. assert (u * (/ 10000 * (u * M)) <= / 10000 * (u * M)) by (rewrite <- (Rmult_1_l (/ 10000 * (u * M))) at 2; apply Rmult_le_compat_r; lra). lra. }
  apply Rabs_le_inv in T1, T2, T3. apply Rabs_le. unfold Z in *. lra.
Qed.

Let K := clamp F L.
Lemma direction_part c : coordinate c -> Rabs (c E / L) <= 1.
Proof.
  intros C. assert (L0 := L_pos). unfold Rdiv. rewrite Rabs_mult, (Rabs_pos_eq (/ L)) by (left; apply Rinv_0_lt_compat; exact L0). apply Rmult_le_reg_r with L; [exact L0|]. replace (Rabs (c E) * / L * L) with (Rabs (c E)) by (field; lra). rewrite Rmult_1_l.
  destruct (len_components E) as (Q1 & Q2 & Q3 & _). destruct C as [->|[->| ->]]; assumption.
Qed.
Lemma on_segment_small g c : coordinates g c -> Rabs (B2R (g a) + K * (c E / L)) <= M.
Proof.
  intros C. assert (L0 := L_pos). assert (KL : 0 <= K <= L) by (unfold K; destruct (clamp_cases F L L0) as [[? ->]|[[? ->]|[? ->]]]; lra).
  set (s := K / L). assert (S : 0 <= s <= 1). { unfold s. split; [apply Rmult_le_pos; [lra|left; apply Rinv_0_lt_compat; exact L0]|]. apply Rmult_le_reg_r with L; [exact L0|]. unfold Rdiv. rewrite Rmult_assoc, Rinv_l by lra. lra. }
  destruct (within_coords M a g c C Wa) as [_ GA]. destruct (within_coords M b g c C Wb) as [_ GB].
  assert (EE : c E = B2R (g b) - B2R (g a)) by (unfold E, A; destruct C as [[-> ->]|[[-> ->]|[-> ->]]]; reflexivity).
  replace (B2R (g a) + K * (c E / L)) with ((1 - s) * B2R (g a) + s * B2R (g b)) by (unfold s; rewrite EE; field; lra).
  apply Rabs_le_inv in GA, GB. apply Rabs_le. assert (M0 : 0 <= M) by lra. clear - S GA GB M0. split; nra.
Qed.
Lemma middle_near g c : coordinates g c -> Rabs (B2R f - K) <= 57 * (u * M) ->
  is_finite (g (fplus a (fweigh n f))) = true /\ Rabs (B2R (g (fplus a (fweigh n f))) - (B2R (g a) + K * (c E / L))) <= 110 * (u * M).
Proof.
  intros C HK. assert (L0 := L_pos). assert (V := v_small). assert (H := eta_small). assert (HM := eta_M). destruct factor_near as [Ff _].
  assert (M0 : 0 < M) by (apply Rlt_le_trans with (2 := M_low); apply bpow_gt_0). assert (UM : 0 < u * M) by (apply Rmult_lt_0_compat; [apply bpow_gt_0|exact M0]).
  assert (UMs : u * M <= / 1000000 * M) by (apply Rmult_le_compat_r; lra).
  assert (KL : 0 <= K <= L) by (unfold K; destruct (clamp_cases F L L0) as [[? ->]|[[? ->]|[? ->]]]; lra). assert (LM := length_small b Wb). fold E in LM. fold L in LM.
  assert (DC := dir_close). assert (Dg : is_finite (g dir) = true /\ Rabs (B2R (g dir)) <= bpow radix2 202 /\ rel u (B2R (g dir)) (c E)).
  { destruct DC as ((F1 & B1 & _ & R1) & (F2 & B2 & _ & R2) & (F3 & B3 & _ & R3)). destruct C as [[-> ->]|[[-> ->]|[-> ->]]]; auto. }
  destruct Dg as (Fd & Bd & Rd). destruct dir_parts as (_ & _ & SC). destruct (SC _ _ Fd Bd Rd) as [[Fn _] Dn]. clear SC DC.
  assert (EN : g (fweigh n f) = b64_mul (g n) f /\ g n = b64_mul (g dir) k /\ g (fplus a (fweigh n f)) = b64_add (g a) (b64_mul (g n) f)) by (destruct C as [[-> _]|[[-> _]|[-> _]]]; repeat split).
  destruct EN as (_ & EN & ->). rewrite <- EN in Fn, Dn.
  set (D := c E / L) in *. assert (D1 : Rabs D <= 1) by (apply direction_part; apply (coordinates_coordinate g c C)).
  assert (AD : Rabs (c E) / L = Rabs D) by (unfold D, Rdiv; rewrite Rabs_mult, (Rabs_pos_eq (/ L)) by (left; apply Rinv_0_lt_compat; exact L0); reflexivity). rewrite AD in Dn.
  set (ng := B2R (g n)) in *. set (ff := B2R f) in *.
  assert (Dn' : Rabs (ng - D) <= 12.1 * u). { apply Rle_trans with (1 := Dn). assert (12 * u * Rabs D <= 12 * u * 1) by (apply Rmult_le_compat_l; lra). lra. }
  assert (Nn : Rabs ng <= 1.001) by (apply Rabs_le_inv in Dn', D1; apply Rabs_le; lra).
  assert (X1 : Rabs (ng * ff - K * D) <= 99.2 * (u * M)).
  { replace (ng * ff - K * D) with (ng * (ff - K) + (ng - D) * K) by ring. apply Rle_trans with (1 := Rabs_triang _ _). rewrite !Rabs_mult, (Rabs_pos_eq K) by lra.
    assert (Y1 : Rabs ng * Rabs (ff - K) <= 1.001 * (57 * (u * M))) by (apply Rmult_le_compat; auto using Rabs_pos). assert (Y2 : Rabs (ng - D) * K <= 12.1 * u * (3.4642 * M)) by (apply Rmult_le_compat; try apply Rabs_pos; lra). lra. }
  assert (KD : Rabs (K * D) <= 3.4642 * M). { rewrite Rabs_mult, (Rabs_pos_eq K) by lra. rewrite <- (Rmult_1_r (3.4642 * M)). apply Rmult_le_compat; try apply Rabs_pos; lra. }
  assert (B1 : Rabs (ng * ff) <= 3.5 * M) by (apply Rabs_le_inv in X1, KD; apply Rabs_le; lra).
  assert (T202 : 4 * M <= bpow radix2 202) by (change 202%Z with (200 + 2)%Z; rewrite bpow_plus; change (bpow radix2 2) with 4; lra).
  destruct (mul_fin (g n) f 202 Fn Ff ltac:(lia) ltac:(fold ng ff; lra)) as [F1 V1]. fold ng ff in V1. assert (R1 := rnd_error _ _ B1). rewrite <- V1 in R1. set (m := b64_mul (g n) f) in *.
  destruct (within_coords M a g c C Wa) as [Fa Ba]. assert (OS := on_segment_small g c C). fold D in OS.
  assert (X2 : Rabs (B2R (g a) + B2R m - (B2R (g a) + K * D)) <= 103 * (u * M)) by (apply Rabs_le_inv in X1; apply Rabs_le; lra).
  assert (B2 : Rabs (B2R (g a) + B2R m) <= 1.1 * M) by (apply Rabs_le_inv in X2, OS; apply Rabs_le; lra).
  destruct (add_fin (g a) m 202 Fa F1 ltac:(lia) ltac:(lra)) as [F2 V2]. assert (R2 := rnd_error _ _ B2). rewrite <- V2 in R2. split; [exact F2|].
  apply Rabs_le_inv in X2. apply Rabs_le. lra.
Qed.
Lemma closest_near_holds : exists p, closest_on_line (mkLine (exact_vec a) (exact_vec b)) (exact_vec x) = Some p /\ at_most_off (110 * unit_of M) (fclosest_on_line (mkFLine a b) x) p.
Proof.
  assert (L0 := L_pos). eexists. split; [apply exact_closest; exact L0|]. fold A. fold E. fold L. fold P. fold F. fold K. apply off_coords. intros g c C.
  assert (V := v_small). destruct factor_near as [Ff Df]. destruct dir_parts as (Fl & Dl & _).
  assert (M0 : 0 < M) by (apply Rlt_le_trans with (2 := M_low); apply bpow_gt_0). assert (UM : 0 < u * M) by (apply Rmult_lt_0_compat; [apply bpow_gt_0|exact M0]).
  assert (LM := length_small b Wb). fold E in LM. fold L in LM. assert (UL : u * L <= 3.4642 * (u * M)) by (replace (3.4642 * (u * M)) with (u * (3.4642 * M)) by ring; apply Rmult_le_compat_l; lra).
  assert (D1 := direction_part c (coordinates_coordinate g c C)).
  assert (EQ : c (vadd A (vscale (K / L) E)) = B2R (g a) + K * (c E / L)). { unfold A. destruct C as [[-> ->]|[[-> ->]|[-> ->]]]; cbn [vadd vscale vx vy vz exact_vec]; unfold Rdiv; ring. }
  rewrite EQ. unfold unit_of. change (bpow radix2 (-53)) with u. unfold fclosest_on_line. cbn [fla flb]. fold dir. fold pos. fold l. fold k. fold n. fold f.
  assert (CK := clamp_cases F L L0). fold K in CK. apply Rabs_le_inv in Df. apply Rabs_le_inv in Dl.
  rewrite (Bltb_correct 53 1024 f b64_0 Ff eq_refl). change (B2R b64_0) with 0. destruct (Rlt_bool_spec (B2R f) 0) as [N|N]; [|rewrite (Bltb_correct 53 1024 l f Fl Ff); destruct (Rlt_bool_spec (B2R l) (B2R f)) as [N2|N2]].
  - split; [exact (proj1 (within_coords M a g c C Wa))|]. replace (B2R (g a) - (B2R (g a) + K * (c E / L))) with (- (K * (c E / L))) by ring. rewrite Rabs_Ropp, Rabs_mult.
    assert (KS : Rabs K <= 57 * (u * M)) by (apply Rabs_le; lra). apply Rle_trans with (57 * (u * M) * 1); [|lra]. apply Rmult_le_compat; auto using Rabs_pos.
  - split; [exact (proj1 (within_coords M b g c C Wb))|].
    assert (EE : c E = B2R (g b) - B2R (g a)) by (unfold E, A; destruct C as [[-> ->]|[[-> ->]|[-> ->]]]; reflexivity).
    replace (B2R (g b) - (B2R (g a) + K * (c E / L))) with ((L - K) * (c E / L)) by (rewrite EE; field; lra). rewrite Rabs_mult.
    assert (KS : Rabs (L - K) <= 82 * (u * M)) by (apply Rabs_le; lra). apply Rle_trans with (82 * (u * M) * 1); [|lra]. apply Rmult_le_compat; auto using Rabs_pos.
  - apply middle_near; [exact C|]. apply Rabs_le. lra.
Qed.
End Segment.

(** The length of any vector, tiny ones included. *)
Lemma flength_near v : moderate_vec v -> is_finite (flength v) = true /\ Rabs (B2R (flength v) - len (exact_vec v)) <= 5 * u * len (exact_vec v) + bpow radix2 (-400).
Proof.
  intros HV. destruct (dot_error v v HV HV) as (FD & _ & e & He & De). set (c := B2R (fdot v v)) in *. set (s := dot (exact_vec v) (exact_vec v)) in *.
  assert (MG : mag3 v v = s) by (unfold s, exact_vec, dot; cbn [vx vy vz]; rewrite !Rabs_pos_eq by nra; reflexivity). rewrite MG in He. fold u in He.
  assert (V := v_small). assert (E0 : 0 < eta) by apply bpow_gt_0. assert (S0 : 0 <= s) by apply dot_self_ge. assert (LL := len_sqr (exact_vec v)). fold s in LL. set (L := len (exact_vec v)) in *. assert (L0 : 0 <= L) by apply len_ge.
  assert (C0 : 0 <= c).
  { unfold c, fdot. destruct HV as (H1 & H2 & H3).
    assert (Sq : forall y, moderate y -> is_finite (b64_mul y y) = true /\ 0 <= B2R (b64_mul y y) /\ Rabs (B2R (b64_mul y y)) <= bpow radix2 1000).
    { intros y Hy. assert (Pm := moderate_mul _ _ Hy Hy). destruct (mul_fin y y 1000 (proj1 Hy) (proj1 Hy) ltac:(lia) Pm) as [Fm Vm]. split; [exact Fm|]. rewrite Vm. split; [apply rnd_at_least; [apply generic_format_0|nra]|apply rnd_bound; [lia|exact Pm]]. }
    destruct (Sq _ H1) as (F1 & P1 & B1). destruct (Sq _ H2) as (F2 & P2 & B2). destruct (Sq _ H3) as (F3 & P3 & B3). set (p := b64_mul (fx v) (fx v)) in *. set (q := b64_mul (fy v) (fy v)) in *. set (r := b64_mul (fz v) (fz v)) in *.
    assert (D1 : bpow radix2 1001 = 2 * bpow radix2 1000) by exact (double_pow 1000). assert (D2 : bpow radix2 1002 = 2 * bpow radix2 1001) by exact (double_pow 1001).
    assert (A1 : Rabs (B2R p + B2R q) <= bpow radix2 1001) by (eapply Rle_trans; [apply Rabs_triang|]; lra).
    destruct (add_fin p q 1001 F1 F2 ltac:(lia) A1) as [F4 V4]. assert (P4 : 0 <= B2R (b64_add p q)) by (rewrite V4; apply rnd_at_least; [apply generic_format_0|lra]).
    assert (B4 : Rabs (B2R (b64_add p q)) <= bpow radix2 1001) by (rewrite V4; apply rnd_bound; [lia|exact A1]).
    assert (A2 : Rabs (B2R (b64_add p q) + B2R r) <= bpow radix2 1002) by (eapply Rle_trans; [apply Rabs_triang|]; assert (0 < bpow radix2 1000) by apply bpow_gt_0; lra).
    destruct (add_fin (b64_add p q) r 1002 F4 F3 ltac:(lia) A2) as [F5 V5]. rewrite V5. apply rnd_at_least; [apply generic_format_0|lra]. }
  destruct (sqrt_fin (fdot v v) FD C0) as [FS VS]. fold c in VS. fold (flength v) in FS, VS. split; [exact FS|]. set (q := sqrt c) in *. assert (Q0 : 0 <= q) by apply sqrt_pos. assert (QQ : q * q = c) by (apply sqrt_sqrt; exact C0).
  assert (R := rnd_error q q ltac:(rewrite Rabs_pos_eq; lra)). rewrite <- VS in R. set (T := bpow radix2 (-400)). assert (T0 : 0 < T) by apply bpow_gt_0.
  assert (ET : eta <= / 1000000 * T). { apply Rle_trans with (bpow radix2 (-20) * T); [unfold T; rewrite <- bpow_plus; apply bpow_le; lia|]. apply Rmult_le_compat_r; [lra|]. change (bpow radix2 (-20)) with (/ 1048576). lra. }
  assert (QL : Rabs (q - L) <= 3.9 * u * L + / 100 * T).
  { assert (TT : 6 * eta <= / 1000000 * (T * T)). { apply Rle_trans with (bpow radix2 (-20) * (T * T)). - unfold T. rewrite <- !bpow_plus. apply Rle_trans with (8 * eta); [lra|]. change 8 with (bpow radix2 3). rewrite <- bpow_plus. apply bpow_le. lia. - apply Rmult_le_compat_r; [apply Rmult_le_pos; lra|]. change (bpow radix2 (-20)) with (/ 1048576). lra. }
    assert (CS : - (3.25 * (u * s) + / 1000000 * (T * T)) <= c - s <= 3.25 * (u * s) + / 1000000 * (T * T)) by lra.
    assert (Q1 : (q - L) * (q + L) = c - s) by (rewrite <- QQ, <- LL; ring).
    assert (US : u * s = u * L * L) by (rewrite <- LL; ring).
    assert (UL : 0 <= u * L <= / 1000000 * L) by (split; [apply Rmult_le_pos; lra|apply Rmult_le_compat_r; lra]).
    set (d := 3.9 * u * L + / 100 * T). assert (D0 : 0 < d) by (unfold d; lra).
    assert (DS : 3.25 * (u * s) + / 1000000 * (T * T) <= d * (d + L)). { rewrite US. unfold d. assert (0 <= u * L * L) by (apply Rmult_le_pos; lra). assert (0 <= T * L) by (apply Rmult_le_pos; lra). assert (0 <= u * L * T) by (apply Rmult_le_pos; lra). assert (0 <= (u * L) * (u * L)) by (apply Rmult_le_pos; lra). assert (0 <= T * T) by (apply Rmult_le_pos; lra). lra. }
    apply Rabs_le. split; apply Rnot_lt_le; intros H.
    - assert (X : q < L - d) by lra. assert (Y : c < (L - d) * (L - d)). { rewrite <- QQ. apply Rmult_le_0_lt_compat; assumption. }
      assert (Z : (L - d) * (L - d) <= L * L - d * L) by (assert (0 <= d * (L - d)) by (apply Rmult_le_pos; lra); lra).
      assert (W : 3.25 * (u * s) + / 1000000 * (T * T) <= d * L). { rewrite US. unfold d. assert (DL : d <= L) by lra. assert (TL : / 100 * T <= L) by (unfold d in DL; lra). assert (0 <= u * L * L) by (apply Rmult_le_pos; lra). assert (/ 100 * T * T <= L * T) by (apply Rmult_le_compat_r; lra). assert (0 <= T * T) by (apply Rmult_le_pos; lra). lra. }
      lra.
    - assert (X : L + d < q) by lra. assert (Y : (L + d) * (L + d) < c). { rewrite <- QQ. apply Rmult_le_0_lt_compat; lra. }
      assert (0 <= d * L) by (apply Rmult_le_pos; lra). lra. }
  assert (UQ : u * q <= u * L + / 1000 * (u * L) + / 1000 * T).
  { apply Rabs_le_inv in QL. assert (Q2 : q <= L + 3.9 * u * L + / 100 * T) by lra. apply Rle_trans with (u * (L + 3.9 * u * L + / 100 * T)); [apply Rmult_le_compat_l; lra|].
    assert (u * (u * L) <= / 1000000 * (u * L)) by (apply Rmult_le_compat_r; [apply Rmult_le_pos; lra|lra]). assert (u * T <= / 1000000 * T) by (apply Rmult_le_compat_r; lra). assert (0 <= u * L) by (apply Rmult_le_pos; lra). lra. }
  assert (0 <= u * L) by (apply Rmult_le_pos; lra). apply Rabs_le_inv in QL. apply Rabs_le. lra.
Qed.
Lemma distance_near_holds M a b x : M <= bpow radix2 200 -> point_within M a -> point_within M b -> point_within M x -> bpow radix2 (-200) <= len (vsub (exact_vec b) (exact_vec a)) ->
  exists d, distance_to_line (mkLine (exact_vec a) (exact_vec b)) (exact_vec x) = Some d /\ is_finite (fdistance_to_line (mkFLine a b) x) = true /\ Rabs (B2R (fdistance_to_line (mkFLine a b) x) - d) <= 250 * unit_of M.
Proof.
  intros Top Wa Wb Wx Long. destruct (closest_near_holds M a b x Top Wa Wb Wx Long) as (p & EP & OP). unfold distance_to_line. rewrite EP. eexists. split; [reflexivity|]. unfold fdistance_to_line. set (q := fclosest_on_line (mkFLine a b) x) in *.
  assert (V := v_small). assert (ML := M_low M a b Wa Wb Long). assert (M0 : 0 < M) by (apply Rlt_le_trans with (2 := ML); apply bpow_gt_0). assert (UM : 0 < u * M) by (apply Rmult_lt_0_compat; [apply bpow_gt_0|exact M0]). assert (UMs : u * M <= / 1000000 * M) by (apply Rmult_le_compat_r; lra).
  unfold unit_of in *. change (bpow radix2 (-53)) with u in *.
  (* the exact point is on the segment *)
  assert (PM : forall c, coordinate c -> Rabs (c p) <= M).
  { intros c C. assert (L0 : 0 < len (vsub (exact_vec b) (exact_vec a))) by (apply Rlt_le_trans with (2 := Long); apply bpow_gt_0).
    rewrite (exact_closest (exact_vec a) (exact_vec b) (exact_vec x) L0) in EP. injection EP as <-.
    assert (G : exists g, coordinates g c) by (unfold coordinates; destruct C as [->|[->| ->]]; eauto). destruct G as [g G].
    assert (Q := on_segment_small M a b x Wa Wb Long g c G). eapply Rle_trans; [|exact Q]. right. f_equal. destruct G as [[-> ->]|[[-> ->]|[-> ->]]]; cbn [vadd vscale vx vy vz exact_vec]; unfold Rdiv; ring. }
  assert (DS : close_vec (fminus q x) (vsub (exact_vec q) (exact_vec x)) /\ True).
  { split; [|exact I]. assert (MQ : point_within (2 * M) q).
    { assert (KQ : forall g c, coordinates g c -> is_finite (g q) = true /\ Rabs (B2R (g q)) <= 2 * M). { intros g c C. destruct (proj2 (off_coords _ _ _) OP g c C) as [FG DG]. split; [exact FG|]. assert (Q := PM c (coordinates_coordinate g c C)). apply Rabs_le_inv in DG, Q. apply Rabs_le. lra. }
      split; [apply (KQ fx vx)|split; [apply (KQ fy vy)|apply (KQ fz vz)]]; unfold coordinates; auto. }
    assert (K : forall s t, is_finite s = true /\ Rabs (B2R s) <= 2 * M -> is_finite t = true /\ Rabs (B2R t) <= M -> close (b64_sub s t) (B2R s - B2R t)).
    { intros s t [S1 S2] [T1 T2]. assert (T202 : 4 * M <= bpow radix2 202) by (change 202%Z with (200 + 2)%Z; rewrite bpow_plus; change (bpow radix2 2) with 4; lra).
      assert (B : Rabs (B2R s - B2R t) <= 3 * M) by (apply Rabs_le_inv in S2, T2; apply Rabs_le; lra). destruct (sub_fin s t 202 S1 T1 ltac:(lia) ltac:(lra)) as [F0 V0].
      split; [exact F0|]. split; [rewrite V0; apply rnd_bound; [lia|lra]|]. split; [lra|]. rewrite V0. unfold Rminus. rewrite <- (B2R_Bopp 53 1024 t). apply sum_relative; apply generic_format_B2R. }
    destruct MQ as (Q1 & Q2 & Q3). destruct Wx as (X1 & X2 & X3). split; [|split]; [exact (K _ _ Q1 X1)|exact (K _ _ Q2 X2)|exact (K _ _ Q3 X3)]. }
  destruct DS as [DS _]. set (d := fminus q x) in *.
  assert (MD : moderate_vec d). { destruct DS as ((F1 & B1 & _) & (F2 & B2 & _) & (F3 & B3 & _)). assert (W : forall c, Rabs c <= bpow radix2 202 -> Rabs c <= bpow radix2 500) by (intros c Hc; apply Rle_trans with (1 := Hc); apply bpow_le; lia). repeat split; try assumption; apply W; assumption. }
  destruct (flength_near d MD) as [FL DL]. split; [exact FL|].
  set (e := vsub p (exact_vec x)).
  assert (CD : forall g c, coordinates g c -> Rabs (B2R (g d) - c e) <= 113 * (u * M) /\ Rabs (c e) <= 2 * M).
  { intros g c C. destruct (proj2 (off_coords _ _ _) OP g c C) as [_ DG]. assert (Q := PM c (coordinates_coordinate g c C)). destruct (within_coords M x g c C Wx) as [_ Bx].
    assert (R : rel u (B2R (g d)) (B2R (g q) - B2R (g x))) by (destruct DS as ((_ & _ & _ & R1) & (_ & _ & _ & R2) & (_ & _ & _ & R3)); destruct C as [[-> _]|[[-> _]|[-> _]]]; assumption). unfold rel in R.
    assert (CE : c e = c p - B2R (g x)) by (unfold e; destruct C as [[-> ->]|[[-> ->]|[-> ->]]]; reflexivity). rewrite CE.
    assert (B : Rabs (B2R (g q) - B2R (g x)) <= 2.1 * M) by (apply Rabs_le_inv in DG, Q, Bx; apply Rabs_le; lra). assert (u * Rabs (B2R (g q) - B2R (g x)) <= u * (2.1 * M)) by (apply Rmult_le_compat_l; lra).
    split; [apply Rabs_le_inv in R, DG; apply Rabs_le; lra|apply Rabs_le_inv in Q, Bx; apply Rabs_le; lra]. }
  assert (LD : Rabs (len (exact_vec d) - len e) <= 196 * (u * M)).
  { apply Rle_trans with (1 := len_sub_abs _ _). set (w := vsub (exact_vec d) e). apply Rsqr_incr_0_var; [|lra]. unfold Rsqr. rewrite len_sqr.
    destruct (CD fx vx ltac:(unfold coordinates; auto)) as [C1 _]. destruct (CD fy vy ltac:(unfold coordinates; auto)) as [C2 _]. destruct (CD fz vz ltac:(unfold coordinates; auto)) as [C3 _].
    unfold w, dot, vsub, exact_vec. cbn [vx vy vz]. assert (K : forall s, Rabs s <= 113 * (u * M) -> s * s <= 12769 * ((u * M) * (u * M))). { intros s S. apply Rabs_le_inv in S. nra. }
    assert (K1 := K _ C1). assert (K2 := K _ C2). assert (K3 := K _ C3). assert (0 <= (u * M) * (u * M)) by nra. cbn [e] in *. fold e. lra. }
  assert (LE : len e <= 3.5 * M).
  { destruct (CD fx vx ltac:(unfold coordinates; auto)) as [_ C1]. destruct (CD fy vy ltac:(unfold coordinates; auto)) as [_ C2]. destruct (CD fz vz ltac:(unfold coordinates; auto)) as [_ C3].
    apply Rsqr_incr_0_var; [|lra]. unfold Rsqr. rewrite len_sqr. unfold dot. assert (K : forall s, Rabs s <= 2 * M -> s * s <= 4 * (M * M)). { intros s S. apply Rabs_le_inv in S. nra. }
    assert (K1 := K _ C1). assert (K2 := K _ C2). assert (K3 := K _ C3). assert (0 <= M * M) by nra. lra. }
  assert (TM : bpow radix2 (-400) <= u * M). { apply Rle_trans with (u * bpow radix2 (-202)); [rewrite <- bpow_plus; apply bpow_le; lia|]. apply Rmult_le_compat_l; [lra|exact ML]. }
  assert (LU : u * len (exact_vec d) <= 3.6 * (u * M)). { replace (3.6 * (u * M)) with (u * (3.6 * M)) by ring. apply Rmult_le_compat_l; [lra|]. apply Rabs_le_inv in LD. lra. }
  apply Rabs_le_inv in LD, DL. apply Rabs_le. lra.
Qed.

(** Beyond the ends the result is exactly the end. *)
Lemma ends_holds M a b x : M <= bpow radix2 200 -> point_within M a -> point_within M b -> point_within M x -> bpow radix2 (-200) <= len (vsub (exact_vec b) (exact_vec a)) ->
  let E := vsub (exact_vec b) (exact_vec a) in let P := vsub (exact_vec x) (exact_vec a) in
  (dot E P < - (57 * unit_of M * len E) -> fclosest_on_line (mkFLine a b) x = a) /\
  ((len E + 82 * unit_of M) * len E < dot E P -> fclosest_on_line (mkFLine a b) x = b).
Proof.
  intros Top Wa Wb Wx Long E P. destruct (factor_near M a b x Top Wa Wb Wx Long) as [Ff Df]. destruct (dir_parts M a b x Top Wa Wb Long) as (Fl & Dl & _).
  assert (V := v_small). assert (ML := M_low M a b Wa Wb Long). assert (M0 : 0 < M) by (apply Rlt_le_trans with (2 := ML); apply bpow_gt_0). assert (UM : 0 < u * M) by (apply Rmult_lt_0_compat; [apply bpow_gt_0|exact M0]).
  fold E in Df, Dl. fold P in Df. unfold unit_of. change (bpow radix2 (-53)) with u. set (L := len E) in *. assert (L0 : 0 < L) by (apply Rlt_le_trans with (2 := Long); apply bpow_gt_0).
  assert (EF : dot (vscale (/ L) E) P * L = dot E P) by (rewrite dot_scale_l; field; lra). set (F := dot (vscale (/ L) E) P) in *. rewrite <- EF.
  assert (LM := length_small M a Wa b Wb). fold E in LM. fold L in LM. assert (UL : u * L <= 3.4642 * (u * M)) by (replace (3.4642 * (u * M)) with (u * (3.4642 * M)) by ring; apply Rmult_le_compat_l; lra).
  unfold fclosest_on_line. cbn [fla flb]. set (f := fdot _ _) in *. set (l := flength _) in *. apply Rabs_le_inv in Df, Dl. split; intros H.
  - assert (HF : F < - (57 * (u * M))) by (apply Rmult_lt_reg_r with L; [exact L0|]; lra).
    rewrite (Bltb_correct 53 1024 f b64_0 Ff eq_refl). change (B2R b64_0) with 0. destruct (Rlt_bool_spec (B2R f) 0) as [N|N]; [reflexivity|lra].
  - assert (HF : L + 82 * (u * M) < F) by (apply Rmult_lt_reg_r with L; [exact L0|]; lra).
    rewrite (Bltb_correct 53 1024 f b64_0 Ff eq_refl). change (B2R b64_0) with 0. destruct (Rlt_bool_spec (B2R f) 0) as [N|N]; [lra|].
    rewrite (Bltb_correct 53 1024 l f Fl Ff). destruct (Rlt_bool_spec (B2R l) (B2R f)) as [N2|N2]; [reflexivity|lra].
Qed.
Lemma off_distance d p q : 0 <= d -> at_most_off d p q -> len (vsub (exact_vec p) q) <= 1.74 * d.
Proof.
  intros D ((_ & H1) & (_ & H2) & (_ & H3)). apply Rsqr_incr_0_var; [|lra]. unfold Rsqr. rewrite len_sqr. unfold dot, vsub, exact_vec. cbn [vx vy vz].
  assert (K : forall s, Rabs s <= d -> s * s <= d * d) by (intros s S; apply Rabs_le_inv in S; nra). assert (K1 := K _ H1). assert (K2 := K _ H2). assert (K3 := K _ H3). assert (0 <= d * d) by nra. lra.
Qed.
