(** Barycentric coordinates in double precision. *)
From Coq Require Import ZArith Reals List Bool Lia Lra.
From Flocq Require Import Core IEEE754.BinarySingleNaN.
From Verif Require Import Model.Scalar Model.Vec Model.BoxFloat Model.PlaneFloat Model.ClipFloat Model.TriFloat Model.BaryFloat Spec.FloatSpec Spec.ClipFloatSpec Spec.BaryFloatSpec
  Proofs.PlaneFloatLemmas Proofs.SplineFloat Proofs.ClipFloatLemmas Proofs.KeyframeFloatLemmas Proofs.GridFloatLemmas Proofs.BezierPatchFloatLemmas Proofs.PlaneHitFloatLemmas.
Local Open Scope R_scope.

Lemma sub_value (x y : b64) : is_finite (b64_sub x y) = true -> is_finite x = true /\ is_finite y = true /\ B2R (b64_sub x y) = rnd (B2R x - B2R y).
Proof.
  intros F. assert (Fx : is_finite x = true).
  { destruct x as [s|s| |s m e H]; try reflexivity; exfalso; destruct y as [r|r| |r k g Q]; try discriminate F. cbn in F. destruct (Bool.eqb s (negb r)); discriminate F. }
  assert (Fy : is_finite y = true).
  { destruct y as [s|s| |s m e H]; try reflexivity; exfalso; destruct x as [r|r| |r k g Q]; try discriminate F; discriminate Fx. }
  split; [exact Fx|]. split; [exact Fy|].
  assert (C := Bminus_correct 53 1024 b64_prec_gt_0 b64_prec_lt_emax mode_NE x y Fx Fy). fold (b64_sub x y) in C. change (SpecFloat.fexp 53 1024) with f64 in C. cbn [round_mode] in C.
  destruct (Rlt_bool _ _); [exact (proj1 C)|]. destruct C as [C _]. destruct (b64_sub x y) as [s|s| |s m e H]; try discriminate F; discriminate C.
Qed.

Lemma rnd_zero : rnd 0 = 0.
Proof. apply round_0. apply valid_rnd_N. Qed.
Lemma rnd_minus x : rnd (- x) = - rnd x.
Proof. apply round_NE_opp. Qed.

Lemma tame_moderate x : tame x -> moderate x.
Proof. intros [F B]. split; [exact F|]. eapply Rle_trans; [exact B|]. apply bpow_le. lia. Qed.

(** Differences of tame numbers *)
Lemma tame_diff x y : tame x -> tame y -> is_finite (b64_sub x y) = true /\ B2R (b64_sub x y) = rnd (B2R x - B2R y) /\ Rabs (B2R (b64_sub x y)) <= bpow radix2 500.
Proof.
  intros [Fx Bx] [Fy By]. assert (D : bpow radix2 500 = 2 * bpow radix2 499) by exact (double_pow 499).
  assert (B : Rabs (B2R x - B2R y) <= bpow radix2 500). { unfold Rminus. eapply Rle_trans; [apply Rabs_triang|]. rewrite Rabs_Ropp. lra. }
  destruct (sub_fin x y 500 Fx Fy ltac:(lia) B) as [F V]. split; [exact F|]. split; [exact V|]. rewrite V. apply abs_round_le_generic; [apply valid64|apply valid_rnd_N|apply generic_format_bpow; vm_compute; discriminate|exact B].
Qed.
Lemma diff_product x y z w : tame x -> tame y -> tame z -> tame w ->
  is_finite (b64_mul (b64_sub x y) (b64_sub z w)) = true /\ B2R (b64_mul (b64_sub x y) (b64_sub z w)) = rnd (rnd (B2R x - B2R y) * rnd (B2R z - B2R w)) /\
  Rabs (B2R (b64_mul (b64_sub x y) (b64_sub z w))) <= bpow radix2 1000.
Proof.
  intros X Y Z W. destruct (tame_diff x y X Y) as (F1 & V1 & B1). destruct (tame_diff z w Z W) as (F2 & V2 & B2).
  assert (B : Rabs (B2R (b64_sub x y) * B2R (b64_sub z w)) <= bpow radix2 1000). { rewrite Rabs_mult. change 1000%Z with (500 + 500)%Z. rewrite bpow_plus. apply Rmult_le_compat; try apply Rabs_pos; assumption. }
  destruct (mul_fin _ _ 1000 F1 F2 ltac:(lia) B) as [F V]. split; [exact F|]. split; [rewrite V, V1, V2; reflexivity|].
  rewrite V. apply abs_round_le_generic; [apply valid64|apply valid_rnd_N|apply generic_format_bpow; vm_compute; discriminate|exact B].
Qed.
Lemma area_value x1 y1 x2 y2 x3 y3 : tame x1 -> tame y1 -> tame x2 -> tame y2 -> tame x3 -> tame y3 ->
  B2R (farea x1 y1 x2 y2 x3 y3) = rnd (rnd (rnd (B2R x1 - B2R x2) * rnd (B2R y2 - B2R y3)) - rnd (rnd (B2R x2 - B2R x3) * rnd (B2R y1 - B2R y2))).
Proof.
  intros X1 Y1 X2 Y2 X3 Y3. unfold farea. destruct (diff_product x1 x2 y2 y3 X1 X2 Y2 Y3) as (F1 & V1 & B1). destruct (diff_product x2 x3 y1 y2 X2 X3 Y1 Y2) as (F2 & V2 & B2).
  assert (D : bpow radix2 1001 = 2 * bpow radix2 1000) by exact (double_pow 1000).
  destruct (sub_fin _ _ 1001 F1 F2 ltac:(lia)) as [_ V]; [|rewrite V, V1, V2; reflexivity]. unfold Rminus. eapply Rle_trans; [apply Rabs_triang|]. rewrite Rabs_Ropp. lra.
Qed.
(** If the first corner is the second or the third one, the area is zero in spite of all roundings. *)
Lemma area_second x y x3 y3 : tame x -> tame y -> tame x3 -> tame y3 -> B2R (farea x y x y x3 y3) = 0.
Proof.
  intros X Y X3 Y3. rewrite area_value by assumption. replace (B2R x - B2R x) with 0 by ring. replace (B2R y - B2R y) with 0 by ring. rewrite rnd_zero, Rmult_0_l, Rmult_0_r, rnd_zero, Rminus_0_r. apply rnd_zero.
Qed.
Lemma area_third x y x2 y2 : tame x -> tame y -> tame x2 -> tame y2 -> B2R (farea x y x2 y2 x y) = 0.
Proof.
  intros X Y X2 Y2. rewrite area_value by assumption. replace (B2R x2 - B2R x) with (- (B2R x - B2R x2)) by ring. replace (B2R y2 - B2R y) with (- (B2R y - B2R y2)) by ring. rewrite !rnd_minus.
  replace (rnd (B2R x - B2R x2) * - rnd (B2R y - B2R y2)) with (- rnd (B2R x - B2R x2) * rnd (B2R y - B2R y2)) by ring. rewrite Rminus_diag_eq by reflexivity. apply rnd_zero.
Qed.

Lemma zero_product x y : B2R x = 0 -> is_finite (b64_mul x y) = true -> B2R (b64_mul x y) = 0.
Proof. intros Z F. rewrite (mul_value _ _ F), Z, Rmult_0_l. apply rnd_zero. Qed.
Lemma third_value x y : is_finite (b64_sub (b64_sub b64_1 x) y) = true -> B2R (b64_sub (b64_sub b64_1 x) y) = rnd (rnd (1 - B2R x) - B2R y).
Proof. intros F. destruct (sub_value _ _ F) as (F1 & _ & V). destruct (sub_value _ _ F1) as (_ & _ & V1). rewrite V, V1, (proj1 one_value). reflexivity. Qed.

Lemma mix_dot a b c w : fmix3 a b c w = fdot (FV a b c) w.
Proof. reflexivity. Qed.
Lemma mix3_near a b c w : tame a -> tame b -> tame c -> tame_vec w -> is_finite (fmix3 a b c w) = true /\ Rabs (B2R (fmix3 a b c w) - mean3 a b c w) <= mean3_slack a b c w.
Proof.
  intros A B C (W1 & W2 & W3). rewrite mix_dot. destruct (dot_error (FV a b c) w) as (F & _ & e & E & D); [repeat split; apply tame_moderate; assumption..|]. split; [exact F|].
  change (dot (exact_vec (FV a b c)) (exact_vec w)) with (mean3 a b c w) in D. cbn [fx fy fz] in E. fold (mean3_size a b c w) in E. unfold mean3_slack.
  assert (P : 0 <= mean3_size a b c w). { unfold mean3_size. assert (Q1 := Rabs_pos (B2R a * B2R (fx w))). assert (Q2 := Rabs_pos (B2R b * B2R (fy w))). assert (Q3 := Rabs_pos (B2R c * B2R (fz w))). lra. }
  assert (Q : bpow radix2 (-51) = 4 * bpow radix2 (-53)) by (change (-51)%Z with (2 + -53)%Z; rewrite bpow_plus; reflexivity).
  assert (T : bpow radix2 (-1070) = 32 * eta) by (change (-1070)%Z with (5 + -1075)%Z; rewrite bpow_plus; reflexivity).
  assert (E0 := bpow_gt_0 radix2 (-1075)). assert (U0 := bpow_gt_0 radix2 (-53)). assert (M : 0 <= bpow radix2 (-53) * mean3_size a b c w) by (apply Rmult_le_pos; lra).
  rewrite Q, T. apply Rabs_le. lra.
Qed.
Lemma rnd_value (x : b64) : rnd (B2R x) = B2R x.
Proof. apply round_generic; [apply valid_rnd_N|]. apply format_of. Qed.
(** One weight is 1 and the others are 0. *)
Lemma mix3_corner a b c w : tame a -> tame b -> tame c -> tame_vec w ->
  (is_vec w 1 0 0 -> B2R (fmix3 a b c w) = B2R a) /\ (is_vec w 0 1 0 -> B2R (fmix3 a b c w) = B2R b) /\ (is_vec w 0 0 1 -> B2R (fmix3 a b c w) = B2R c).
Proof.
  intros A B C W. destruct (mix3_near a b c w A B C W) as [F _]. unfold fmix3 in F |- *. destruct (add_value _ _ F) as (F1 & F2 & V). destruct (add_value _ _ F1) as (F3 & F4 & V1).
  rewrite V, V1, (mul_value _ _ F2), (mul_value _ _ F3), (mul_value _ _ F4).
  split; [|split]; intros (-> & -> & ->); rewrite ?Rmult_0_r, ?Rmult_1_r, ?rnd_zero, ?Rplus_0_r, ?Rplus_0_l, ?rnd_value, ?rnd_zero, ?Rplus_0_r, ?Rplus_0_l, ?rnd_value; reflexivity.
Qed.
Lemma mix3_between a b c w lo hi : weights w -> lo <= B2R a <= hi -> lo <= B2R b <= hi -> lo <= B2R c <= hi -> lo <= mean3 a b c w <= hi.
Proof.
  intros (X & Y & Z & S) A B C. unfold mean3.
  assert (H : forall k v, 0 <= k -> lo <= v <= hi -> lo * k <= v * k <= hi * k) by (intros k v K [L U]; split; apply Rmult_le_compat_r; assumption).
  assert (A' := H _ _ X A). assert (B' := H _ _ Y B). assert (C' := H _ _ Z C). assert (L : lo * B2R (fx w) + lo * B2R (fy w) + lo * B2R (fz w) = lo) by (rewrite <- !Rmult_plus_distr_l, S; ring).
  assert (U : hi * B2R (fx w) + hi * B2R (fy w) + hi * B2R (fz w) = hi) by (rewrite <- !Rmult_plus_distr_l, S; ring). lra.
Qed.
Lemma mix3_size_le a b c w m : weights w -> Rabs (B2R a) <= m -> Rabs (B2R b) <= m -> Rabs (B2R c) <= m -> mean3_size a b c w <= m.
Proof.
  intros (X & Y & Z & S) A B C. unfold mean3_size. rewrite !Rabs_mult, (Rabs_pos_eq _ X), (Rabs_pos_eq _ Y), (Rabs_pos_eq _ Z).
  assert (A' := Rmult_le_compat_r _ _ _ X A). assert (B' := Rmult_le_compat_r _ _ _ Y B). assert (C' := Rmult_le_compat_r _ _ _ Z C).
  assert (U : m * B2R (fx w) + m * B2R (fy w) + m * B2R (fz w) = m) by (rewrite <- !Rmult_plus_distr_l, S; ring). lra.
Qed.

(** The third coordinate makes the sum 1 up to two roundings. *)
Lemma sum_near x y : is_finite (b64_sub (b64_sub b64_1 x) y) = true ->
  Rabs (B2R x + B2R y + B2R (b64_sub (b64_sub b64_1 x) y) - 1) <= bpow radix2 (-51) * (1 + Rabs (B2R x) + Rabs (B2R y)).
Proof.
  intros F. rewrite (third_value _ _ F). set (X := B2R x). set (Y := B2R y). set (m := 1 + Rabs X + Rabs Y).
  assert (PX := Rabs_pos X). assert (PY := Rabs_pos Y). assert (AX := Rle_abs X). assert (AX' := Rle_abs (- X)). rewrite Rabs_Ropp in AX'. assert (AY := Rle_abs Y). assert (AY' := Rle_abs (- Y)). rewrite Rabs_Ropp in AY'.
  assert (B1 : Rabs (1 - X) <= m) by (apply Rabs_le; unfold m; lra). assert (R1 := rnd_error _ _ B1). assert (R0 := bpow_gt_0 radix2 (-53)). assert (E0 := bpow_gt_0 radix2 (-1075)).
  assert (ES : eta <= u * (/ 16)). { assert (H : bpow radix2 (-1075) <= bpow radix2 (-57)) by (apply bpow_le; lia). assert (G : bpow radix2 (-53) = 16 * bpow radix2 (-57)) by (change (-53)%Z with (4 + -57)%Z; rewrite bpow_plus; reflexivity). lra. }
  assert (US : u <= / 16). { assert (H : bpow radix2 (-53) <= bpow radix2 (-4)) by (apply bpow_le; lia). assert (G : bpow radix2 (-4) = / 16) by reflexivity. lra. }
  assert (M1 : 1 <= m) by (unfold m; lra). assert (UM : u * 1 <= u * m) by (apply Rmult_le_compat_l; lra). assert (UM' : u * m <= / 16 * m) by (apply Rmult_le_compat_r; lra).
  assert (B2 : Rabs (rnd (1 - X) - Y) <= 5 / 4 * m) by (apply Rabs_le; unfold m in *; lra). assert (R2 := rnd_error _ _ B2).
  assert (Q : bpow radix2 (-51) = 4 * u) by (change (-51)%Z with (2 + -53)%Z; rewrite bpow_plus; reflexivity). rewrite Q. apply Rabs_le. lra.
Qed.

(** ** Areas *)
Lemma eta_le_u : eta <= u * / 16.
Proof. assert (H : bpow radix2 (-1075) <= bpow radix2 (-57)) by (apply bpow_le; lia). assert (G : bpow radix2 (-53) = 16 * bpow radix2 (-57)) by (change (-53)%Z with (4 + -57)%Z; rewrite bpow_plus; reflexivity). lra. Qed.
Lemma product_near (x y z w : b64) d : tame x -> tame y -> tame z -> tame w -> Rabs (B2R x - B2R y) <= d -> Rabs (B2R z - B2R w) <= d ->
  Rabs (B2R (b64_mul (b64_sub x y) (b64_sub z w)) - (B2R x - B2R y) * (B2R z - B2R w)) <= 4 * u * (d * d) + eta.
Proof.
  intros X Y Z W D1 D2. destruct (sub_relative x y X Y) as (F1 & E1 & _). destruct (sub_relative z w Z W) as (F2 & E2 & _). destruct (diff_product x y z w X Y Z W) as (F & V & _).
  destruct (tame_diff x y X Y) as (_ & V1 & _). destruct (tame_diff z w Z W) as (_ & V2 & _). rewrite V, <- V1, <- V2. clear V V1 V2.
  set (p := B2R x - B2R y) in *. set (q := B2R z - B2R w) in *. set (p' := B2R (b64_sub x y)) in *. set (q' := B2R (b64_sub z w)) in *.
  assert (US := u_small). assert (D0 : 0 <= d) by (apply Rle_trans with (2 := D1); apply Rabs_pos). assert (DD : 0 <= d * d) by (apply Rmult_le_pos; assumption).
  assert (G1 : Rabs (p' - p) <= u * d) by (apply Rle_trans with (1 := E1); apply Rmult_le_compat_l; lra). assert (G2 : Rabs (q' - q) <= u * d) by (apply Rle_trans with (1 := E2); apply Rmult_le_compat_l; lra).
  assert (H2 : Rabs q' <= d + u * d). { replace q' with (q + (q' - q)) by ring. eapply Rle_trans; [apply Rabs_triang|]. lra. }
  assert (H1 : Rabs p' <= d + u * d). { replace p' with (p + (p' - p)) by ring. eapply Rle_trans; [apply Rabs_triang|]. lra. }
  assert (K : Rabs (p' * q' - p * q) <= u * d * (d + u * d) + d * (u * d)).
  { replace (p' * q' - p * q) with ((p' - p) * q' + p * (q' - q)) by ring. eapply Rle_trans; [apply Rabs_triang|]. rewrite !Rabs_mult. apply Rplus_le_compat; apply Rmult_le_compat; try apply Rabs_pos; assumption. }
  assert (M : Rabs (p' * q') <= (d + u * d) * (d + u * d)) by (rewrite Rabs_mult; apply Rmult_le_compat; try apply Rabs_pos; assumption). assert (R := rnd_error _ _ M).
  replace (rnd (p' * q') - p * q) with ((rnd (p' * q') - p' * q') + (p' * q' - p * q)) by ring. eapply Rle_trans; [apply Rabs_triang|].
  assert (R' : Rabs (rnd (p' * q') - p' * q') <= u * ((d + u * d) * (d + u * d)) + eta) by (apply Rabs_le; exact R).
  replace (u * ((d + u * d) * (d + u * d))) with (u * (d * d) * (1 + 2 * u + u * u)) in R' by ring. replace (u * d * (d + u * d) + d * (u * d)) with (u * (d * d) * (2 + u)) in K by ring.
  assert (UD : 0 <= u * (d * d)) by (apply Rmult_le_pos; lra). assert (UU : u * u <= / 1000) by (replace (/ 1000) with (/ 1000 * 1) by ring; apply Rmult_le_compat; lra).
  assert (T : u * (d * d) * (1 + 2 * u + u * u + (2 + u)) <= u * (d * d) * 4) by (apply Rmult_le_compat_l; lra). lra.
Qed.
Lemma cross_near (a b c d e f g h : b64) k : tame a -> tame b -> tame c -> tame d -> tame e -> tame f -> tame g -> tame h ->
  Rabs (B2R a - B2R b) <= k -> Rabs (B2R c - B2R d) <= k -> Rabs (B2R e - B2R f) <= k -> Rabs (B2R g - B2R h) <= k ->
  let r := b64_sub (b64_mul (b64_sub a b) (b64_sub c d)) (b64_mul (b64_sub e f) (b64_sub g h)) in
  is_finite r = true /\ Rabs (B2R r) <= bpow radix2 1001 /\ Rabs (B2R r) <= 3 * (k * k) + 4 * eta /\
  Rabs (B2R r - ((B2R a - B2R b) * (B2R c - B2R d) - (B2R e - B2R f) * (B2R g - B2R h))) <= 12 * u * (k * k) + 4 * eta.
Proof.
  intros A B C D E F G H K1 K2 K3 K4. cbv zeta. assert (P1 := product_near a b c d k A B C D K1 K2). assert (P2 := product_near e f g h k E F G H K3 K4).
  destruct (diff_product a b c d A B C D) as (F1 & _ & B1). destruct (diff_product e f g h E F G H) as (F2 & _ & B2).
  set (m1 := b64_mul (b64_sub a b) (b64_sub c d)) in *. set (m2 := b64_mul (b64_sub e f) (b64_sub g h)) in *.
  assert (Q1 : Rabs ((B2R a - B2R b) * (B2R c - B2R d)) <= k * k) by (rewrite Rabs_mult; apply Rmult_le_compat; try apply Rabs_pos; assumption).
  assert (Q2 : Rabs ((B2R e - B2R f) * (B2R g - B2R h)) <= k * k) by (rewrite Rabs_mult; apply Rmult_le_compat; try apply Rabs_pos; assumption).
  set (x1 := (B2R a - B2R b) * (B2R c - B2R d)) in *. set (x2 := (B2R e - B2R f) * (B2R g - B2R h)) in *.
  assert (Dp : bpow radix2 1001 = 2 * bpow radix2 1000) by exact (double_pow 1000).
  assert (BB : Rabs (B2R m1 - B2R m2) <= bpow radix2 1001). { unfold Rminus. eapply Rle_trans; [apply Rabs_triang|]. rewrite Rabs_Ropp. lra. }
  destruct (sub_fin m1 m2 1001 F1 F2 ltac:(lia) BB) as [FR V]. split; [exact FR|]. split; [rewrite V; apply rnd_bound; [lia|exact BB]|].
  rewrite V. assert (US := u_small). assert (EL := eta_le_u). assert (E0 := bpow_gt_0 radix2 (-1075)). assert (DD : 0 <= k * k) by (apply Rle_trans with (2 := Q1); apply Rabs_pos).
  assert (UD : 0 <= u * (k * k)) by (apply Rmult_le_pos; lra). assert (UD' : u * (k * k) <= / 1000 * (k * k)) by (apply Rmult_le_compat_r; lra).
  apply Rabs_le_inv in P1. apply Rabs_le_inv in P2. apply Rabs_le_inv in Q1. apply Rabs_le_inv in Q2.
  assert (M : Rabs (B2R m1 - B2R m2) <= 2 * (k * k) + 8 * (u * (k * k)) + 2 * eta) by (apply Rabs_le; lra). assert (R := rnd_error _ _ M).
  replace (u * (2 * (k * k) + 8 * (u * (k * k)) + 2 * eta)) with (2 * (u * (k * k)) + 8 * (u * (u * (k * k))) + 2 * (u * eta)) in R by ring.
  assert (U1 : u * (u * (k * k)) <= / 1000 * (u * (k * k))) by (apply Rmult_le_compat_r; lra). assert (U2 : u * eta <= / 1000 * eta) by (apply Rmult_le_compat_r; lra).
  split; apply Rabs_le; lra.
Qed.

Lemma product_parts (x y : b64) : is_finite (b64_mul x y) = true -> is_finite x = true /\ is_finite y = true.
Proof. destruct x as [s|s| |s m e H], y as [r|r| |r k g Q]; intros F; try discriminate F; split; reflexivity. Qed.
(** Dividing by an area: [a] is within [e] of [x] and [n] is within [e] of [y]. *)
Lemma quotient_near (a n : b64) D e x y : is_finite a = true -> is_finite n = true -> Rabs (B2R n) <= bpow radix2 1001 -> Rabs (B2R a) <= 3 * D + 4 * eta -> Rabs (B2R n) <= 3 * D + 4 * eta ->
  Rabs (B2R a - x) <= e -> Rabs (B2R n - y) <= e -> e = 12 * u * D + 4 * eta -> 0 <= D ->
  is_finite (b64_mul a (b64_div b64_1 n)) = true -> let w := B2R (b64_mul a (b64_div b64_1 n)) in Rabs (w * y - x) <= (1 + Rabs w) * (bpow radix2 (-48) * (D + bpow radix2 (-1020))).
Proof.
  intros Fa Fn Bn Ba Bn' Ea En He D0 F. cbv zeta. destruct (product_parts _ _ F) as [_ Fs]. destruct (div_value _ _ (proj2 one_value) Fn Fs) as [Nz Vs]. assert (Vw := mul_value _ _ F).
  set (w := B2R (b64_mul a (b64_div b64_1 n))) in *. set (s := B2R (b64_div b64_1 n)) in *. rewrite (proj1 one_value) in Vs. set (A := B2R a) in *. set (N := B2R n) in *.
  assert (US := u_small). assert (EL := eta_le_u). assert (E0 := bpow_gt_0 radix2 (-1075)). assert (NP : 0 < Rabs N) by (apply Rabs_pos_lt; exact Nz).
  (* the inverse *)
  assert (S : Rabs (s * N - 1) <= 2 * u).
  { assert (R := rnd_error (1 / N) (Rabs (1 / N)) (Rle_refl _)). rewrite <- Vs in R. apply Rabs_le in R. replace (s * N - 1) with ((s - 1 / N) * N) by (field; exact Nz). rewrite Rabs_mult.
    apply Rle_trans with ((u * Rabs (1 / N) + eta) * Rabs N); [apply Rmult_le_compat_r; [lra|exact R]|].
    assert (I : Rabs (1 / N) * Rabs N = 1) by (rewrite <- Rabs_mult; replace (1 / N * N) with 1 by (field; exact Nz); apply Rabs_R1). replace ((u * Rabs (1 / N) + eta) * Rabs N) with (u * (Rabs (1 / N) * Rabs N) + eta * Rabs N) by ring. rewrite I.
    assert (T : eta * Rabs N <= u). { apply Rle_trans with (bpow radix2 (-1075) * bpow radix2 1001); [apply Rmult_le_compat_l; lra|]. rewrite <- bpow_plus. apply bpow_le. lia. } lra. }
  assert (SN : Rabs (s * N) <= 1 + 2 * u). { replace (s * N) with (1 + (s * N - 1)) by ring. eapply Rle_trans; [apply Rabs_triang|]. rewrite Rabs_R1. lra. }
  (* the product *)
  assert (W : Rabs (w - A * s) <= u * Rabs (A * s) + eta) by (rewrite Vw; apply Rabs_le; exact (rnd_error (A * s) (Rabs (A * s)) (Rle_refl _))).
  assert (AP := Rabs_pos A). assert (UA : 0 <= u * Rabs A) by (apply Rmult_le_pos; lra).
  assert (WN : Rabs (w * N - A) <= 4 * (u * Rabs A) + eta * Rabs N).
  { replace (w * N - A) with ((w - A * s) * N + A * (s * N - 1)) by ring. eapply Rle_trans; [apply Rabs_triang|]. rewrite !(Rabs_mult _ N), (Rabs_mult A).
    assert (T1 : Rabs (w - A * s) * Rabs N <= (u * Rabs (A * s) + eta) * Rabs N) by (apply Rmult_le_compat_r; lra).
    assert (T2 : Rabs A * Rabs (s * N - 1) <= Rabs A * (2 * u)) by (apply Rmult_le_compat_l; assumption).
    replace ((u * Rabs (A * s) + eta) * Rabs N) with (u * Rabs A * Rabs (s * N) + eta * Rabs N) in T1 by (rewrite !Rabs_mult; ring).
    assert (T3 : u * Rabs A * Rabs (s * N) <= u * Rabs A * (1 + 2 * u)) by (apply Rmult_le_compat_l; assumption).
    assert (T4 : u * Rabs A * (1 + 2 * u) <= u * Rabs A * 2) by (apply Rmult_le_compat_l; lra). lra. }
  assert (L1 : u * Rabs A <= 3 * (u * D) + 4 * (u * eta)). { replace (3 * (u * D) + 4 * (u * eta)) with (u * (3 * D + 4 * eta)) by ring. apply Rmult_le_compat_l; lra. }
  assert (L2 : eta * Rabs N <= 3 * (eta * D) + 4 * (eta * eta)). { replace (3 * (eta * D) + 4 * (eta * eta)) with (eta * (3 * D + 4 * eta)) by ring. apply Rmult_le_compat_l; lra. }
  assert (L3 : eta * D <= / 16 * (u * D)). { replace (/ 16 * (u * D)) with (u * / 16 * D) by ring. apply Rmult_le_compat_r; lra. }
  assert (L4 : u * eta <= / 1000 * eta) by (apply Rmult_le_compat_r; lra). assert (L5 : eta * eta <= / 1000 * eta) by (apply Rmult_le_compat_r; lra). assert (UD : 0 <= u * D) by (apply Rmult_le_pos; lra).
  assert (T : Rabs (w * y - x) <= Rabs w * e + (13 * (u * D) + eta) + e).
  { replace (w * y - x) with (w * (y - N) + (w * N - A) + (A - x)) by ring. eapply Rle_trans; [apply Rabs_triang|]. apply Rplus_le_compat; [|exact Ea]. eapply Rle_trans; [apply Rabs_triang|]. apply Rplus_le_compat.
    - rewrite Rabs_mult. apply Rmult_le_compat_l; [apply Rabs_pos|]. rewrite Rabs_minus_sym. exact En.
    - lra. }
  assert (Q : bpow radix2 (-48) = 32 * u) by (change (-48)%Z with (5 + -53)%Z; rewrite bpow_plus; reflexivity).
  assert (Q' : bpow radix2 (-48) * bpow radix2 (-1020) = 128 * eta) by (rewrite <- bpow_plus; change (-48 + -1020)%Z with (7 + -1075)%Z; rewrite bpow_plus; reflexivity).
  replace (bpow radix2 (-48) * (D + bpow radix2 (-1020))) with (32 * (u * D) + 128 * eta) by (rewrite <- Q'; rewrite Q; ring).
  assert (WP := Rabs_pos w). assert (We : Rabs w * e <= Rabs w * (32 * (u * D) + 128 * eta)) by (apply Rmult_le_compat_l; [exact WP|lra]). lra.
Qed.

Definition near_area (r : b64) (k x : R) : Prop :=
  is_finite r = true /\ Rabs (B2R r) <= bpow radix2 1001 /\ Rabs (B2R r) <= 3 * (k * k) + 4 * eta /\ Rabs (B2R r - x) <= 12 * u * (k * k) + 4 * eta.
Lemma farea_near x1 y1 x2 y2 x3 y3 k : tame x1 -> tame y1 -> tame x2 -> tame y2 -> tame x3 -> tame y3 ->
  Rabs (B2R x1 - B2R x2) <= k -> Rabs (B2R y2 - B2R y3) <= k -> Rabs (B2R x2 - B2R x3) <= k -> Rabs (B2R y1 - B2R y2) <= k ->
  near_area (farea x1 y1 x2 y2 x3 y3) k ((B2R x2 - B2R x1) * (B2R y3 - B2R y1) - (B2R y2 - B2R y1) * (B2R x3 - B2R x1)).
Proof.
  intros X1 Y1 X2 Y2 X3 Y3 K1 K2 K3 K4. destruct (cross_near x1 x2 y2 y3 x2 x3 y1 y2 k X1 X2 Y2 Y3 X2 X3 Y1 Y2 K1 K2 K3 K4) as (F & B & B' & E). unfold near_area, farea. split; [exact F|]. split; [exact B|]. split; [exact B'|].
  replace ((B2R x2 - B2R x1) * (B2R y3 - B2R y1) - (B2R y2 - B2R y1) * (B2R x3 - B2R x1)) with ((B2R x1 - B2R x2) * (B2R y2 - B2R y3) - (B2R x2 - B2R x3) * (B2R y1 - B2R y2)) by ring. exact E.
Qed.
Lemma within_sym d v w : within d v w -> within d w v.
Proof. intros (X & Y & Z). unfold within. rewrite (Rabs_minus_sym (B2R (fx w))), (Rabs_minus_sym (B2R (fy w))), (Rabs_minus_sym (B2R (fz w))). repeat split; assumption. Qed.
Lemma near_opp r k x : near_area r k x -> near_area (Bopp r) k (- x).
Proof.
  intros (F & B & B' & E). unfold near_area. rewrite is_finite_Bopp, B2R_Bopp, Rabs_Ropp. split; [exact F|]. split; [exact B|]. split; [exact B'|]. replace (- B2R r - - x) with (- (B2R r - x)) by ring. rewrite Rabs_Ropp. exact E.
Qed.
Lemma quotient_area a n k x y : near_area a k x -> near_area n k y -> is_finite (b64_mul a (b64_div b64_1 n)) = true ->
  let w := B2R (b64_mul a (b64_div b64_1 n)) in Rabs (w * y - x) <= (1 + Rabs w) * area_slack k.
Proof. intros (Fa & _ & Ba & Ea) (Fn & Bn & Bn' & En) F. apply (quotient_near a n (k * k) (12 * u * (k * k) + 4 * eta) x y); try assumption; try reflexivity. apply Rle_0_sqr. Qed.
Lemma areas_ordered r s k x y : near_area r k x -> near_area s k y -> Rabs (B2R r) <= Rabs (B2R s) -> Rabs x <= Rabs y + area_slack k.
Proof.
  intros (_ & _ & _ & Er) (_ & _ & _ & Es) L. assert (Q : bpow radix2 (-48) = 32 * u) by (change (-48)%Z with (5 + -53)%Z; rewrite bpow_plus; reflexivity).
  assert (Q' : bpow radix2 (-48) * bpow radix2 (-1020) = 128 * eta) by (rewrite <- bpow_plus; change (-48 + -1020)%Z with (7 + -1075)%Z; rewrite bpow_plus; reflexivity).
  unfold area_slack. rewrite Rmult_plus_distr_l, Q', Q. assert (US := u_small). assert (E0 := bpow_gt_0 radix2 (-1075)). assert (DD : 0 <= k * k) by apply Rle_0_sqr. assert (UD : 0 <= u * (k * k)) by (apply Rmult_le_pos; lra).
  assert (A := Rabs_triang_inv x (B2R r)). rewrite Rabs_minus_sym in A. assert (B := Rabs_triang_inv (B2R s) y). lra.
Qed.
Lemma babs_le (x y : b64) : is_finite x = true -> is_finite y = true -> Bleb (Babs x) (Babs y) = Rle_bool (Rabs (B2R x)) (Rabs (B2R y)).
Proof. intros X Y. rewrite Bleb_correct by (rewrite is_finite_Babs; assumption). rewrite !B2R_Babs. reflexivity. Qed.

Section Barycentric.
  Context (t : ftri) (p : fvec) (d : R) (T : tame_tri t) (P : tame_vec p) (E : extent d t p).
  Let a := fta t. Let b := ftb t. Let c := ftc t.
  Lemma normal_near : near_area (fx (ftri_normal t)) d (area2 AxisX a b c) /\ near_area (fy (ftri_normal t)) d (area2 AxisY a b c) /\ near_area (fz (ftri_normal t)) d (area2 AxisZ a b c).
  Proof.
    destruct T as ((A1 & A2 & A3) & (B1 & B2 & B3) & C1 & C2 & C3). destruct E as (AB & BC & CA & PA & PB & PC). apply within_sym in AB. destruct AB as (AB1 & AB2 & AB3). destruct CA as (CA1 & CA2 & CA3).
    unfold ftri_normal, fcross, fminus, area2, project, near_area. cbn [fx fy fz]. subst a b c. split; [|split]; apply cross_near; assumption.
  Qed.
  Lemma projected_near : exists k, let '(nu, nv, ood) := fprojected t p in exists n s, (s = 1 \/ s = -1) /\ ood = b64_div b64_1 n /\ near_area n d (s * area2 k a b c) /\ near_area nu d (s * area2 k p b c) /\ near_area nv d (s * area2 k p c a) /\
    forall j, Rabs (area2 j a b c) <= Rabs (area2 k a b c) + area_slack d.
  Proof.
    destruct normal_near as (NX & NY & NZ). assert (FX := proj1 NX). assert (FY := proj1 NY). assert (FZ := proj1 NZ).
    destruct T as ((A1 & A2 & A3) & (B1 & B2 & B3) & C1 & C2 & C3). destruct P as (P1 & P2 & P3). destruct E as (AB & (BC1 & BC2 & BC3) & (CA1 & CA2 & CA3) & PA & (PB1 & PB2 & PB3) & PC1 & PC2 & PC3).
    assert (K : forall r s x y, near_area r d x -> near_area s d y -> Rabs (B2R r) <= Rabs (B2R s) -> Rabs x <= Rabs y + area_slack d) by (intros r s x y; apply areas_ordered).
    unfold fprojected. rewrite !babs_le by assumption. fold a b c.
    destruct (Rle_bool_spec (Rabs (B2R (fy (ftri_normal t)))) (Rabs (B2R (fx (ftri_normal t))))) as [H1|H1]; destruct (Rle_bool_spec (Rabs (B2R (fz (ftri_normal t)))) (Rabs (B2R (fx (ftri_normal t))))) as [H2|H2];
    destruct (Rle_bool_spec (Rabs (B2R (fx (ftri_normal t)))) (Rabs (B2R (fy (ftri_normal t))))) as [H3|H3]; destruct (Rle_bool_spec (Rabs (B2R (fz (ftri_normal t)))) (Rabs (B2R (fy (ftri_normal t))))) as [H4|H4]; cbn [andb];
    first [ exists AxisX; exists (fx (ftri_normal t)), 1; split; [left; reflexivity|]; split; [reflexivity|]; rewrite !Rmult_1_l; split; [exact NX|]; unfold area2 at 1 2; cbn [project]; split; [apply farea_near; assumption|]; split; [apply farea_near; assumption|]; intros j; destruct j; eapply K; first [eassumption|lra]
          | exists AxisZ; exists (fz (ftri_normal t)), 1; split; [left; reflexivity|]; split; [reflexivity|]; rewrite !Rmult_1_l; split; [exact NZ|]; unfold area2 at 1 2; cbn [project]; split; [apply farea_near; assumption|]; split; [apply farea_near; assumption|]; intros j; destruct j; eapply K; first [eassumption|lra]
          | exists AxisY; exists (Bopp (fy (ftri_normal t))), (-1); split; [right; reflexivity|]; split; [reflexivity|]; split; [replace (-1 * area2 AxisY a b c) with (- area2 AxisY a b c) by ring; apply near_opp; exact NY|];
            unfold area2 at 1 2; cbn [project]; split; [|split; [|intros j; destruct j; eapply K; first [eassumption|lra]]];
            match goal with |- near_area (farea ?x1 ?y1 ?x2 ?y2 ?x3 ?y3) _ ?v => replace v with ((B2R x2 - B2R x1) * (B2R y3 - B2R y1) - (B2R y2 - B2R y1) * (B2R x3 - B2R x1)) by ring end; apply farea_near; assumption ].
  Qed.
End Barycentric.
