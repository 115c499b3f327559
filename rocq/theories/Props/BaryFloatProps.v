(** * C110: barycentric coordinates in double precision *)
From Coq Require Import ZArith Reals List Bool Lia Lra.
From Flocq Require Import Core IEEE754.BinarySingleNaN.
From Verif Require Import Model.Scalar Model.Vec Model.BoxFloat Model.PlaneFloat Model.ClipFloat Model.TriFloat Model.BaryFloat Spec.FloatSpec Spec.ClipFloatSpec Spec.BaryFloatSpec
  Proofs.PlaneFloatLemmas Proofs.SplineFloat Proofs.ClipFloatLemmas Proofs.KeyframeFloatLemmas Proofs.BaryFloatLemmas.
Local Open Scope R_scope.

(** BarycentricToCartesian is the mean of the corners, up to one part in 2^51 of the terms, *)
Theorem C110_cartesian : forall t w, tame_tri t -> tame_vec w -> let p := fto_cartesian t w in let a := fta t in let b := ftb t in let c := ftc t in
  finite_vec p /\ Rabs (B2R (fx p) - mean3 (fx a) (fx b) (fx c) w) <= mean3_slack (fx a) (fx b) (fx c) w /\
  Rabs (B2R (fy p) - mean3 (fy a) (fy b) (fy c) w) <= mean3_slack (fy a) (fy b) (fy c) w /\
  Rabs (B2R (fz p) - mean3 (fz a) (fz b) (fz c) w) <= mean3_slack (fz a) (fz b) (fz c) w.
Proof.
  intros t w ((A1 & A2 & A3) & (B1 & B2 & B3) & C1 & C2 & C3) W. cbv zeta.
  destruct (mix3_near _ _ _ w A1 B1 C1 W) as [F1 E1]. destruct (mix3_near _ _ _ w A2 B2 C2 W) as [F2 E2]. destruct (mix3_near _ _ _ w A3 B3 C3 W) as [F3 E3].
  repeat split; assumption.
Qed.
Print Assumptions C110_cartesian.

(** and the coordinates of the corners give exactly the corners. *)
Theorem C110_corners : forall t w, tame_tri t -> tame_vec w ->
  (is_vec w 1 0 0 -> same_vec (fto_cartesian t w) (fta t)) /\ (is_vec w 0 1 0 -> same_vec (fto_cartesian t w) (ftb t)) /\ (is_vec w 0 0 1 -> same_vec (fto_cartesian t w) (ftc t)).
Proof.
  intros t w ((A1 & A2 & A3) & (B1 & B2 & B3) & C1 & C2 & C3) W.
  destruct (mix3_corner _ _ _ w A1 B1 C1 W) as (X1 & X2 & X3). destruct (mix3_corner _ _ _ w A2 B2 C2 W) as (Y1 & Y2 & Y3). destruct (mix3_corner _ _ _ w A3 B3 C3 W) as (Z1 & Z2 & Z3).
  split; [|split]; intros V; (split; [|split]); cbn [fto_cartesian fx fy fz]; auto.
Qed.
Print Assumptions C110_corners.

(** With the weights of a point of the triangle, an interpolated attribute lies between the smallest and the largest of the three values up to rounding, *)
Theorem C110_between : forall a b c w lo hi m, tame a -> tame b -> tame c -> tame_vec w -> weights w -> lo <= B2R a <= hi -> lo <= B2R b <= hi -> lo <= B2R c <= hi -> - m <= lo -> hi <= m ->
  lo - (bpow radix2 (-51) * m + bpow radix2 (-1070)) <= B2R (fmix3 a b c w) <= hi + (bpow radix2 (-51) * m + bpow radix2 (-1070)).
Proof.
  intros a b c w lo hi m A B C T W BA BB BC L H. destruct (mix3_near a b c w A B C T) as [_ E]. assert (M := mix3_between a b c w lo hi W BA BB BC).
  assert (S : mean3_size a b c w <= m) by (apply mix3_size_le; [exact W|apply Rabs_le; lra..]). unfold mean3_slack in E. assert (P := bpow_gt_0 radix2 (-51)). assert (K := Rmult_le_compat_l _ _ _ (Rlt_le _ _ P) S).
  apply Rabs_le_inv in E. lra.
Qed.
Print Assumptions C110_between.

(** but not exactly: even if all three values are the same (0.7) and the weights (0.84, 0.07 and 0.09) add up to exactly 1, the result can be larger. *)
Definition p7 : b64 := @B754_finite 53 1024 false 6305039478318694 (-53) eq_refl.
Definition w84 : fvec := FV (@B754_finite 53 1024 false 7566047373982433 (-53) eq_refl) (@B754_finite 53 1024 false 5044031582654956 (-56) eq_refl) (@B754_finite 53 1024 false 6485183463413516 (-56) eq_refl).
Lemma w84_weights : weights w84.
Proof.
  unfold weights, w84, B2R, F2R. cbn [fx fy fz cond_Zopp Fnum Fexp]. assert (E : bpow radix2 (-53) = 8 * bpow radix2 (-56)) by (change (-53)%Z with (3 + -56)%Z; rewrite bpow_plus; reflexivity).
  assert (P := bpow_gt_0 radix2 (-56)). assert (Q : 72057594037927936 * bpow radix2 (-56) = 1) by (change 72057594037927936 with (bpow radix2 56); rewrite <- bpow_plus; reflexivity). rewrite E. lra.
Qed.
Theorem C110_between_refuted : exists a w, tame a /\ tame_vec w /\ weights w /\ B2R a < B2R (fmix3 a a a w).
Proof.
  assert (T : forall x : b64, is_finite x = true -> Rabs (B2R x) <= 1 -> tame x). { intros x F B. split; [exact F|]. eapply Rle_trans; [exact B|]. change 1 with (bpow radix2 0). apply bpow_le. lia. }
  assert (P := bpow_gt_0 radix2 (-53)). assert (Q : 9007199254740992 * bpow radix2 (-53) = 1) by (change 9007199254740992 with (bpow radix2 53); rewrite <- bpow_plus; reflexivity).
  exists p7, w84. destruct w84_weights as (X & Y & Z & S).
  split; [apply T; [reflexivity|unfold p7, B2R, F2R; cbn [cond_Zopp Fnum Fexp]; rewrite Rabs_pos_eq; lra]|].
  split; [repeat split; try (apply T; [reflexivity|rewrite Rabs_pos_eq; lra])|].
  split; [exact w84_weights|].
  assert (E : fmix3 p7 p7 p7 w84 = @B754_finite 53 1024 false 6305039478318695 (-53) eq_refl) by (apply B2SF_inj; vm_compute; reflexivity). rewrite E.
  unfold p7, B2R, F2R. cbn [cond_Zopp Fnum Fexp]. lra.
Qed.
Print Assumptions C110_between_refuted.

(** The coordinates of a point [p] that CartesianToBarycentric returns satisfy u * area (a, b, c) = area (p, b, c) and v * area (a, b, c) = area (p, c, a) up to rounding, for the areas of the
    projections to a coordinate plane.  No coordinate plane has a larger projection of the triangle, up to rounding. *)
Theorem C110_barycentric : forall t p d, tame_tri t -> tame_vec p -> extent d t p -> let a := fta t in let b := ftb t in let c := ftc t in let w := fto_barycentric t p in finite_vec w ->
  exists k, Rabs (B2R (fx w) * area2 k a b c - area2 k p b c) <= (1 + Rabs (B2R (fx w))) * area_slack d /\
    Rabs (B2R (fy w) * area2 k a b c - area2 k p c a) <= (1 + Rabs (B2R (fy w))) * area_slack d /\
    forall j, Rabs (area2 j a b c) <= Rabs (area2 k a b c) + area_slack d.
Proof.
  intros t p d T P E. cbv zeta. destruct (projected_near t p d T P E) as [k H]. unfold fto_barycentric. destruct (fprojected t p) as [[nu nv] ood]. destruct H as (n & s & S & -> & N & U & V & L).
  intros (FU & FV & _). cbn [fx fy] in FU, FV |- *. exists k. assert (QU := quotient_area _ _ _ _ _ U N FU). assert (QV := quotient_area _ _ _ _ _ V N FV). cbv zeta in QU, QV.
  assert (G : forall x y z, Rabs (x * (s * y) - s * z) = Rabs (x * y - z)). { intros x y z. destruct S as [-> | ->]; [f_equal; ring|]. rewrite <- Rabs_Ropp. f_equal. ring. }
  rewrite G in QU, QV. repeat split; assumption.
Qed.
Print Assumptions C110_barycentric.

(** The three coordinates add up to 1 up to rounding, *)
Theorem C110_sum : forall t p, let w := fto_barycentric t p in finite_vec w ->
  Rabs (B2R (fx w) + B2R (fy w) + B2R (fz w) - 1) <= bpow radix2 (-51) * (1 + Rabs (B2R (fx w)) + Rabs (B2R (fy w))).
Proof.
  intros t p. unfold fto_barycentric. destruct (fprojected t p) as [[nu nv] ood]. cbv zeta. intros (_ & _ & F). cbn [fx fy fz] in F |- *. apply sum_near. exact F.
Qed.
Print Assumptions C110_sum.

(** and those of the third corner are exactly (0, 0, 1), in spite of all roundings; those of the other corners vanish exactly where they should. *)
Theorem C110_third : forall t, tame_tri t -> finite_vec (fto_barycentric t (ftc t)) -> is_vec (fto_barycentric t (ftc t)) 0 0 1.
Proof.
  intros t ((A1 & A2 & A3) & (B1 & B2 & B3) & C1 & C2 & C3). unfold fto_barycentric.
  assert (Z : let '(nu, nv, ood) := fprojected t (ftc t) in B2R nu = 0 /\ B2R nv = 0).
  { unfold fprojected. cbv zeta. destruct (_ && _); [|destruct (_ && _)]; split; first [apply area_third|apply area_second]; assumption. }
  destruct (fprojected t (ftc t)) as [[nu nv] ood]. destruct Z as [ZU ZV]. cbv zeta. intros (FU & FV & FW). cbn [fx fy fz] in FU, FV, FW |- *. unfold is_vec. cbn [fx fy fz].
  assert (U0 := zero_product _ _ ZU FU). assert (V0 := zero_product _ _ ZV FV). split; [exact U0|]. split; [exact V0|]. rewrite (third_value _ _ FW), U0, V0, !Rminus_0_r.
  rewrite <- (proj1 one_value), !rnd_value. reflexivity.
Qed.
Print Assumptions C110_third.
Theorem C110_first : forall t, tame_tri t -> finite_vec (fto_barycentric t (fta t)) -> B2R (fy (fto_barycentric t (fta t))) = 0.
Proof.
  intros t ((A1 & A2 & A3) & (B1 & B2 & B3) & C1 & C2 & C3). unfold fto_barycentric.
  assert (Z : let '(nu, nv, ood) := fprojected t (fta t) in B2R nv = 0).
  { unfold fprojected. cbv zeta. destruct (_ && _); [|destruct (_ && _)]; apply area_third; assumption. }
  destruct (fprojected t (fta t)) as [[nu nv] ood]. cbv zeta. intros (_ & F & _). exact (zero_product _ _ Z F).
Qed.
Print Assumptions C110_first.
Theorem C110_second : forall t, tame_tri t -> finite_vec (fto_barycentric t (ftb t)) -> B2R (fx (fto_barycentric t (ftb t))) = 0.
Proof.
  intros t ((A1 & A2 & A3) & (B1 & B2 & B3) & C1 & C2 & C3). unfold fto_barycentric.
  assert (Z : let '(nu, nv, ood) := fprojected t (ftb t) in B2R nu = 0).
  { unfold fprojected. cbv zeta. destruct (_ && _); [|destruct (_ && _)]; apply area_second; assumption. }
  destruct (fprojected t (ftb t)) as [[nu nv] ood]. cbv zeta. intros (F & _ & _). exact (zero_product _ _ Z F).
Qed.
Print Assumptions C110_second.

(** The first coordinate of the first corner need not be 1, however: for the triangle (7, 3, 0), (0, 0, 0), (0, 7, 0) it is 0.9999999999999999. *)
Definition witness : ftri := mkFTri (FV (b64_of_Z 7) (b64_of_Z 3) b64_0) (FV b64_0 b64_0 b64_0) (FV b64_0 (b64_of_Z 7) b64_0).
Lemma tame_int n : (1 <= n <= 10)%Z -> tame (b64_of_Z n).
Proof.
  intros N. destruct (b64_int n ltac:(lia)) as [V F]. split; [exact F|]. rewrite V, <- abs_IZR. eapply Rle_trans; [apply IZR_le; rewrite Z.abs_eq by lia; exact (proj2 N)|]. apply Rle_trans with (bpow radix2 4); [change (bpow radix2 4) with 16; lra|apply bpow_le; lia].
Qed.
Lemma tame_zero : tame b64_0.
Proof. split; [reflexivity|]. change (B2R b64_0) with 0. rewrite Rabs_R0. apply bpow_ge_0. Qed.
Lemma witness_tame : tame_tri witness.
Proof. assert (S := tame_int 7 ltac:(lia)). assert (T := tame_int 3 ltac:(lia)). assert (O := tame_zero). unfold tame_tri, tame_vec, witness. cbn [fta ftb ftc fx fy fz]. tauto. Qed.
Theorem C110_first_refuted : exists t, tame_tri t /\ finite_vec (fto_barycentric t (fta t)) /\ B2R (fx (fto_barycentric t (fta t))) < 1 /\ 0 < B2R (fz (fto_barycentric t (fta t))).
Proof.
  exists witness. split; [exact witness_tame|].
  assert (X : fx (fto_barycentric witness (fta witness)) = @B754_finite 53 1024 false 9007199254740991 (-53) eq_refl) by (apply B2SF_inj; vm_compute; reflexivity).
  assert (Y : is_finite (fy (fto_barycentric witness (fta witness))) = true) by (vm_compute; reflexivity).
  assert (Z : fz (fto_barycentric witness (fta witness)) = @B754_finite 53 1024 false 4503599627370496 (-105) eq_refl) by (apply B2SF_inj; vm_compute; reflexivity).
  assert (P := bpow_gt_0 radix2 (-53)). assert (Q : 9007199254740992 * bpow radix2 (-53) = 1) by (change 9007199254740992 with (bpow radix2 53); rewrite <- bpow_plus; reflexivity).
  unfold finite_vec. rewrite X, Z. split; [split; [reflexivity|split; [exact Y|reflexivity]]|]. unfold B2R, F2R. cbn [cond_Zopp Fnum Fexp]. split; [lra|]. assert (P' := bpow_gt_0 radix2 (-105)). lra.
Qed.
Print Assumptions C110_first_refuted.

(** The hypotheses hold of that triangle and its first corner, and its third corner has the coordinates (0, 0, 1). *)
Example C110_case : tame_tri witness /\ extent 7 witness (fta witness) /\ finite_vec (fto_barycentric witness (fta witness)) /\ is_vec (fto_barycentric witness (ftc witness)) 0 0 1.
Proof.
  assert (F : finite_vec (fto_barycentric witness (ftc witness))) by (repeat split; vm_compute; reflexivity). split; [exact witness_tame|]. split; [|split; [repeat split; vm_compute; reflexivity|exact (C110_third _ witness_tame F)]].
  destruct (b64_int 7 ltac:(lia)) as [S _]. destruct (b64_int 3 ltac:(lia)) as [T _]. unfold extent, within, witness. cbn [fta ftb ftc fx fy fz]. rewrite S, T. change (B2R b64_0) with 0. repeat split; apply Rabs_le; lra.
Qed.
