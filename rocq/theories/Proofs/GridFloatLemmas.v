(** Rounding in the shares of a grid. *)
From Coq Require Import ZArith Reals List Bool Lia Lra.
From Flocq Require Import Core IEEE754.BinarySingleNaN Mult_error.
From Verif Require Import Model.Scalar Model.Vec Model.BoxFloat Model.PlaneFloat Model.ClipFloat Model.KeyframeFloat Model.MeshFloat Model.GridFloat Spec.FloatSpec Spec.MeshFloatSpec Spec.GridFloatSpec
  Proofs.PlaneFloatLemmas Proofs.SplineFloat Proofs.BoxRayFloatLemmas Proofs.ClipFloatLemmas Proofs.FrustumFloatLemmas Proofs.MeshFloatLemmas.
Local Open Scope R_scope.

(** 1 + 2^-53 is half way between two numbers, and the even one is 1. *)
Lemma tie_to_one : rnd (1 + u) = 1.
Proof.
  destruct one_value as [V1 F1]. set (t := @B754_finite 53 1024 false 4503599627370496 (-105) eq_refl). assert (VT : B2R t = u) by (unfold t; cbn [B2R]; unfold F2R; cbn [Fnum Fexp cond_Zopp]; change 4503599627370496%Z with (2 ^ 52)%Z; change (IZR (2 ^ 52)) with (bpow radix2 52); rewrite <- bpow_plus; reflexivity).
  pose proof v_small as US. destruct (add_fin b64_1 t 1 F1 eq_refl ltac:(lia)) as [_ V]; [rewrite V1, VT; change (bpow radix2 1) with 2; rewrite Rabs_pos_eq; lra|]. rewrite V1, VT in V. rewrite <- V.
  assert (E : b64_add b64_1 t = b64_1) by (apply B2SF_inj; vm_compute; reflexivity). rewrite E. exact V1.
Qed.

Lemma face_share_value (n k : Z) : (1 <= n <= 2 ^ 32)%Z -> (0 <= k <= n)%Z -> is_finite (fface_share n k) = true /\ B2R (fface_share n k) = B2R (fshare n k).
Proof.
  intros N K. destruct (inv_near n N) as [F E]. destruct (b64_integer k ltac:(lia)) as [VK FK]. destruct (share_near n N k K) as (_ & _ & T). pose proof (i_bounds n N) as B. pose proof (bpow_gt_0 radix2 (-32)) as B0. pose proof v_small as US. set (f := B2R (finv n)) in *. set (i := / IZR n) in *. set (w := bpow radix2 (-53)) in *.
  assert (A : Rabs (IZR k * f - IZR k * i) <= w). { replace (IZR k * f - IZR k * i) with (IZR k * (f - i)) by ring. rewrite Rabs_mult, (Rabs_pos_eq (IZR k)) by (apply IZR_le; lia). apply Rle_trans with (IZR k * (w * i)); [apply Rmult_le_compat_l; [apply IZR_le; lia|exact E]|]. replace (IZR k * (w * i)) with (w * (IZR k * i)) by ring. rewrite <- (Rmult_1_r w) at 2. apply Rmult_le_compat_l; [lra|apply T]. }
  apply far_from in A. change (IZR k / IZR n) with (IZR k * i) in T. rewrite (Rabs_pos_eq (IZR k * i)) in A by lra.
  destruct (mul_fin (b64_of_Z k) (finv n) 1 FK F ltac:(lia)) as [_ V]; [rewrite VK; fold f; change (bpow radix2 1) with 2; lra|]. destruct (mul_fin (finv n) (b64_of_Z k) 1 F FK ltac:(lia)) as [G V']; [rewrite VK, Rmult_comm; fold f; change (bpow radix2 1) with 2; lra|].
  split; [exact G|]. unfold fface_share, fshare. rewrite V, V'. f_equal. ring.
Qed.

Lemma share_unit (n k : Z) : (1 <= n <= 2 ^ 32)%Z -> (0 <= k <= n)%Z -> in_unit (fshare n k).
Proof.
  intros N K. destruct (share_near n N k K) as (FS & _ & T). split; [exact FS|]. destruct (inv_near n N) as [F E]. destruct (b64_integer k ltac:(lia)) as [VK FK]. pose proof (i_bounds n N) as B. pose proof (bpow_gt_0 radix2 (-32)) as B0. pose proof v_small as US. set (f := B2R (finv n)) in *. set (i := / IZR n) in *.
  change (IZR k / IZR n) with (IZR k * i) in T. assert (K0 : 0 <= IZR k) by (apply IZR_le; lia). apply Rabs_le_inv in E. assert (I0 : 0 < i) by lra. assert (WI : u * i <= / 1000000 * i) by (apply Rmult_le_compat_r; lra).
  assert (P : 0 <= IZR k * f <= 1 + u). { split; [apply Rmult_le_pos; lra|]. apply Rle_trans with (IZR k * (i + u * i)); [apply Rmult_le_compat_l; lra|]. replace (IZR k * (i + u * i)) with (IZR k * i + u * (IZR k * i)) by ring. assert (u * (IZR k * i) <= u * 1) by (apply Rmult_le_compat_l; lra). lra. }
  destruct (mul_fin (b64_of_Z k) (finv n) 1 FK F ltac:(lia)) as [_ V]; [rewrite VK; fold f; change (bpow radix2 1) with 2; rewrite Rabs_pos_eq; lra|]. unfold fshare. rewrite V, VK. fold f. split; [apply rnd_at_least; [apply generic_format_0|lra]|].
  rewrite <- tie_to_one. apply round_le; [exact valid64|auto with typeclass_instances|lra].
Qed.

(** Shares that differ are told apart. *)
Lemma gap (n : Z) : (1 <= n <= 2 ^ 32)%Z -> 2097152 * u <= / IZR n.
Proof. intros N. apply Rle_trans with (bpow radix2 (-32)); [change 2097152 with (bpow radix2 21); rewrite <- bpow_plus; apply bpow_le; lia|apply (i_bounds n N)]. Qed.
Lemma step_share (n k l : Z) : (1 <= n <= 2 ^ 32)%Z -> (0 <= k < l)%Z -> (l <= n)%Z -> IZR k / IZR n + / IZR n <= IZR l / IZR n.
Proof.
  intros N K L. assert (N0 : 0 < / IZR n) by (apply Rinv_0_lt_compat, IZR_lt; lia). unfold Rdiv. replace (IZR k * / IZR n + / IZR n) with ((IZR k + 1) * / IZR n) by ring. apply Rmult_le_compat_r; [lra|]. rewrite <- plus_IZR. apply IZR_le. lia.
Qed.
Lemma share_less (n k l : Z) : (1 <= n <= 2 ^ 32)%Z -> (0 <= k < l)%Z -> (l <= n)%Z -> B2R (fshare n k) < B2R (fshare n l).
Proof.
  intros N K L. destruct (share_near n N k ltac:(lia)) as (_ & E1 & _). destruct (share_near n N l ltac:(lia)) as (_ & E2 & _). pose proof (gap n N) as G. pose proof (step_share n k l N K L) as S. pose proof v_small as US. apply Rabs_le_inv in E1. apply Rabs_le_inv in E2. lra.
Qed.

(** One minus a share *)
Lemma flip_unit (x : b64) : in_unit x -> in_unit (b64_sub b64_1 x) /\ Rabs (B2R (b64_sub b64_1 x) - (1 - B2R x)) <= 1.1 * u.
Proof.
  intros [F X]. destruct one_value as [V1 F1]. destruct (sub_fin b64_1 x 0 F1 F ltac:(lia)) as [G V]; [rewrite V1; change (bpow radix2 0) with 1; apply Rabs_le; lra|]. rewrite V1 in V. pose proof v_small as US. pose proof eta_small as ES.
  split; [split; [exact G|]; rewrite V; split; [apply rnd_at_least; [apply generic_format_0|lra]|apply rnd_at_most; [apply format_1|lra]]|]. rewrite V. eapply Rle_trans; [apply rnd_near with (m := 1); apply Rabs_le; lra|]. lra.
Qed.

(** ** Covers *)
Lemma half_format : generic_format radix2 f64 (/ 2).
Proof. change (/ 2) with (bpow radix2 (-1)). apply generic_format_FLT_bpow; [reflexivity|lia]. Qed.
Lemma cover_unit (s t : b64) : is_finite s = true -> Rabs (B2R s) <= 1 -> in_unit t -> in_unit (b64_add fhalf (b64_mul (b64_mul s fhalf) t)).
Proof.
  intros F S [FT T]. destruct half_value as [VH FH]. apply Rabs_le_inv in S.
  destruct (mul_fin s fhalf 0 F FH ltac:(lia)) as [F1 V1]; [rewrite VH; change (bpow radix2 0) with 1; apply Rabs_le; lra|]. rewrite VH in V1.
  assert (B1 : - / 2 <= B2R (b64_mul s fhalf) <= / 2) by (rewrite V1; split; [apply rnd_at_least; [apply generic_format_opp, half_format|lra]|apply rnd_at_most; [apply half_format|lra]]). set (a := b64_mul s fhalf) in *.
  assert (P : - / 2 <= B2R a * B2R t <= / 2). { apply Rabs_le_inv. rewrite Rabs_mult. rewrite <- (Rmult_1_r (/ 2)). apply Rmult_le_compat; auto using Rabs_pos; apply Rabs_le; lra. }
  destruct (mul_fin a t 0 F1 FT ltac:(lia)) as [F2 V2]; [change (bpow radix2 0) with 1; apply Rabs_le; lra|]. assert (B2 : - / 2 <= B2R (b64_mul a t) <= / 2) by (rewrite V2; split; [apply rnd_at_least; [apply generic_format_opp, half_format|lra]|apply rnd_at_most; [apply half_format|lra]]). set (b := b64_mul a t) in *.
  destruct (add_fin fhalf b 0 FH F2 ltac:(lia)) as [F3 V3]; [rewrite VH; change (bpow radix2 0) with 1; apply Rabs_le; lra|]. split; [exact F3|]. rewrite V3, VH. split; [apply rnd_at_least; [apply generic_format_0|lra]|apply rnd_at_most; [apply format_1|lra]].
Qed.

(** ** Faces of cuboids *)
Section Face.
  Variables (size : b64) (n : Z).
  Hypotheses (FS : is_finite size = true) (SB : bpow radix2 (-900) <= B2R size <= bpow radix2 1000) (N : (1 <= n <= 2 ^ 32)%Z).
  Let h := B2R size.
  Lemma half_size : is_finite (b64_div size (b64_of_Z 2)) = true /\ B2R (b64_div size (b64_of_Z 2)) = h / 2 /\ generic_format radix2 f64 (h / 2).
  Proof.
    destruct (b64_int 2 ltac:(lia)) as [V2 F2]. pose proof (bpow_gt_0 radix2 (-900)) as P9. fold h in SB.
    assert (G : generic_format radix2 f64 (h / 2)).
    { assert (GH := generic_format_B2R 53 1024 size). change (SpecFloat.fexp 53 1024) with f64 in GH. fold h in GH. change (h / 2) with (h * bpow radix2 (-1)). apply mult_bpow_exact_FLT; [exact GH|].
      assert (E : (-900 < mag radix2 h)%Z) by (apply mag_gt_bpow; rewrite Rabs_pos_eq; lra). lia. }
    assert (GE : rnd (h / 2) = h / 2) by (apply round_generic; [auto with typeclass_instances|exact G]).
    destruct (div_fin size (b64_of_Z 2) 1000 FS ltac:(rewrite V2; lra) ltac:(lia)) as [F V]; [rewrite V2; fold h; rewrite Rabs_pos_eq; lra|]. rewrite V2 in V. fold h in V. rewrite GE in V. now split.
  Qed.
  Lemma face_near (j : Z) : (0 <= j <= n)%Z -> is_finite (fface_coord size n j) = true /\ - (h / 2) <= B2R (fface_coord size n j) <= h / 2 /\
    Rabs (B2R (fface_coord size n j) - h * (IZR j / IZR n - 1 / 2)) <= 4 * (u * h) /\ (B2R (fshare n j) = 1 -> B2R (fface_coord size n j) = h / 2) /\ (B2R (fshare n j) = 0 -> B2R (fface_coord size n j) = - (h / 2)).
  Proof.
    intros J. destruct half_size as (FH & VH & GH). destruct (face_share_value n j N J) as [FU VU]. destruct (share_unit n j N J) as [_ U]. destruct (share_near n N j J) as (_ & E & T). pose proof v_small as US. pose proof (bpow_gt_0 radix2 (-900)) as P9. fold h in SB. assert (H0 : 0 < h) by lra.
    assert (FM := generic_format_B2R 53 1024 size). change (SpecFloat.fexp 53 1024) with f64 in FM. fold h in FM. unfold fface_coord. set (half := b64_div size (b64_of_Z 2)) in *. set (t := fface_share n j) in *. rewrite <- VU in *. set (x := B2R t) in *.
    assert (P : 0 <= h * x <= h) by (split; [apply Rmult_le_pos; lra|]; rewrite <- (Rmult_1_r h) at 2; apply Rmult_le_compat_l; lra).
    destruct (mul_fin size t 1000 FS FU ltac:(lia)) as [F1 V1]; [fold h x; rewrite Rabs_pos_eq; lra|]. fold h x in V1. assert (B1 : 0 <= B2R (b64_mul size t) <= h) by (rewrite V1; split; [apply rnd_at_least; [apply generic_format_0|lra]|apply rnd_at_most; [exact FM|lra]]).
    assert (R1 : Rabs (B2R (b64_mul size t) - h * x) <= u * h + eta) by (rewrite V1; apply rnd_near; rewrite Rabs_pos_eq; lra). set (y := b64_mul size t) in *.
    destruct (sub_fin y half 1000 F1 FH ltac:(lia)) as [F2 V2]; [rewrite VH; apply Rabs_le; lra|]. rewrite VH in V2. split; [exact F2|]. split; [rewrite V2; split; [apply rnd_at_least; [apply generic_format_opp; exact GH|lra]|apply rnd_at_most; [exact GH|lra]]|]. split; [|split].
    - assert (R2 : Rabs (B2R (b64_sub y half) - (B2R y - h / 2)) <= u * (h / 2) + eta) by (rewrite V2; apply rnd_near, Rabs_le; lra). assert (ET : eta <= / 1000 * (u * h)).
      { apply Rle_trans with (bpow radix2 (-10) * (u * bpow radix2 (-900))); [rewrite <- !bpow_plus; apply bpow_le; lia|]. apply Rmult_le_compat; [apply bpow_ge_0|apply Rmult_le_pos; lra|change (bpow radix2 (-10)) with (/ 1024); lra|apply Rmult_le_compat_l; lra]. }
      set (w := bpow radix2 (-53)) in *. set (q := IZR j / IZR n) in *. assert (HE : Rabs (h * (x - q)) <= h * (2.1 * w)) by (rewrite Rabs_mult, (Rabs_pos_eq h) by lra; apply Rmult_le_compat_l; lra). assert (WH : 0 <= w * h) by (apply Rmult_le_pos; lra).
      apply Rabs_le_inv in HE. apply Rabs_le_inv in R1. apply Rabs_le_inv in R2. apply Rabs_le. lra.
    - intros E1. assert (YV : B2R y = h) by (rewrite V1, E1, Rmult_1_r; apply round_generic; [auto with typeclass_instances|exact FM]). rewrite V2, YV. replace (h - h / 2) with (h / 2) by field. apply round_generic; [auto with typeclass_instances|exact GH].
    - intros E0. assert (YV : B2R y = 0) by (rewrite V1, E0, Rmult_0_r; apply round_0; auto with typeclass_instances). rewrite V2, YV, Rminus_0_l. apply round_generic; [auto with typeclass_instances|apply generic_format_opp; exact GH].
  Qed.
End Face.
