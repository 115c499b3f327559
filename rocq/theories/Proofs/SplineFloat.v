(** The index of UniformSpline::Evaluate in IEEE binary64. *)
From Coq Require Import ZArith Reals Bool Lia Lra.
From Flocq Require Import Core IEEE754.BinarySingleNaN.
From Verif Require Import Model.Scalar Model.UniformSpline.
Local Open Scope R_scope.

Notation f64 := (FLT_exp (3 - 1024 - 53) 53).
Notation rnd := (round radix2 f64 ZnearestE).
Lemma valid64 : Valid_exp f64.
Proof. apply FLT_exp_valid. reflexivity. Qed.

Lemma format_int n : (1 <= n <= 2 ^ 53)%Z -> generic_format radix2 f64 (IZR n).
Proof.
  intros H. destruct (Z.eq_dec n (2 ^ 53)) as [->|N].
  - change (IZR (2 ^ 53)) with (IZR (radix2 ^ 53)). rewrite (IZR_Zpower radix2 53) by lia. apply generic_format_FLT_bpow; [reflexivity|lia].
  - apply generic_format_FLT. exists (Float radix2 n 0).
    + unfold F2R; cbn. ring.
    + cbn [Fnum]. rewrite Z.abs_eq by lia. change (radix2 ^ 53)%Z with (2 ^ 53)%Z. lia.
    + cbn [Fexp]. lia.
Qed.
Lemma int_small n : (1 <= n <= 2 ^ 53)%Z -> IZR n < bpow radix2 1024.
Proof.
  intros H. apply Rle_lt_trans with (bpow radix2 53); [|apply bpow_lt; reflexivity].
  rewrite <- (IZR_Zpower radix2 53) by lia. apply IZR_le. exact (proj2 H).
Qed.
Lemma b64_int n : (1 <= n <= 2 ^ 53)%Z -> B2R (b64_of_Z n) = IZR n /\ is_finite (b64_of_Z n) = true.
Proof.
  intros H. assert (V := valid64). assert (C := binary_normalize_correct 53 1024 b64_prec_gt_0 b64_prec_lt_emax mode_NE n 0 false). cbv zeta in C.
  change (SpecFloat.fexp 53 1024) with f64 in C. cbn [round_mode] in C.
  replace (F2R (Float radix2 n 0)) with (IZR n) in C by (unfold F2R; cbn; ring).
  rewrite (round_generic radix2 f64 ZnearestE (IZR n) (format_int n H)) in C.
  rewrite Rlt_bool_true in C.
  - unfold b64_of_Z. tauto.
  - rewrite Rabs_pos_eq by (apply IZR_le; lia). apply int_small. exact H.
Qed.

Lemma product_below t n : generic_format radix2 f64 t -> 0 < t < 1 -> (1 <= n <= 2 ^ 53)%Z -> rnd (t * IZR n) <= pred radix2 f64 (IZR n).
Proof.
  intros F T N. assert (V := valid64). assert (P : 1 <= IZR n) by (apply IZR_le; lia). assert (G := format_int n N).
  assert (E : Exp_not_FTZ f64) by (apply FLT_exp_monotone || auto with typeclass_instances).
  apply round_N_le_midp; [exact V|apply generic_format_pred; assumption|].
  assert (S := succ_pred radix2 f64 (IZR n) G). rewrite S.
  assert (A : t <= 1 - bpow radix2 (-53)).
  { apply Rle_trans with (pred radix2 f64 (bpow radix2 0)).
    - apply pred_ge_gt; [exact V|exact F|apply generic_format_FLT_bpow; [reflexivity|lia]|exact (proj2 T)].
    - rewrite pred_bpow. right. reflexivity. }
  assert (Q0 : / 2 <= pred radix2 f64 (IZR n)).
  { change (/ 2) with (bpow radix2 (-1)). apply pred_ge_gt; [exact V|apply generic_format_FLT_bpow; [reflexivity|lia]|exact G|].
    apply Rlt_le_trans with 1; [cbn; lra|exact P]. }
  assert (Q1 : pred radix2 f64 (IZR n) < IZR n) by (apply pred_lt_id; lra).
  rewrite succ_eq_pos in S by lra.
  assert (U : ulp radix2 f64 (pred radix2 f64 (IZR n)) <= pred radix2 f64 (IZR n) * bpow radix2 (1 - 53)).
  { rewrite <- (Rabs_pos_eq (pred radix2 f64 (IZR n))) at 2 by lra. apply ulp_FLT_le. rewrite Rabs_pos_eq by lra.
    apply Rle_trans with (bpow radix2 (-1)); [apply bpow_le; lia|exact Q0]. }
  assert (B : bpow radix2 (1 - 53) = 2 * bpow radix2 (-53)) by (change (1 - 53)%Z with (1 + -53)%Z; rewrite bpow_plus; reflexivity).
  rewrite B in U. assert (B0 := bpow_gt_0 radix2 (-53)). set (b := bpow radix2 (-53)) in *. set (p := pred radix2 f64 (IZR n)) in *.
  assert (M : t * IZR n <= (1 - b) * IZR n) by (apply Rmult_le_compat_r; lra).
  assert (K : p * b < IZR n * b) by (apply Rmult_lt_compat_r; assumption). lra.
Qed.

Lemma index_in_range t n : is_finite t = true -> 0 < B2R t < 1 -> (1 <= n <= 2 ^ 53)%Z -> (0 <= spline_index64 t n < n)%Z.
Proof.
  intros F T N. destruct (b64_int n N) as [En Fn]. assert (V := valid64).
  assert (C := Bmult_correct 53 1024 b64_prec_gt_0 b64_prec_lt_emax mode_NE t (b64_of_Z n)).
  fold (b64_mul t (b64_of_Z n)) in C. rewrite En in C. change (SpecFloat.fexp 53 1024) with f64 in C. cbn [round_mode] in C.
  assert (H := product_below (B2R t) n (generic_format_B2R 53 1024 t) T N). assert (P : 1 <= IZR n) by (apply IZR_le; lia).
  assert (Q1 : pred radix2 f64 (IZR n) < IZR n) by (apply pred_lt_id; lra).
  assert (L : 0 <= rnd (B2R t * IZR n)).
  { apply round_ge_generic; auto with typeclass_instances; [apply generic_format_0|]. apply Rmult_le_pos; lra. }
  rewrite Rlt_bool_true in C by (rewrite Rabs_pos_eq by exact L; apply Rle_lt_trans with (IZR n); [lra|apply int_small; exact N]).
  destruct C as [C _]. unfold spline_index64. rewrite C. split.
  - rewrite <- (Zfloor_IZR 0). apply Zfloor_le. exact L.
  - apply lt_IZR. apply Rle_lt_trans with (1 := Zfloor_lb _). lra.
Qed.
