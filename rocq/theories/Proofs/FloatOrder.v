(** The comparison of binary64 numbers is a strict weak order on all values but NaN. *)
From Coq Require Import Reals ZArith Bool Lia Lra.
From Flocq Require Import Core IEEE754.BinarySingleNaN.
From Verif Require Import Model.Scalar Model.Aabb Spec.AabbSpec.

Definition b64_max : b64 := @Bmax_float 53 1024 b64_prec_gt_0 b64_prec_lt_emax.
Definition B64Order : order := mkOrder b64 (@Bltb 53 1024) b64_max (@Bopp 53 1024 b64_max).
Definition not_nan (x : b64) : Prop := is_nan x = false.

(** -1, 0, 1 for minus infinity, finite, plus infinity. *)
Definition cls (x : b64) : Z := match x with B754_infinity true => -1 | B754_infinity false => 1 | _ => 0 end.
Definition val (x : b64) : R := B2R x.

Lemma bltb_iff x y : not_nan x -> not_nan y ->
  Bltb x y = true <-> (cls x < cls y)%Z \/ (cls x = 0%Z /\ cls y = 0%Z /\ (val x < val y)%R).
Proof.
  intros Hx Hy.
  destruct (is_finite x) eqn:Fx; [destruct (is_finite y) eqn:Fy|].
  - rewrite Bltb_correct by assumption. 
    assert (cls x = 0%Z) by (destruct x; try reflexivity; discriminate).
    assert (cls y = 0%Z) by (destruct y; try reflexivity; discriminate).
    destruct (Rlt_bool_spec (B2R x) (B2R y)); unfold val; split; intros K; try lia; try lra; auto; try discriminate.
    destruct K as [K|(_ & _ & K)]; [lia|lra].
  - destruct y as [s|s| |s m e B]; try discriminate. assert (cls x = 0%Z) as -> by (destruct x; try reflexivity; discriminate).
    destruct x as [t|t| |t m e B]; try discriminate; destruct s; cbn; try (destruct t); cbn; split; intros K; try discriminate; try reflexivity; try lia; auto;
    destruct K as [K|(_ & K & _)]; lia.
  - destruct x as [t|t| |t m e B]; try discriminate.
    destruct y as [s|s| |s m e B]; try discriminate; destruct t; cbn; try (destruct s); cbn; split; intros K; try discriminate; try reflexivity; try lia; auto;
    destruct K as [K|(K & _)]; lia.
Qed.

Lemma b64_laws : order_laws B64Order not_nan.
Proof.
  constructor.
  - reflexivity.
  - reflexivity.
  - intros x y Hx Hy H. cbn in *. apply bltb_iff in H; try assumption.
    destruct (Bltb y x) eqn:E; [|reflexivity]. apply bltb_iff in E; try assumption.
    destruct H as [H|(H1 & H2 & H)], E as [E|(E1 & E2 & E)]; try lia. lra.
  - intros x y z Hx Hy Hz H. cbn in *. rewrite !bltb_iff by assumption. apply bltb_iff in H; try assumption.
    destruct (Z.lt_trichotomy (cls x) (cls y)) as [A|[A|A]], (Z.lt_trichotomy (cls y) (cls z)) as [B|[B|B]]; auto;
    destruct H as [H|(H1 & H2 & H)]; try lia.
    assert (cls y = 0%Z) as Y by congruence. destruct (Rlt_or_le (val x) (val y)); [auto|]. right; right. repeat split; try assumption. lra.
Qed.

Lemma b64_ranged x : is_finite x = true -> ranged B64Order x.
Proof.
  intros F. 
  assert (N : not_nan x) by (destruct x; try reflexivity; discriminate).
  assert (A : (Rabs (val x) <= bpow radix2 1024 - bpow radix2 (1024 - 53))%R).
  { apply (abs_B2R_le_emax_minus_prec 53 1024 b64_prec_gt_0). }
  assert (M0 : val b64_max = (IZR (2 ^ 53 - 1) * bpow radix2 (1024 - 53))%R).
  { unfold val, b64_max, Bmax_float. rewrite B2R_SF2B. reflexivity. }
  assert (M : val b64_max = (bpow radix2 1024 - bpow radix2 (1024 - 53))%R).
  { rewrite M0, minus_IZR. change (bpow radix2 1024) with (bpow radix2 (53 + (1024 - 53))).
    rewrite bpow_plus. change (bpow radix2 53) with (IZR (2 ^ 53)). ring. }
  assert (F' : cls x = 0%Z) by (destruct x; try reflexivity; discriminate).
  assert (V : val (Bopp b64_max) = (- val b64_max)%R) by apply B2R_Bopp.
  clear M0. apply Rabs_le_inv in A. split; unfold ole; cbn [olt omax olow B64Order].
  - destruct (Bltb x (Bopp b64_max)) eqn:E; [|reflexivity]. apply bltb_iff in E; [|exact N|reflexivity].
    rewrite F' in E. destruct E as [E|(_ & _ & E)]; [cbn in E; lia|]. rewrite V in E. lra.
  - destruct (Bltb b64_max x) eqn:E; [|reflexivity]. apply bltb_iff in E; [|reflexivity|exact N].
    rewrite F' in E. destruct E as [E|(_ & _ & E)]; [cbn in E; lia|]. lra.
Qed.
