(** Property C101: uniform splines in double precision. *)
From Coq Require Import ZArith Reals List Bool Arith Lia Lra.
From Flocq Require Import Core IEEE754.BinarySingleNaN.
From Verif Require Import Model.Scalar Model.Vec Model.BoxFloat Model.PlaneFloat Model.UniformSpline Model.UniformSplineFloat Spec.FloatSpec Spec.UniformSplineFloatSpec.
From Verif Require Import Proofs.SplineFloat Proofs.FrustumFloatLemmas Proofs.UniformSplineFloatEval.
Import ListNotations.
Local Open Scope R_scope.

Notation forigin := (FV b64_0 b64_0 b64_0).

(** For up to 2^32 points with coordinates up to M, and expansions from -1 to 1: at every parameter the computed curve is at most 1022 + 103 n units away from
    the exact spline through the same points (C39), n being the number of pieces. *)
Theorem C101_near : forall old old' M points (e t : b64), usual_size M -> (2 <= length points)%nat -> (Z.of_nat (length points) <= 2 ^ 32)%Z ->
  Forall (point_within M) points -> is_finite e = true /\ Rabs (B2R e) <= 1 -> is_finite t = true ->
  exists p q, fspline_eval (fbuild old points e) t = Some p /\ spline_eval (build old' (map exact_vec points) (B2R e)) (B2R t) = Some q /\
    at_most_off ((1022 + 103 * INR (length points - 1)) * unit_of M) p q.
Proof. exact near_holds. Qed.
Print Assumptions C101_near.

(** It passes through every control point up to rounding. *)
Theorem C101_through : forall old M points (e : b64) i, usual_size M -> (2 <= length points)%nat -> (Z.of_nat (length points) <= 2 ^ 32)%Z ->
  Forall (point_within M) points -> is_finite e = true /\ Rabs (B2R e) <= 1 -> (i < length points)%nat ->
  exists p, fspline_eval (fbuild old points e) (b64_div (b64_of_Z (Z.of_nat i)) (b64_of_Z (Z.of_nat (length points - 1)))) = Some p /\
    at_most_off ((1022 + 206 * INR (length points - 1)) * unit_of M) p (exact_vec (nth i points forigin)).
Proof. exact through_holds. Qed.
Print Assumptions C101_through.

(** Every piece begins exactly at its control point and ends at most 1022 units from the next one, however many points there are: the errors of the elimination
    do not add up, and the curve has no visible gaps. *)
Theorem C101_joints : forall old M points (e : b64) k, usual_size M -> (2 <= length points)%nat -> Forall (point_within M) points ->
  is_finite e = true /\ Rabs (B2R e) <= 1 -> (S k < length points)%nat ->
  exists q, nth_error (fbuild old points e) k = Some q /\ at_most_off 0 (fpoly_eval q b64_0) (exact_vec (nth k points forigin)) /\
    at_most_off (1022 * unit_of M) (fpoly_eval q (b64_of_Z 1)) (exact_vec (nth (S k) points forigin)).
Proof. exact joints_holds. Qed.
Print Assumptions C101_joints.

(** Up to the parameter 0, minus infinity included, the curve is exactly at the first point; *)
Theorem C101_first : forall old M points (e t : b64), usual_size M -> (2 <= length points)%nat -> Forall (point_within M) points ->
  is_finite e = true /\ Rabs (B2R e) <= 1 -> up_to 0 t ->
  exists p, fspline_eval (fbuild old points e) t = Some p /\ at_most_off 0 p (exact_vec (nth 0 points forigin)).
Proof.
  intros old M points e t HM Hn Hp He H. destruct (low_holds old M points e t HM Hn Hp He H) as (p & E & O). exists p. split; [exact E|].
  rewrite <- (map_nth exact_vec). exact O.
Qed.
Print Assumptions C101_first.

(** from 1 on, infinity included, it is within 1022 units of the last point, *)
Theorem C101_last : forall old M points (e t : b64), usual_size M -> (2 <= length points)%nat -> Forall (point_within M) points ->
  is_finite e = true /\ Rabs (B2R e) <= 1 -> from_on 1 t ->
  exists p, fspline_eval (fbuild old points e) t = Some p /\ at_most_off (1022 * unit_of M) p (exact_vec (nth (length points - 1) points forigin)).
Proof.
  intros old M points e t HM Hn Hp He H. destruct (high_holds old M points e t HM Hn Hp He H) as (p & E & O). exists p. split; [exact E|].
  rewrite <- (map_nth exact_vec). exact O.
Qed.
Print Assumptions C101_last.

(** but not exactly there: the default spline through 0, 2, 1 ends beyond 1. *)
Definition three_points : list fvec := [forigin; FV (b64_of_Z 2) b64_0 b64_0; FV (b64_of_Z 1) b64_0 b64_0].
Theorem C101_last_refuted : exists p, fspline_eval (fbuild [] three_points (b64_of_Z 1)) (b64_of_Z 1) = Some p /\ 1 < B2R (fx p).
Proof.
  eexists. split; [reflexivity|]. match goal with |- 1 < B2R (fx ?p) => set (q := p) end.
  assert (E : fx q = @B754_finite 53 1024 false 4503599627370497 (-52) eq_refl) by (apply B2SF_inj; vm_compute; reflexivity).
  rewrite E. cbn [B2R]. unfold F2R. cbn [Fnum Fexp cond_Zopp]. change (bpow radix2 (-52)) with (/ 4503599627370496). lra.
Qed.
Print Assumptions C101_last_refuted.

(** A parameter that is not a number leads to the conversion of a NaN to an integer, which is undefined. *)
Theorem C101_nan_refuted : forall old points (e : b64), (2 <= length points)%nat -> fspline_eval (fbuild old points e) B754_nan = None.
Proof. exact nan_holds. Qed.
Print Assumptions C101_nan_refuted.

(** These three points and the expansion 1 meet the hypotheses, for M = 2; *)
Example C101_case : usual_size 2 /\ (2 <= length three_points)%nat /\ Forall (point_within 2) three_points /\ is_finite (b64_of_Z 1) = true /\ Rabs (B2R (b64_of_Z 1)) <= 1.
Proof.
  destruct (b64_int 1 ltac:(lia)) as [V1 F1]. destruct (b64_int 2 ltac:(lia)) as [V2 F2].
  assert (Z : is_finite b64_0 = true /\ Rabs (B2R b64_0) <= 2) by (split; [reflexivity|]; cbn; rewrite Rabs_R0; lra).
  split; [split; [apply Rle_trans with (bpow radix2 1); [apply bpow_le; lia|cbn; lra]|apply Rle_trans with (bpow radix2 1); [cbn; lra|apply bpow_le; lia]]|].
  split; [cbn; lia|]. split.
  - assert (W : forall f : b64, is_finite f = true /\ Rabs (B2R f) <= 2 -> point_within 2 (FV f b64_0 b64_0)) by (intros f H; split; [exact H|split; exact Z]).
    unfold three_points. apply Forall_cons; [apply W; exact Z|]. apply Forall_cons; [apply W; split; [exact F2|rewrite V2, Rabs_pos_eq; lra]|].
    apply Forall_cons; [apply W; split; [exact F1|rewrite V1, Rabs_pos_eq; lra]|apply Forall_nil].
  - split; [exact F1|]. rewrite V1, Rabs_pos_eq; lra.
Qed.
(** a quarter of the way the computed curve is where the exact one is, at 11/16 (C39_example); *)
Definition quarter : b64 := b64_div (b64_of_Z 1) (b64_of_Z 4).
Example C101_value : option_map (fun p => B2SF (fx p)) (fspline_eval (fbuild [] [forigin; FV (b64_of_Z 1) b64_0 b64_0; forigin] (b64_of_Z 1)) quarter) = Some (SpecFloat.S754_finite false 6192449487634432 (-53)).
Proof. vm_compute. reflexivity. Qed.
(** the infinities are parameters outside of the curve. *)
Example C101_infinite : up_to 0 (B754_infinity true) /\ from_on 1 (B754_infinity false).
Proof. split; left; reflexivity. Qed.
