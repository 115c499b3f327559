(** Property C39: uniform splines. *)
From Coq Require Import ZArith Reals List Bool Arith Lia Lra Psatz.
From Flocq Require Import Core IEEE754.BinarySingleNaN.
From Verif Require Import Model.Scalar Model.Vec Model.UniformSpline Spec.SplineSpec Proofs.VecLemmas Proofs.UniformSplineLemmas Proofs.SplineFloat Proofs.UniformSplineEval.
Import ListNotations.
Local Open Scope R_scope.

(** The spline through n points takes the i-th point at i/(n-1), for every expansion; *)
Theorem C39_interpolates : forall old points e i, (2 <= length points)%nat -> (i < length points)%nat ->
  spline_eval (build old points e) (INR i / INR (length points - 1)) = Some (nth i points vzero).
Proof. exact interpolates_holds. Qed.
Print Assumptions C39_interpolates.

(** it stays at the first and last point outside of [0,1], and is defined everywhere; *)
Theorem C39_clamped : forall old points e t, (2 <= length points)%nat ->
  (t <= 0 -> spline_eval (build old points e) t = Some (hd vzero points)) /\
  (1 <= t -> spline_eval (build old points e) t = Some (last points vzero)) /\
  exists p, spline_eval (build old points e) t = Some p.
Proof. exact clamped_holds. Qed.
Print Assumptions C39_clamped.

(** it is continuously differentiable in every coordinate, for every expansion; *)
Theorem C39_continuously_differentiable : forall old points e c, (2 <= length points)%nat -> coordinate c ->
  exists f', smooth (fun t => c (value (spline_eval (build old points e) t))) f'.
Proof. exact continuously_differentiable_holds. Qed.
Print Assumptions C39_continuously_differentiable.

(** with the default expansion it is the natural cubic spline: twice continuously differentiable, without curvature at the ends. *)
Theorem C39_natural_cubic : forall old points c, (2 <= length points)%nat -> coordinate c ->
  exists f' f'', smooth (fun t => c (value (spline_eval (build old points 1) t))) f' /\ smooth f' f'' /\
    tends_at_0 f'' 0 /\ tends_at_1 f'' 0.
Proof. exact natural_cubic_holds. Qed.
Print Assumptions C39_natural_cubic.

(** Without expansion the spline runs along the straight lines between neighbouring points, *)
Theorem C39_no_expansion_is_polyline : forall old points t, (2 <= length points)%nat -> 0 <= t <= 1 ->
  exists i s, (S i < length points)%nat /\ 0 <= s <= 1 /\
    spline_eval (build old points 0) t = Some (lerp3 (nth i points vzero) (nth (S i) points vzero) s).
Proof. exact no_expansion_is_polyline_holds. Qed.
Print Assumptions C39_no_expansion_is_polyline.

(** although not linearly in the parameter: half way between 0 and 1 it is at 11/16. *)
Theorem C39_linear_refuted : spline_eval (build [] [V3 0 0 0; V3 1 0 0] 0) (1 / 2) = Some (V3 (11 / 16) 0 0).
Proof. exact linear_refuted_holds. Qed.
Print Assumptions C39_linear_refuted.

(** Building from a single point changes nothing: the spline keeps the curve built before. *)
Theorem C39_single_point_refuted : forall old p e, build old [p] e = old.
Proof. exact single_point_refuted_holds. Qed.
Print Assumptions C39_single_point_refuted.

(** In binary64 the index of the polynomial is in range, although the product t*n is rounded. *)
Theorem C39_index_in_range : forall t n, is_finite t = true -> 0 < B2R t < 1 -> (1 <= n <= 2 ^ 53)%Z ->
  (0 <= spline_index64 t n < n)%Z.
Proof. exact index_in_range_holds. Qed.
Print Assumptions C39_index_in_range.

(** Through 0, 1, 0 the natural cubic spline is at 11/16 a quarter of the way. *)
Example C39_example : spline_eval (build [] [V3 0 0 0; V3 1 0 0; V3 0 0 0] 1) (1 / 4) = Some (V3 (11 / 16) 0 0).
Proof.
  rewrite (eval_inside [] [V3 0 0 0; V3 1 0 0; V3 0 0 0] 1 (1 / 4) 0) by (cbn; lia || lra). f_equal. cbn [length Nat.sub INR].
  apply coord_ext. intros c C. rewrite poly_coord by exact C. unfold seg, cubic, coeff0, coeff1, coeff2, coeff3, ss, num. rewrite map_length.
  destruct C as [->|[->| ->]]; cbn [map length Nat.sub sdown Nat.add sq sv sy Nat.eqb px vx vy vz nth num]; unfold sy, px, num; cbn [length nth Nat.eqb Nat.sub]; field.
Qed.
(** One half is a parameter as C39_index_in_range asks for. *)
Example C39_index_example : exists t : b64, is_finite t = true /\ 0 < B2R t < 1.
Proof.
  set (t := SF2B (prec := 53) (emax := 1024) (SpecFloat.S754_finite false 4503599627370496 (-53)) eq_refl).
  exists t. split; [reflexivity|]. rewrite <- SF2R_B2SF. unfold t. rewrite B2SF_SF2B.
  unfold SF2R, F2R. cbn [cond_Zopp Fnum Fexp bpow]. change (Z.pow_pos radix2 53) with 9007199254740992%Z. lra.
Qed.
