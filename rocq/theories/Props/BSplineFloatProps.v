(** Property C102: B-splines in double precision. *)
From Coq Require Import ZArith Reals List Bool Arith Lia Lra.
From Flocq Require Import Core IEEE754.BinarySingleNaN.
From Verif Require Import Model.Scalar Model.Vec Model.BoxFloat Model.PlaneFloat Model.Spline Model.BSplineFloat Spec.FloatSpec Spec.SplineSpec Spec.UniformSplineFloatSpec Spec.BSplineFloatSpec.
From Verif Require Import Proofs.SplineFloat Proofs.FrustumFloatLemmas Proofs.BSplineFloatEval.
Import ListNotations.
Local Open Scope R_scope.

(** For up to 2^20 control points with coordinates up to M, knots in order that are equal or at least 2^-500 apart, and an order q up to 100: at every parameter
    the computed curve is at most 6 q + 2 n + 2 units away from the exact one (C40), n being the number of points. *)
Theorem C102_near : forall l q (t : b64) M, l <> [] -> sorted_knots (exact_points l) -> Forall moderate (map snd l) -> well_separated l -> (q <= 100)%nat -> moderate t ->
  usual_size M -> (Z.of_nat (length l) <= 2 ^ 20)%Z -> Forall (point_within M) (map fst l) ->
  exists p r, fevaluate l q t = Some p /\ evaluate (mkSpline (exact_points l) (Z.of_nat q)) (B2R t) = Some r /\
    at_most_off ((6 * INR q + 2 * INR (length l) + 2) * unit_of M) p r.
Proof. intros l q t M H1 H2 H3 H4 H5 H6. exact (bspline_near_holds l q t H1 H2 H3 H4 H5 H6 M). Qed.
Print Assumptions C102_near.

(** A control point affects the computed curve only between the order-th knot before it and the knot after it: elsewhere the same bits come out, except for the signs of zeros. *)
Theorem C102_local : forall l1 p p' x l2 q (t : b64), sorted_knots (exact_points (l1 ++ (p, x) :: l2)) -> Forall moderate (map snd (l1 ++ (p, x) :: l2)) ->
  well_separated (l1 ++ (p, x) :: l2) -> (q <= 100)%nat -> moderate t -> finite_point p -> finite_point p' ->
  B2R t < nth (length l1 - q) (map snd (exact_points (l1 ++ (p, x) :: l2))) 0 \/ nth 0 (map snd (exact_points l2)) (B2R x) <= B2R t ->
  exists r r', fevaluate (l1 ++ (p, x) :: l2) q t = Some r /\ fevaluate (l1 ++ (p', x) :: l2) q t = Some r' /\ same_point r r'.
Proof. exact bspline_local_holds. Qed.
Print Assumptions C102_local.

(** Control points without negative coordinates give curve points without negative coordinates, however the weights are rounded. *)
Theorem C102_octant : forall l q (t : b64), l <> [] -> sorted_knots (exact_points l) -> Forall moderate (map snd l) -> well_separated l -> (q <= 100)%nat -> moderate t ->
  Forall in_octant (map fst l) -> exists p, fevaluate l q t = Some p /\ in_octant p.
Proof. exact bspline_octant_holds. Qed.
Print Assumptions C102_octant.

(** Before the first knot, and from the last knot on, the result is exactly the origin. *)
Theorem C102_outside : forall l q (t : b64), l <> [] -> sorted_knots (exact_points l) -> Forall moderate (map snd l) -> well_separated l -> (q <= 100)%nat -> moderate t ->
  Forall finite_point (map fst l) -> B2R t < nth 0 (map snd (exact_points l)) 0 \/ nth (length l - 1) (map snd (exact_points l)) 0 <= B2R t ->
  exists p, fevaluate l q t = Some p /\ at_most_off 0 p vzero.
Proof. exact bspline_outside_holds. Qed.
Print Assumptions C102_outside.

(** The distance between knots matters: with the knots 0, 2^-1074 and 1 the polyline at 1/2 is not a number, because 1/2 over 2^-1074 is infinite and is multiplied by 0. *)
Definition half64 : b64 := b64_div (b64_of_Z 1) (b64_of_Z 2).
Definition tiny64 : b64 := @B754_finite 53 1024 false 1 (-1074) eq_refl.
Definition one_up (x : b64) : fvec * b64 := (FV (b64_of_Z 1) (b64_of_Z 1) (b64_of_Z 1), x).
Theorem C102_close_knots_refuted : sorted_knots (exact_points [one_up b64_0; one_up tiny64; one_up (b64_of_Z 1)]) /\
  exists p, fevaluate [one_up b64_0; one_up tiny64; one_up (b64_of_Z 1)] 1 half64 = Some p /\ is_nan (fx p) = true.
Proof.
  split.
  - destruct (b64_int 1 ltac:(lia)) as [V1 _]. unfold exact_points, one_up. cbn [map fst snd sorted_knots]. rewrite V1. unfold tiny64. cbn [B2R]. unfold F2R. cbn [Fnum Fexp cond_Zopp].
    assert (0 < bpow radix2 (-1074)) by apply bpow_gt_0. assert (bpow radix2 (-1074) <= bpow radix2 0) by (apply bpow_le; lia). change (bpow radix2 0) with 1 in *. change (B2R b64_0) with 0. repeat split; lra.
  - eexists. split; [reflexivity|]. vm_compute. reflexivity.
Qed.
Print Assumptions C102_close_knots_refuted.

(** Four control points with the knots 0, 1, 2, 3 meet the hypotheses, with M = 2; *)
Definition integer_point (x y z : Z) (k : Z) : fvec * b64 := (FV (b64_of_Z x) (b64_of_Z y) (b64_of_Z z), b64_of_Z k).
Definition four_points : list (fvec * b64) := [integer_point 0 0 0 0; integer_point 1 2 0 1; integer_point 2 2 0 2; integer_point 2 0 0 3].
Lemma small_int n : (0 <= n <= 3)%Z -> moderate (b64_of_Z n) /\ B2R (b64_of_Z n) = IZR n.
Proof.
  intros H. destruct (b64_integer n ltac:(lia)) as [V F]. split; [|exact V]. split; [exact F|]. rewrite V. apply Rle_trans with (bpow radix2 2); [|apply bpow_le; lia].
  change (bpow radix2 2) with 4. apply Rabs_le. assert (0 <= IZR n <= 3) by (split; apply IZR_le; lia). lra.
Qed.
Lemma small_point x y z k : (0 <= x <= 2)%Z -> (0 <= y <= 2)%Z -> (0 <= z <= 2)%Z -> point_within 2 (fst (integer_point x y z k)) /\ in_octant (fst (integer_point x y z k)) /\ finite_point (fst (integer_point x y z k)).
Proof.
  intros Hx Hy Hz. unfold integer_point, point_within, in_octant, finite_point. cbn [fst fx fy fz].
  assert (K : forall n, (0 <= n <= 2)%Z -> is_finite (b64_of_Z n) = true /\ Rabs (B2R (b64_of_Z n)) <= 2 /\ 0 <= B2R (b64_of_Z n)).
  { intros n H. destruct (small_int n ltac:(lia)) as [[F _] V]. rewrite V. assert (0 <= IZR n <= 2) by (split; apply IZR_le; lia). split; [exact F|]. rewrite Rabs_pos_eq by lra. split; lra. }
  destruct (K x Hx) as (? & ? & ?), (K y Hy) as (? & ? & ?), (K z Hz) as (? & ? & ?). repeat split; assumption.
Qed.
Example C102_case : four_points <> [] /\ sorted_knots (exact_points four_points) /\ Forall moderate (map snd four_points) /\ well_separated four_points /\
  usual_size 2 /\ Forall (fun p => point_within 2 p /\ in_octant p /\ finite_point p) (map fst four_points).
Proof.
  destruct (small_int 0 ltac:(lia)) as [M0 V0], (small_int 1 ltac:(lia)) as [M1 V1], (small_int 2 ltac:(lia)) as [M2 V2], (small_int 3 ltac:(lia)) as [M3 V3].
  split; [discriminate|]. split; [unfold exact_points, four_points, integer_point; cbn [map fst snd sorted_knots]; rewrite V0, V1, V2, V3; repeat split; lra|].
  split; [unfold four_points, integer_point; cbn [map snd]; repeat (apply Forall_cons; [assumption|]); apply Forall_nil|]. split.
  - assert (K : forall x, In x (map snd four_points) -> exists n, B2R x = IZR n).
    { unfold four_points, integer_point. cbn [map snd In]. intros x [<-|[<-|[<-|[<-|[]]]]]; eexists; eassumption. }
    intros x y X Y. destruct (K x X) as [n ->], (K y Y) as [m ->]. destruct (Z.eq_dec n m) as [->|D]; [left; reflexivity|right]. rewrite <- minus_IZR, <- abs_IZR.
    apply Rle_trans with (bpow radix2 0); [apply bpow_le; lia|]. change (bpow radix2 0) with 1. apply IZR_le. lia.
  - split; [split; [apply Rle_trans with (bpow radix2 1); [apply bpow_le; lia|cbn; lra]|apply Rle_trans with (bpow radix2 1); [cbn; lra|apply bpow_le; lia]]|].
    unfold four_points. cbn [map]. repeat (apply Forall_cons; [apply small_point; lia|]). apply Forall_nil.
Qed.
(** of order 2 they give the value (15/8, 7/4, 0) at 3/2 without any error, *)
Example C102_value : option_map (fun p => (B2SF (fx p), B2SF (fy p))) (fevaluate four_points 2 (b64_div (b64_of_Z 3) (b64_of_Z 2))) =
  Some (SpecFloat.S754_finite false 8444249301319680 (-52), SpecFloat.S754_finite false 7881299347898368 (-52)).
Proof. vm_compute. reflexivity. Qed.
(** and 1/2 comes before the knots of the last point, and after no knot at all. *)
Example C102_local_case : moderate half64 /\ B2R half64 < nth (3 - 2) (map snd (exact_points four_points)) 0.
Proof.
  assert (E : half64 = @B754_finite 53 1024 false 4503599627370496 (-53) eq_refl) by (apply B2SF_inj; vm_compute; reflexivity).
  assert (V : B2R half64 = / 2). { rewrite E. cbn [B2R]. unfold F2R. cbn [Fnum Fexp cond_Zopp]. change (bpow radix2 (-53)) with (/ 9007199254740992). lra. }
  split; [split; [reflexivity|]|].
  - rewrite V, Rabs_pos_eq by lra. apply Rle_trans with (bpow radix2 0); [cbn; lra|apply bpow_le; lia].
  - rewrite V. change (/ 2 < B2R (b64_of_Z 1)). rewrite (proj2 (small_int 1 ltac:(lia))). lra.
Qed.
