(** Property C103: the closest point on a segment in double precision. *)
From Coq Require Import ZArith Reals List Bool Arith Lia Lra.
From Flocq Require Import Core IEEE754.BinarySingleNaN.
From Verif Require Import Model.Scalar Model.Vec Model.BoxFloat Model.PlaneFloat Model.Plane Model.Coll Model.LineFloat Spec.FloatSpec Spec.PlaneSpec Spec.CollSpec Spec.UniformSplineFloatSpec.
From Verif Require Import Proofs.VecLemmas Proofs.FrustumFloatLemmas Proofs.LineFloatLemmas Props.LineProps.
Local Open Scope R_scope.

(** Segments that are not shorter than 2^-200, points with coordinates up to M, and M up to 2^200. *)
Definition fair (M : R) (a b x : fvec) : Prop :=
  M <= bpow radix2 200 /\ point_within M a /\ point_within M b /\ point_within M x /\ bpow radix2 (-200) <= len (vsub (exact_vec b) (exact_vec a)).

(** In each coordinate the computed point is at most 110 units from the nearest point of the segment, *)
Theorem C103_near : forall M a b x, fair M a b x ->
  exists p, nearest (on_segment (mkLine (exact_vec a) (exact_vec b))) (exact_vec x) p /\ at_most_off (110 * unit_of M) (fclosest_on_line (mkFLine a b) x) p.
Proof.
  intros M a b x (T & A & B & X & L). destruct (closest_near_holds M a b x T A B X L) as (p & E & O). exists p. split; [|exact O].
  destruct (C45_closest_point_partial (mkLine (exact_vec a) (exact_vec b)) (exact_vec x)) as (c & E' & N & _); [|rewrite E in E'; injection E' as <-; exact N].
  cbn [la lb]. intros EQ. rewrite EQ in L. replace (len (vsub (exact_vec b) (exact_vec b))) with 0 in L; [assert (0 < bpow radix2 (-200)) by apply bpow_gt_0; lra|].
  unfold len, vsub, dot. cbn [vx vy vz]. rewrite !Rminus_eq_0, !Rmult_0_l, !Rplus_0_l. symmetry. apply sqrt_0.
Qed.
Print Assumptions C103_near.

(** so no point of the segment is nearer by more than 192 units, *)
Theorem C103_no_nearer : forall M a b x z, fair M a b x -> on_segment (mkLine (exact_vec a) (exact_vec b)) z ->
  dist (exact_vec (fclosest_on_line (mkFLine a b) x)) (exact_vec x) <= dist z (exact_vec x) + 192 * unit_of M.
Proof.
  intros M a b x z HF Z. destruct (C103_near M a b x HF) as (p & N & O). destruct HF as (T & A & B & X & L). destruct (closest_near_holds M a b x T A B X L) as (p' & E & O').
  assert (M0 : 0 <= unit_of M). { apply Rmult_le_pos; [apply bpow_ge_0|]. apply Rle_trans with (2 := M_low M a b A B L). apply bpow_ge_0. }
  destruct (C45_closest_point_partial (mkLine (exact_vec a) (exact_vec b)) (exact_vec x)) as (c & E' & _ & _ & _ & C).
  { cbn [la lb]. intros EQ. rewrite EQ in L. replace (len (vsub (exact_vec b) (exact_vec b))) with 0 in L; [assert (0 < bpow radix2 (-200)) by apply bpow_gt_0; lra|].
    unfold len, vsub, dot. cbn [vx vy vz]. rewrite !Rminus_eq_0, !Rmult_0_l, !Rplus_0_l. symmetry. apply sqrt_0. }
  rewrite E in E'. injection E' as <-. specialize (C z Z). assert (D := off_distance (110 * unit_of M) _ _ ltac:(lra) O').
  set (q := exact_vec (fclosest_on_line (mkFLine a b) x)) in *. assert (K := len_sub_abs (vsub q (exact_vec x)) (vsub p' (exact_vec x))).
  replace (vsub (vsub q (exact_vec x)) (vsub p' (exact_vec x))) with (vsub q p') in K by (apply vec3_ext; cbn; ring). unfold dist in *. apply Rabs_le_inv in K. lra.
Qed.
Print Assumptions C103_no_nearer.

(** and the computed distance is at most 250 units from the distance of the nearest point. *)
Theorem C103_distance : forall M a b x, fair M a b x ->
  exists p, nearest (on_segment (mkLine (exact_vec a) (exact_vec b))) (exact_vec x) p /\
    is_finite (fdistance_to_line (mkFLine a b) x) = true /\ Rabs (B2R (fdistance_to_line (mkFLine a b) x) - dist p (exact_vec x)) <= 250 * unit_of M.
Proof.
  intros M a b x HF. destruct (C103_near M a b x HF) as (p0 & _). destruct HF as (T & A & B & X & L). destruct (distance_near_holds M a b x T A B X L) as (d & E & F & D).
  destruct (C45_closest_point_partial (mkLine (exact_vec a) (exact_vec b)) (exact_vec x)) as (c & E' & N & Dc & _).
  { cbn [la lb]. intros EQ. rewrite EQ in L. replace (len (vsub (exact_vec b) (exact_vec b))) with 0 in L; [assert (0 < bpow radix2 (-200)) by apply bpow_gt_0; lra|].
    unfold len, vsub, dot. cbn [vx vy vz]. rewrite !Rminus_eq_0, !Rmult_0_l, !Rplus_0_l. symmetry. apply sqrt_0. }
  exists c. split; [exact N|]. split; [exact F|]. rewrite E in Dc. injection Dc as <-. exact D.
Qed.
Print Assumptions C103_distance.

(** A point whose projection is clearly before the first end or behind the second end gives that end exactly. *)
Theorem C103_ends : forall M a b x, fair M a b x -> let E := vsub (exact_vec b) (exact_vec a) in let P := vsub (exact_vec x) (exact_vec a) in
  (dot E P < - (57 * unit_of M * len E) -> fclosest_on_line (mkFLine a b) x = a) /\
  ((len E + 82 * unit_of M) * len E < dot E P -> fclosest_on_line (mkFLine a b) x = b).
Proof. intros M a b x (T & A & B & X & L). exact (ends_holds M a b x T A B X L). Qed.
Print Assumptions C103_ends.

(** The result can lie beyond the segment: from the origin to (3, 4, 0), the point closest to (3, 4, 0) itself is (3 + 2^-51, 4, 0). *)
Definition fint (i j k : Z) : fvec := FV (b64_of_Z i) (b64_of_Z j) (b64_of_Z k).
Theorem C103_beyond_refuted : 3 < B2R (fx (fclosest_on_line (mkFLine (fint 0 0 0) (fint 3 4 0)) (fint 3 4 0))).
Proof.
  set (q := fx _). assert (E : q = @B754_finite 53 1024 false 6755399441055745 (-51) eq_refl) by (apply B2SF_inj; vm_compute; reflexivity).
  rewrite E. cbn [B2R]. unfold F2R. cbn [Fnum Fexp cond_Zopp]. change (bpow radix2 (-51)) with (/ 2251799813685248). lra.
Qed.
Print Assumptions C103_beyond_refuted.

(** A segment of length 2^-600 is taken for a single point, and the result is not a number. *)
Definition short_end : b64 := @B754_finite 53 1024 false 4503599627370496 (-652) eq_refl.
Theorem C103_short_refuted : B2R short_end = bpow radix2 (-600) /\ is_nan (fx (fclosest_on_line (mkFLine (fint 0 0 0) (FV short_end b64_0 b64_0)) (fint 0 0 0))) = true.
Proof.
  split; [|vm_compute; reflexivity]. unfold short_end. cbn [B2R]. unfold F2R. cbn [Fnum Fexp cond_Zopp]. change (IZR 4503599627370496) with (bpow radix2 52). rewrite <- bpow_plus. reflexivity.
Qed.
Print Assumptions C103_short_refuted.

(** The segment from (0, 0, 0) to (2, 0, 0) and the point (1, 3, 0) are fair, for M = 3; the result is (1, 0, 0) and the distance 3. *)
Example C103_case : fair 3 (fint 0 0 0) (fint 2 0 0) (fint 1 3 0).
Proof.
  assert (K : forall i j k, (0 <= i <= 3)%Z -> (0 <= j <= 3)%Z -> (0 <= k <= 3)%Z -> point_within 3 (fint i j k)).
  { assert (Q : forall i, (0 <= i <= 3)%Z -> is_finite (b64_of_Z i) = true /\ Rabs (B2R (b64_of_Z i)) <= 3).
    { intros i H. destruct (b64_integer i ltac:(lia)) as [V F]. split; [exact F|]. rewrite V, Rabs_pos_eq by (apply IZR_le; lia). apply IZR_le. lia. }
    intros. split; [|split]; apply Q; assumption. }
  split; [apply Rle_trans with (bpow radix2 2); [cbn; lra|apply bpow_le; lia]|]. split; [apply K; lia|]. split; [apply K; lia|]. split; [apply K; lia|].
  unfold exact_vec, fint. cbn [fx fy fz]. destruct (b64_integer 0 ltac:(lia)) as [V0 _]. destruct (b64_integer 2 ltac:(lia)) as [V2 _]. rewrite V0, V2.
  replace (len _) with 2; [apply Rle_trans with (bpow radix2 0); [apply bpow_le; lia|cbn; lra]|].
  unfold len, dot, vsub. cbn [vx vy vz]. replace (_ + _ + _) with (2 * 2) by ring. symmetry. apply sqrt_square. lra.
Qed.
Example C103_value : fclosest_on_line (mkFLine (fint 0 0 0) (fint 2 0 0)) (fint 1 3 0) = fint 1 0 0 /\ fdistance_to_line (mkFLine (fint 0 0 0) (fint 2 0 0)) (fint 1 3 0) = b64_of_Z 3.
Proof.
  assert (K : forall a b : b64, B2SF a = B2SF b -> a = b) by apply B2SF_inj.
  split; [|apply K; vm_compute; reflexivity]. set (v := fclosest_on_line _ _). destruct v as [p q r] eqn:E. unfold fint. f_equal; apply K; [transitivity (B2SF (fx v))|transitivity (B2SF (fy v))|transitivity (B2SF (fz v))]; try (rewrite E; reflexivity); vm_compute; reflexivity.
Qed.
