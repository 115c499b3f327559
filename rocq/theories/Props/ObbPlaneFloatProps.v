(** * C112: distances of oriented boxes to planes in double precision *)
From Coq Require Import ZArith Reals List Bool Lia Lra.
From Flocq Require Import Core IEEE754.BinarySingleNaN.
From Verif Require Import Model.Scalar Model.Vec Model.Plane Model.BoxFloat Model.PlaneFloat Model.ClipFloat Model.BoxPlaneFloat Model.ObbPlaneFloat Spec.PlaneSpec Spec.FloatSpec Spec.ClipFloatSpec Spec.BoxPlaneFloatSpec Spec.ObbPlaneFloatSpec
  Proofs.PlaneFloatLemmas Proofs.SplineFloat Proofs.ClipFloatLemmas Proofs.BoxPlaneFloatLemmas Proofs.ObbPlaneFloatLemmas.
Local Open Scope R_scope.

(** No point of an oriented box is closer to the plane than the distance that DistanceToPlane returns, up to rounding, *)
Theorem C112_lower : forall alt p b k m a h, plane_of_size k p -> obb_of_size m a h b -> k <= bpow radix2 249 -> a <= bpow radix2 249 -> let d := fdistance_obb alt p b in is_finite d = true /\
  forall x, in_obb (exact_obb b) x -> B2R d - obb_slack k m a h (B2R (fdistance p)) <= Rabs (side alt (exact_plane p) x).
Proof.
  intros alt p b k m a h P B K A. cbv zeta. destruct (obb_gap_near alt p b k m a h P B K A) as [F E]. split; [exact F|]. intros x X. assert (L := obb_gap_lower alt p b x X). apply Rabs_le_inv in E. lra.
Qed.
Print Assumptions C112_lower.

(** and some point of the box is as close as that, or on the plane. *)
Theorem C112_attained : forall alt p b k m a h, plane_of_size k p -> obb_of_size m a h b -> k <= bpow radix2 249 -> a <= bpow radix2 249 ->
  exists x, in_obb (exact_obb b) x /\ Rabs (side alt (exact_plane p) x) <= Rmax 0 (B2R (fdistance_obb alt p b)) + obb_slack k m a h (B2R (fdistance p)).
Proof.
  intros alt p b k m a h P B K A. destruct (obb_gap_near alt p b k m a h P B K A) as [F E]. destruct (obb_gap_attained alt p b k m a h P B K A) as (x & X & S). exists x. split; [exact X|]. rewrite S. apply Rabs_le_inv in E.
  unfold Rmax. destruct (Rle_dec 0 _); destruct (Rle_dec 0 _); lra.
Qed.
Print Assumptions C112_attained.

(** If the distance is larger than the slack, the plane misses the box, and if it is smaller than minus the slack, the plane meets the box. *)
Theorem C112_misses : forall alt p b k m a h, plane_of_size k p -> obb_of_size m a h b -> k <= bpow radix2 249 -> a <= bpow radix2 249 ->
  obb_slack k m a h (B2R (fdistance p)) < B2R (fdistance_obb alt p b) -> forall x, in_obb (exact_obb b) x -> ~ on_plane alt (exact_plane p) x.
Proof.
  intros alt p b k m a h P B K A H x X O. destruct (C112_lower alt p b k m a h P B K A) as [_ L]. specialize (L x X). unfold on_plane in O. rewrite O, Rabs_R0 in L. lra.
Qed.
Print Assumptions C112_misses.
Theorem C112_meets : forall alt p b k m a h, plane_of_size k p -> obb_of_size m a h b -> k <= bpow radix2 249 -> a <= bpow radix2 249 ->
  B2R (fdistance_obb alt p b) < - obb_slack k m a h (B2R (fdistance p)) -> exists x, in_obb (exact_obb b) x /\ on_plane alt (exact_plane p) x.
Proof.
  intros alt p b k m a h P B K A H. destruct (obb_gap_near alt p b k m a h P B K A) as [F E]. destruct (obb_gap_attained alt p b k m a h P B K A) as (x & X & S). exists x. split; [exact X|]. apply Rabs_le_inv in E. rewrite Rmax_left in S by lra.
  unfold on_plane. destruct (Req_dec (side alt (exact_plane p) x) 0) as [Z|Z]; [exact Z|]. apply Rabs_no_R0 in Z. contradiction.
Qed.
Print Assumptions C112_meets.

(** The oriented box around the origin with half sizes 7, 3, 1 along the axes (1, 1, 0), (0, 1, 0), (0, 0, 1), and the plane x = 3: the distance is - 4, and they meet. *)
Definition plane3 : fplane := mkFPlane (FV b64_1 b64_0 b64_0) (b64_of_Z 3).
Definition obb7 : fobb := mkFObb (FV b64_0 b64_0 b64_0) (FV b64_1 b64_1 b64_0) (FV b64_0 b64_1 b64_0) (FV b64_0 b64_0 b64_1) (FV (b64_of_Z 7) (b64_of_Z 3) b64_1).
Lemma tame_int n : (1 <= n <= 10)%Z -> tame (b64_of_Z n).
Proof.
  intros N. destruct (b64_int n ltac:(lia)) as [V F]. split; [exact F|]. rewrite V, <- abs_IZR. eapply Rle_trans; [apply IZR_le; rewrite Z.abs_eq by lia; exact (proj2 N)|]. apply Rle_trans with (bpow radix2 4); [change (bpow radix2 4) with 16; lra|apply bpow_le; lia].
Qed.
Lemma tame_zero : tame b64_0.
Proof. split; [reflexivity|]. change (B2R b64_0) with 0. rewrite Rabs_R0. apply bpow_ge_0. Qed.
Lemma plane3_size : plane_of_size 1 plane3.
Proof.
  assert (O := tame_zero). assert (T := tame_int 3 ltac:(lia)). assert (I : tame b64_1) by exact (tame_int 1 ltac:(lia)). unfold plane_of_size, tame_vec, bounded_vec, plane3. cbn [fnormal fdistance fx fy fz]. rewrite (proj1 one_value). change (B2R b64_0) with 0. rewrite Rabs_R0, Rabs_R1.
  assert (Z : 0 <= 1) by lra. assert (Z' := Rle_refl 1). tauto.
Qed.
Lemma obb7_size : obb_of_size 0 1 7 obb7.
Proof.
  assert (O := tame_zero). assert (T := tame_int 3 ltac:(lia)). assert (S := tame_int 7 ltac:(lia)). assert (I : tame b64_1) by exact (tame_int 1 ltac:(lia)). destruct (b64_int 7 ltac:(lia)) as [V7 _]. destruct (b64_int 3 ltac:(lia)) as [V3 _].
  unfold obb_of_size, tame_vec, bounded_vec, obb7. cbn [focenter foaxx foaxy foaxz fohalf fx fy fz]. rewrite V7, V3, (proj1 one_value). change (B2R b64_0) with 0. rewrite Rabs_R0, Rabs_R1, (Rabs_pos_eq 7), (Rabs_pos_eq 3) by lra.
  assert (Z1 : 0 <= 1) by lra. assert (Z2 := Rle_refl 1). assert (Z3 := Rle_refl 0). assert (Z4 : 0 <= 7) by lra. assert (Z5 : 0 <= 3) by lra. assert (Z6 : 3 <= 7) by lra. assert (Z7 : 1 <= 7) by lra. assert (Z8 := Rle_refl 7). tauto.
Qed.
Example C112_case : exists x, in_obb (exact_obb obb7) x /\ on_plane false (exact_plane plane3) x.
Proof.
  assert (Q : 1 <= bpow radix2 249) by (change 1 with (bpow radix2 0); apply bpow_le; lia).
  apply (C112_meets false plane3 obb7 1 0 1 7 plane3_size obb7_size Q Q). destruct (b64_int 4 ltac:(lia)) as [V4 _]. destruct (b64_int 3 ltac:(lia)) as [V3 _].
  assert (E : fdistance_obb false plane3 obb7 = Bopp (b64_of_Z 4)) by (apply B2SF_inj; vm_compute; reflexivity). rewrite E, B2R_Bopp, V4. unfold obb_slack, plane3. cbn [fdistance]. rewrite V3, Rabs_pos_eq by lra.
  assert (A : bpow radix2 (-46) <= bpow radix2 (-10)) by (apply bpow_le; lia). assert (B : bpow radix2 (-1069) <= bpow radix2 (-10)) by (apply bpow_le; lia). change (bpow radix2 (-10)) with (/ 1024) in A, B. lra.
Qed.
