(** * C111: distances to planes in double precision *)
From Coq Require Import ZArith Reals List Bool Lia Lra.
From Flocq Require Import Core IEEE754.BinarySingleNaN.
From Verif Require Import Model.Scalar Model.Vec Model.Plane Model.BoxFloat Model.PlaneFloat Model.ClipFloat Model.TriFloat Model.BoxPlaneFloat Spec.PlaneSpec Spec.FloatSpec Spec.ClipFloatSpec Spec.BoxPlaneFloatSpec
  Proofs.PlaneFloatLemmas Proofs.SplineFloat Proofs.ClipFloatLemmas Proofs.BezierPatchFloatLemmas Proofs.BaryFloatLemmas Proofs.BoxPlaneFloatLemmas.
Local Open Scope R_scope.

(** No point of a box is closer to the plane than the distance that DistanceToPlane returns, up to rounding, *)
Theorem C111_lower : forall alt p b k m, plane_of_size k p -> box_of_size m b -> let d := fdistance_box alt p b in is_finite d = true /\
  forall x, in_box (exact_box b) x -> B2R d - gap_slack k m (B2R (fdistance p)) <= Rabs (side alt (exact_plane p) x).
Proof.
  intros alt p b k m P B. cbv zeta. destruct (gap_near alt p b k m P B) as [F E]. split; [exact F|]. intros x X. assert (L := gap_lower alt p b x X). apply Rabs_le_inv in E. lra.
Qed.
Print Assumptions C111_lower.

(** and some point of the box is as close as that, or on the plane. *)
Theorem C111_attained : forall alt p b k m, plane_of_size k p -> box_of_size m b ->
  exists x, in_box (exact_box b) x /\ Rabs (side alt (exact_plane p) x) <= Rmax 0 (B2R (fdistance_box alt p b)) + gap_slack k m (B2R (fdistance p)).
Proof.
  intros alt p b k m P B. destruct (gap_near alt p b k m P B) as [F E]. destruct (gap_attained alt p b k m P B) as (x & X & S). exists x. split; [exact X|]. rewrite S. apply Rabs_le_inv in E.
  unfold Rmax. destruct (Rle_dec 0 _); destruct (Rle_dec 0 _); lra.
Qed.
Print Assumptions C111_attained.

(** If the distance is larger than the slack, the plane misses the box, and if it is smaller than minus the slack, the plane meets the box. *)
Theorem C111_misses : forall alt p b k m, plane_of_size k p -> box_of_size m b -> gap_slack k m (B2R (fdistance p)) < B2R (fdistance_box alt p b) -> forall x, in_box (exact_box b) x -> ~ on_plane alt (exact_plane p) x.
Proof.
  intros alt p b k m P B H x X O. destruct (C111_lower alt p b k m P B) as [_ L]. specialize (L x X). unfold on_plane in O. rewrite O, Rabs_R0 in L. lra.
Qed.
Print Assumptions C111_misses.
Theorem C111_meets : forall alt p b k m, plane_of_size k p -> box_of_size m b -> B2R (fdistance_box alt p b) < - gap_slack k m (B2R (fdistance p)) -> exists x, in_box (exact_box b) x /\ on_plane alt (exact_plane p) x.
Proof.
  intros alt p b k m P B H. destruct (gap_near alt p b k m P B) as [F E]. destruct (gap_attained alt p b k m P B) as (x & X & S). exists x. split; [exact X|]. apply Rabs_le_inv in E. rewrite Rmax_left in S by lra.
  unfold on_plane. destruct (Req_dec (side alt (exact_plane p) x) 0) as [Z|Z]; [exact Z|]. apply Rabs_no_R0 in Z. contradiction.
Qed.
Print Assumptions C111_meets.

(** The distance of a point is never negative, and as accurate as the signed distance. *)
Theorem C111_point : forall alt p x k m, plane_of_size k p -> tame_vec x -> bounded_vec m x -> let d := fdistance_point alt p x in
  is_finite d = true /\ 0 <= B2R d /\ Rabs (B2R d - Rabs (side alt (exact_plane p) (exact_vec x))) <= gap_slack k m (B2R (fdistance p)).
Proof.
  intros alt p x k m P T B. cbv zeta. destruct (point_side_near alt p x k m P T B) as (F & E & _). unfold fdistance_point. rewrite is_finite_Babs, B2R_Babs. split; [exact F|]. split; [apply Rabs_pos|].
  eapply Rle_trans; [apply Rabs_triang_inv2|]. eapply Rle_trans; [exact E|]. unfold gap_slack.
  assert (T1 : bpow radix2 (-47) = 64 * bpow radix2 (-53)) by (change (-47)%Z with (6 + -53)%Z; rewrite bpow_plus; reflexivity). assert (T2 : bpow radix2 (-1069) = 64 * bpow radix2 (-1075)) by (change (-1069)%Z with (6 + -1075)%Z; rewrite bpow_plus; reflexivity). rewrite T1, T2.
  destruct P as (_ & _ & N & _). destruct B as (M & _). assert (K0 : 0 <= k) by (apply Rle_trans with (2 := N); apply Rabs_pos). assert (M0 : 0 <= m) by (apply Rle_trans with (2 := M); apply Rabs_pos). assert (U0 := bpow_gt_0 radix2 (-53)). assert (E0 := bpow_gt_0 radix2 (-1075)).
  assert (A1 : 0 <= bpow radix2 (-53) * (k * m)) by (apply Rmult_le_pos; [lra|]; apply Rmult_le_pos; assumption). assert (A2 : 0 <= bpow radix2 (-53) * Rabs (B2R (fdistance p))) by (apply Rmult_le_pos; [lra|apply Rabs_pos]). assert (A3 : 0 <= bpow radix2 (-1075) * k) by (apply Rmult_le_pos; lra). lra.
Qed.
Print Assumptions C111_point.

(** ClosestPointOnPlane returns the foot of the perpendicular x - n (n x - d), up to rounding. *)
Theorem C111_closest : forall alt p x k m, plane_of_size k p -> tame_vec x -> bounded_vec m x -> let q := fclosest_on_plane alt p x in
  is_finite (fx q) = true -> is_finite (fy q) = true -> is_finite (fz q) = true -> let s := side alt (exact_plane p) (exact_vec x) in let e := foot_slack k m (B2R (fdistance p)) in
  Rabs (B2R (fx q) - (B2R (fx x) - B2R (fx (fnormal p)) * s)) <= e /\ Rabs (B2R (fy q) - (B2R (fy x) - B2R (fy (fnormal p)) * s)) <= e /\ Rabs (B2R (fz q) - (B2R (fz x) - B2R (fz (fnormal p)) * s)) <= e.
Proof.
  intros alt p x k m P T B. cbv zeta. intros F1 F2 F3. destruct (point_side_near alt p x k m P T B) as (_ & E & S). destruct P as (_ & _ & N1 & N2 & N3). destruct B as (B1 & B2 & B3). assert (D := Rabs_pos (B2R (fdistance p))).
  assert (W : foot_slack k m (B2R (fdistance p)) = 64 * (bpow radix2 (-53) * (m + k * (k * m + Rabs (B2R (fdistance p))))) + 64 * (bpow radix2 (-1075) * (1 + k))).
  { unfold foot_slack. change (-47)%Z with (6 + -53)%Z. change (-1069)%Z with (6 + -1075)%Z. rewrite !bpow_plus. change (bpow radix2 6) with 64. ring. }
  rewrite W. split; [|split]; apply foot_near; assumption.
Qed.
Print Assumptions C111_closest.

(** A box that touches the plane can get a negative distance, although the documentation says unsigned: the box from 0 to 7 in x, y and z and the plane with normal (1, 0, 0) and distance 3. *)
Definition plane3 : fplane := mkFPlane (FV b64_1 b64_0 b64_0) (b64_of_Z 3).
Definition box7 : fbox := mkFBox (FV b64_0 b64_0 b64_0) (FV (b64_of_Z 7) (b64_of_Z 7) (b64_of_Z 7)).
Lemma tame_int n : (1 <= n <= 10)%Z -> tame (b64_of_Z n).
Proof.
  intros N. destruct (b64_int n ltac:(lia)) as [V F]. split; [exact F|]. rewrite V, <- abs_IZR. eapply Rle_trans; [apply IZR_le; rewrite Z.abs_eq by lia; exact (proj2 N)|]. apply Rle_trans with (bpow radix2 4); [change (bpow radix2 4) with 16; lra|apply bpow_le; lia].
Qed.
Lemma tame_zero : tame b64_0.
Proof. split; [reflexivity|]. change (B2R b64_0) with 0. rewrite Rabs_R0. apply bpow_ge_0. Qed.
Lemma plane3_size : plane_of_size 1 plane3.
Proof.
  assert (O := tame_zero). assert (T := tame_int 3 ltac:(lia)). assert (I := tame_int 1 ltac:(lia)). unfold plane_of_size, tame_vec, bounded_vec, plane3. cbn [fnormal fdistance fx fy fz]. rewrite (proj1 one_value). change (B2R b64_0) with 0. rewrite Rabs_R0, Rabs_R1.
  change b64_1 with (b64_of_Z 1). repeat split; try assumption; first [apply O|apply T|apply I|lra].
Qed.
Lemma box7_size : box_of_size 7 box7.
Proof.
  assert (O := tame_zero). assert (T := tame_int 7 ltac:(lia)). destruct (b64_int 7 ltac:(lia)) as [V _]. unfold box_of_size, tame_vec, bounded_vec, box7. cbn [fmin fmax fx fy fz]. rewrite V. change (B2R b64_0) with 0. rewrite Rabs_R0, (Rabs_pos_eq 7) by lra.
  repeat split; first [apply O|apply T|lra].
Qed.
Theorem C111_unsigned_refuted : exists p b k m, plane_of_size k p /\ box_of_size m b /\ B2R (fdistance_box false p b) = -3.
Proof.
  exists plane3, box7, 1, 7. split; [exact plane3_size|]. split; [exact box7_size|]. destruct (b64_int 3 ltac:(lia)) as [V _].
  assert (E : fdistance_box false plane3 box7 = Bopp (b64_of_Z 3)) by (apply B2SF_inj; vm_compute; reflexivity). rewrite E, B2R_Bopp, V. reflexivity.
Qed.
Print Assumptions C111_unsigned_refuted.

(** That plane and box meet the hypotheses, and the theorem says that they meet. *)
Example C111_case : exists x, in_box (exact_box box7) x /\ on_plane false (exact_plane plane3) x.
Proof.
  apply (C111_meets false plane3 box7 1 7 plane3_size box7_size). destruct (b64_int 3 ltac:(lia)) as [V _].
  assert (E : fdistance_box false plane3 box7 = Bopp (b64_of_Z 3)) by (apply B2SF_inj; vm_compute; reflexivity). rewrite E, B2R_Bopp. unfold gap_slack, plane3. cbn [fdistance]. rewrite V, Rabs_pos_eq by lra.
  assert (A : bpow radix2 (-47) <= bpow radix2 (-10)) by (apply bpow_le; lia). assert (B : bpow radix2 (-1069) <= bpow radix2 (-10)) by (apply bpow_le; lia). change (bpow radix2 (-10)) with (/ 1024) in A, B. lra.
Qed.
