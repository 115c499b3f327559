(** * C96: culling by hulls and view frusta in double precision *)
From Coq Require Import ZArith Reals List Bool Lia Lra.
From Flocq Require Import Core IEEE754.BinarySingleNaN.
From Verif Require Import Model.Scalar Model.Vec Model.Plane Model.PlaneFloat Model.FrustumFloat Spec.PlaneSpec Spec.FloatSpec Spec.FrustumFloatSpec
  Proofs.VecLemmas Proofs.PlaneFloatLemmas Proofs.SplineFloat Proofs.FrustumFloatLemmas.
Import ListNotations.
Local Open Scope R_scope.

(** Points against the frustum of a matrix (of the mirrored point and the opposite sign, as in C57): a point farther inside than the slack is reported inside, one farther outside is not. *)
Theorem C96_point : forall alt m x, good_mat m -> moderate_vec x ->
  let f := forms (exact_mat m) in let c := fun r => clip r (vopp (exact_vec x)) in let k := fun r => blur r (exact_vec x) in
  ((forall r, In r f -> c r <= - k r) -> fhull_point alt (ffrustum alt m) x = true) /\
  ((exists r, In r f /\ k r <= c r) -> fhull_point alt (ffrustum alt m) x = false) /\
  (fhull_point alt (ffrustum alt m) x = true -> forall r, In r f -> c r < k r) /\
  (fhull_point alt (ffrustum alt m) x = false -> exists r, In r f /\ - k r < c r).
Proof.
  intros alt m x G X f c k. pose proof (point_near alt _ _ x (frustum_near alt m G) X) as H. fold f in H. destruct (fhull_point _ _ _).
  - repeat split; try discriminate; try (intros _; exact H). intros (r & I & L). specialize (H r I). unfold c, k in L. lra.
  - repeat split; try discriminate; try (intros _; exact H). intros A. destruct H as (r & I & L). specialize (A r I). unfold c, k in A. lra.
Qed.
Print Assumptions C96_point.

(** Spheres: one that is reported outside lies beyond one side, all of it, up to the slack; one that is reported inside reaches behind all sides, up to the slack. *)
Theorem C96_sphere : forall alt m x radius, good_mat m -> moderate_vec x -> is_finite radius = true ->
  let f := forms (exact_mat m) in let k := fun r => blur r (exact_vec x) in let s := mkSphere (exact_vec x) (B2R radius) in
  (fhull_sphere alt (ffrustum alt m) x radius = false -> exists r, In r f /\ forall y, in_ball s y -> - k r < clip r (vopp y)) /\
  (fhull_sphere alt (ffrustum alt m) x radius = true -> 0 <= B2R radius -> forall r, In r f -> exists y, in_ball s y /\ clip r (vopp y) <= k r).
Proof.
  intros alt m x radius G X F f k s. pose proof (sphere_near alt _ _ x radius (frustum_near alt m G) X F) as H. fold f in H. destruct (fhull_sphere _ _ _ _); split; try discriminate.
  - intros _ P r I. specialize (H r I). destruct G as (_ & _ & _ & _ & PF). rewrite Forall_forall in PF. specialize (PF r I). pose proof (length_positive r PF) as PL.
    (* the deepest point *)
    set (d := vscale (B2R radius / len (xyz r)) (xyz r)). exists (vadd (exact_vec x) d). split.
    + unfold in_ball, dist, s. cbn [sorigin sradius]. replace (vsub (vadd (exact_vec x) d) (exact_vec x)) with d by (unfold vadd, vsub; destruct d; cbn; f_equal; ring).
      apply Rsqr_incr_0_var; [|exact P]. unfold Rsqr. rewrite len_sqr. unfold d. replace (dot _ _) with (B2R radius / len (xyz r) * (B2R radius / len (xyz r)) * dot (xyz r) (xyz r)) by (unfold dot, vscale; cbn; ring).
      rewrite <- len_sqr. right. field. lra.
    + replace (clip r (vopp (vadd (exact_vec x) d))) with (clip r (vopp (exact_vec x)) - B2R radius / len (xyz r) * dot (xyz r) (xyz r)) by (unfold clip, d, dot, vopp, vadd, vscale; cbn; ring).
      rewrite <- len_sqr. replace (B2R radius / len (xyz r) * (len (xyz r) * len (xyz r))) with (len (xyz r) * B2R radius) by (field; lra). unfold k. lra.
  - intros _. destruct H as (r & I & L). exists r. split; [exact I|]. intros y Y. unfold in_ball, dist, s in Y. cbn [sorigin sradius] in Y.
    replace (clip r (vopp y)) with (clip r (vopp (exact_vec x)) - dot (xyz r) (vsub y (exact_vec x))) by (unfold clip, dot, vopp, vsub; cbn; ring).
    pose proof (cauchy_le (xyz r) (vsub y (exact_vec x))) as C. assert (len (xyz r) * len (vsub y (exact_vec x)) <= len (xyz r) * B2R radius) by (apply Rmult_le_compat_l; [apply len_ge|exact Y]). unfold k. lra.
Qed.
Print Assumptions C96_sphere.

(** The planes of a frustum have normals of length one, up to one part in 2^47. *)
Theorem C96_unit : forall alt m p, good_mat m -> In p (ffrustum alt m) -> moderate_plane p /\ Rabs (len (exact_vec (fnormal p)) - 1) <= bpow radix2 (-47).
Proof.
  intros alt m p G I. pose proof (frustum_near alt m G) as F. assert (exists e, is_near p alt e) as (e & r & -> & ((F1 & F2 & F3 & F4) & (B1 & B2 & B3 & B4) & E1 & E2 & E3 & E4) & PR).
  { induction F as [|q e ps es N F IH]; [contradiction|]. destruct I as [->|I]; [exists e; exact N|exact (IH I)]. }
  destruct (plane_near r e F1 F2 F3 F4 B1 B2 B3 B4 E1 E2 E3 E4 PR alt) as (M & N1 & N2 & N3 & _). split; [exact M|]. apply (unit_near _ (xyz e)); auto. apply (length_positive e PR).
Qed.
Print Assumptions C96_unit.

(** Hulls of any planes *)
Theorem C96_hull : forall alt ps x, Forall moderate_plane ps -> moderate_vec x ->
  (fhull_point alt ps x = true -> forall p, In p ps -> side alt (exact_plane p) (exact_vec x) < slack (exact_plane p) (exact_vec x)) /\
  (fhull_point alt ps x = false -> exists p, In p ps /\ - slack (exact_plane p) (exact_vec x) < side alt (exact_plane p) (exact_vec x)).
Proof.
  intros alt ps x F X. induction F as [|p ps P F [IH1 IH2]]; [split; [intros _ p []|discriminate]|]. cbn [fhull_point]. pose proof (front_error alt p x P X) as H. cbv zeta in H. destruct (fis_front alt p x).
  - split; [discriminate|]. intros _. exists p. split; [left; reflexivity|exact H].
  - split.
    + intros T q [<-|I]; [exact H|exact (IH1 T q I)].
    + intros T. destruct (IH2 T) as (q & I & L). exists q. split; [right; exact I|exact L].
Qed.
Print Assumptions C96_hull.

(** A matrix of integers whose frustum has points *)
Definition int_row (a b c d : Z) : frow := FRow (FV (b64_of_Z a) (b64_of_Z b) (b64_of_Z c)) (b64_of_Z d).
Definition sample : fmat := mkFMat (int_row 3 4 0 0) (int_row 0 1 0 0) (int_row 0 0 1 (-4)) (int_row 0 0 0 (-15)).
Definition int_point (a b c : Z) : fvec := FV (b64_of_Z a) (b64_of_Z b) (b64_of_Z c).
Lemma int_exact a b c d : (Z.abs a <= 20)%Z -> (Z.abs b <= 20)%Z -> (Z.abs c <= 20)%Z -> (Z.abs d <= 20)%Z ->
  exact_row (int_row a b c d) = V4 (V3 (IZR a) (IZR b) (IZR c)) (IZR d) /\ mild_row (int_row a b c d).
Proof.
  intros A B C D. assert (K : forall z, (Z.abs z <= 20)%Z -> B2R (b64_of_Z z) = IZR z /\ mild (b64_of_Z z)).
  { intros z Z. destruct (b64_integer z ltac:(lia)) as [V F]. split; [exact V|]. split; [exact F|]. rewrite V, <- abs_IZR. apply Rle_trans with (bpow radix2 5); [|apply bpow_le; lia]. change (bpow radix2 5) with 32. apply IZR_le. lia. }
  destruct (K a A) as [Va Ma]. destruct (K b B) as [Vb Mb]. destruct (K c C) as [Vc Mc]. destruct (K d D) as [Vd Md]. split; [|repeat split; (apply Ma || apply Mb || apply Mc || apply Md)].
  unfold exact_row, exact_vec, int_row. cbn [fxyz fw fx fy fz]. now rewrite Va, Vb, Vc, Vd.
Qed.
Lemma sample_exact : exact_mat sample = mkMat4 (V4 (V3 3 4 0) 0) (V4 (V3 0 1 0) 0) (V4 (V3 0 0 1) (-4)) (V4 (V3 0 0 0) (-15)).
Proof. unfold exact_mat, sample. cbn [fm0 fm1 fm2 fm3]. now rewrite !(fun a b c d A B C D => proj1 (int_exact a b c d A B C D)) by lia. Qed.
Lemma sample_good : good_mat sample.
Proof.
  unfold good_mat. rewrite sample_exact. unfold sample. cbn [fm0 fm1 fm2 fm3].
  assert (P : forall a b c w, 1 <= a * a + b * b + c * c -> proper (V4 (V3 a b c) w)).
  { intros a b c w H. unfold proper. cbn [xyz]. apply Rle_trans with 1; [change 1 with (bpow radix2 0); apply bpow_le; lia|]. rewrite <- sqrt_1. apply sqrt_le_1_alt. unfold dot. cbn. exact H. }
  split; [apply int_exact; lia|]. split; [apply int_exact; lia|]. split; [apply int_exact; lia|]. split; [apply int_exact; lia|].
  unfold forms. cbv zeta. cbn [m0 m1 m2 m3 xyz w4 vx vy vz]. repeat (apply Forall_cons; [apply P; lra|]). apply Forall_nil.
Qed.
Lemma point_exact a b c : (Z.abs a <= 20)%Z -> (Z.abs b <= 20)%Z -> (Z.abs c <= 20)%Z -> exact_vec (int_point a b c) = V3 (IZR a) (IZR b) (IZR c) /\ moderate_vec (int_point a b c).
Proof.
  intros A B C. destruct (int_exact a b c 0 A B C ltac:(lia)) as [E (M1 & M2 & M3 & _)]. split; [unfold exact_row in E; injection E as E1 E2 E3; unfold exact_vec, int_point; cbn [fx fy fz]; now rewrite E1, E2, E3|].
  assert (W : forall x, mild x -> moderate x) by (intros x [F L]; split; [exact F|apply Rle_trans with (1 := L), bpow_le; lia]). repeat split; (apply W in M1; apply W in M2; apply W in M3); (apply M1 || apply M2 || apply M3).
Qed.

(** The hypotheses are met, and the answers follow: (1, 1, 1) is inside, (9, 9, 1) is not, nor is the sphere of radius 2 around it. *)
Example C96_example : good_mat sample /\ moderate_vec (int_point 1 1 1) /\
  (forall r, In r (forms (exact_mat sample)) -> clip r (vopp (exact_vec (int_point 1 1 1))) <= - blur r (exact_vec (int_point 1 1 1))) /\
  fhull_point false (ffrustum false sample) (int_point 1 1 1) = true /\ fhull_point true (ffrustum true sample) (int_point 9 9 1) = false /\
  fhull_sphere false (ffrustum false sample) (int_point 9 9 1) (b64_of_Z 2) = false /\ fhull_sphere false (ffrustum false sample) (int_point 4 1 1) (b64_of_Z 2) = true.
Proof.
  assert (H : forall r, In r (forms (exact_mat sample)) -> clip r (vopp (exact_vec (int_point 1 1 1))) <= - blur r (exact_vec (int_point 1 1 1))).
  { rewrite sample_exact. destruct (point_exact 1 1 1) as [-> _]; try lia. assert (EW : bpow radix2 (-48) <= / 1024) by (change (/ 1024) with (bpow radix2 (-10)); apply bpow_le; lia). assert (EV : bpow radix2 (-500) <= / 1024) by (change (/ 1024) with (bpow radix2 (-10)); apply bpow_le; lia).
    pose proof (bpow_gt_0 radix2 (-48)). pose proof (bpow_gt_0 radix2 (-500)).
    assert (K : forall a b c w, Rabs a <= 9 -> Rabs b <= 9 -> Rabs c <= 9 -> Rabs w <= 19 -> - a - b - c + w <= -1 -> clip (V4 (V3 a b c) w) (vopp (V3 1 1 1)) <= - blur (V4 (V3 a b c) w) (V3 1 1 1)).
    { intros a b c w A B C W L. unfold clip, blur, magnitude, dot, vopp. cbn [xyz w4 vx vy vz]. rewrite !Rmult_1_r. destruct (len_components (V3 a b c)) as (_ & _ & _ & S). cbn [vx vy vz] in S. pose proof (len_ge (V3 a b c)).
      assert (bpow radix2 (-48) * (Rabs a + Rabs b + Rabs c + Rabs w) <= / 1024 * 46) by (pose proof (Rabs_pos a); pose proof (Rabs_pos b); pose proof (Rabs_pos c); pose proof (Rabs_pos w); apply Rmult_le_compat; lra).
      assert (bpow radix2 (-500) * len (V3 a b c) <= / 1024 * 27) by (apply Rmult_le_compat; lra). lra. }
    intros r I. unfold forms in I. cbv zeta in I. cbn [m0 m1 m2 m3 xyz w4 vx vy vz In] in I.
    destruct I as [<-|[<-|[<-|[<-|[<-|[<-|[]]]]]]]; apply K; try (apply Rabs_le; lra); lra. }
  split; [exact sample_good|]. split; [apply point_exact; lia|]. split; [exact H|].
  split; [apply (C96_point false sample (int_point 1 1 1) sample_good (proj2 (point_exact 1 1 1 ltac:(lia) ltac:(lia) ltac:(lia)))); exact H|].
  repeat split; vm_compute; reflexivity.
Qed.

(** Without the slack it is false: a point exactly on a side of the frustum, which belongs to it, is reported outside. *)
Theorem C96_exact_refuted : exists m x, good_mat m /\ moderate_vec x /\ (forall r, In r (forms (exact_mat m)) -> clip r (vopp (exact_vec x)) <= 0) /\ fhull_point false (ffrustum false m) x = false.
Proof.
  exists sample, (int_point (-3) 6 1). split; [exact sample_good|]. split; [apply point_exact; lia|]. split; [|vm_compute; reflexivity].
  rewrite sample_exact. destruct (point_exact (-3) 6 1) as [-> _]; try lia. intros r I. unfold forms in I. cbv zeta in I. cbn [m0 m1 m2 m3 xyz w4 vx vy vz In] in I.
  destruct I as [<-|[<-|[<-|[<-|[<-|[<-|[]]]]]]]; unfold clip, dot, vopp; cbn [xyz w4 vx vy vz]; lra.
Qed.
Print Assumptions C96_exact_refuted.
