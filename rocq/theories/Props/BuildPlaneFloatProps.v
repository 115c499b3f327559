(** * C113: planes through points and flipped planes in double precision *)
From Coq Require Import ZArith Reals List Bool Lia Lra.
From Flocq Require Import Core IEEE754.BinarySingleNaN.
From Verif Require Import Model.Scalar Model.Vec Model.Plane Model.BoxFloat Model.PlaneFloat Model.ClipFloat Model.TriFloat Model.FrustumFloat Model.BuildPlaneFloat Spec.FloatSpec Spec.BuildPlaneFloatSpec
  Proofs.PlaneFloatLemmas Proofs.SplineFloat Proofs.ClipFloatLemmas Proofs.BezierPatchFloatLemmas Proofs.BaryFloatLemmas Proofs.BuildPlaneFloatLemmas.
Local Open Scope R_scope.

(** A plane that is built with a member point has signed distance exactly 0 to that point, and classifies it as a point of the plane, however small the tolerance is. *)
Theorem C113_member : forall alt n a eps, is_finite (fdot n a) = true -> tolerance eps -> let p := fbuild_member alt n a in
  B2R (fsgn_distance alt p a) = 0 /\ frelation_point alt p a eps = Onto /\ fis_front alt p a = false.
Proof.
  intros alt n a eps F [FE E]. cbv zeta. unfold frelation_point, fis_front, fsgn_distance, fbuild_member. cbn [fnormal fdistance]. rewrite sign_twice. destruct (sub_self _ F) as [FS V]. split; [exact V|]. split.
  - rewrite (Bltb_correct 53 1024 _ _ FE FS), V, Rlt_bool_false by exact E. rewrite (Bltb_correct 53 1024 _ _ FS) by (rewrite is_finite_Bopp; exact FE). rewrite B2R_Bopp, V, Rlt_bool_false by lra. reflexivity.
  - rewrite (Bltb_correct 53 1024 _ _ F F). apply Rlt_bool_false. lra.
Qed.
Print Assumptions C113_member.

(** So does a plane that is built with three points for the first one, however the normal is normalized. *)
Theorem C113_first : forall normalize alt a b c eps, is_finite (fdot (normalize (fcross (fminus b a) (fminus c a))) a) = true -> tolerance eps -> let p := fbuild normalize alt a b c in
  B2R (fsgn_distance alt p a) = 0 /\ frelation_point alt p a eps = Onto /\ fis_front alt p a = false.
Proof. intros normalize alt a b c eps F E. apply C113_member; assumption. Qed.
Print Assumptions C113_first.

(** Not so for the other points: the plane through (1, 0, 0), (0, 3, 0) and (0, 0, 7) does not contain the second point. *)
Definition wa : fvec := FV b64_1 b64_0 b64_0.
Definition wb : fvec := FV b64_0 (b64_of_Z 3) b64_0.
Definition wc : fvec := FV b64_0 b64_0 (b64_of_Z 7).
Theorem C113_second_refuted : exists a b c, let p := fbuild fnormalize false a b c in is_finite (fsgn_distance false p b) = true /\ B2R (fsgn_distance false p b) <> 0 /\ frelation_point false p b b64_0 <> Onto.
Proof.
  exists wa, wb, wc. cbv zeta. split; [vm_compute; reflexivity|]. split.
  - assert (E : Beqb (fsgn_distance false (fbuild fnormalize false wa wb wc) wb) b64_0 = false) by (vm_compute; reflexivity). intros Z.
    rewrite Beqb_correct in E by (vm_compute; reflexivity). change (B2R b64_0) with 0 in E. rewrite Z in E. rewrite Req_bool_true in E by reflexivity. discriminate E.
  - intros E. vm_compute in E. discriminate E.
Qed.
Print Assumptions C113_second_refuted.

(** Flipping a plane exactly negates all signed distances, and exchanges front and back of all points, in spite of all roundings. *)
Theorem C113_flip : forall alt p x eps, is_finite (fsgn_distance alt p x) = true -> tolerance eps ->
  B2R (fsgn_distance alt (fflipped p) x) = - B2R (fsgn_distance alt p x) /\ frelation_point alt (fflipped p) x eps = turned_over (frelation_point alt p x eps).
Proof.
  intros alt p x eps F [FE E]. destruct (flip_mirror alt p x F) as (_ & F' & V). split; [exact V|]. unfold frelation_point.
  rewrite (Bltb_correct 53 1024 _ _ FE F'), (Bltb_correct 53 1024 _ _ FE F), (Bltb_correct 53 1024 _ _ F'), (Bltb_correct 53 1024 _ _ F), V, B2R_Bopp by (rewrite is_finite_Bopp; exact FE).
  set (d := B2R (fsgn_distance alt p x)). set (e := B2R eps) in *.
  destruct (Rlt_bool_spec e d); destruct (Rlt_bool_spec e (- d)); destruct (Rlt_bool_spec d (- e)); destruct (Rlt_bool_spec (- d) (- e)); try reflexivity; exfalso; lra.
Qed.
Print Assumptions C113_flip.

(** The hypotheses hold of the plane through those points and the first one of them. *)
Example C113_case : is_finite (fdot (fnormalize (fcross (fminus wb wa) (fminus wc wa))) wa) = true /\ tolerance b64_0 /\ frelation_point false (fbuild fnormalize false wa wb wc) wa b64_0 = Onto /\
  is_finite (fsgn_distance false (fbuild fnormalize false wa wb wc) wb) = true.
Proof. split; [vm_compute; reflexivity|]. split; [split; [reflexivity|apply Rle_refl]|]. split; vm_compute; reflexivity. Qed.
