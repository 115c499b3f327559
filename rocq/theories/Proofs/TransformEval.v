(** Cached matrices and turning: the proofs of C49 and C50. *)
From Coq Require Import ZArith Reals List Bool Lia Lra.
From Verif Require Import Model.Scalar Model.Vec Model.Plane Model.Transforms Spec.TransformSpec Proofs.VecLemmas Proofs.TransformLemmas.
Import ListNotations.
Local Open Scope R_scope.


(** For every sequence of calls on a new projection, the matrices returned are those of the values last set,
    whatever perspective and orthogonal matrices are, and whatever the cache holds at first. *)
Lemma projection_never_stale_holds : forall M perspective orthogonal (m : M) os,
  proj_run M perspective orthogonal (projection_new M m) os = proj_expected M perspective orthogonal pvalues_default os.
Proof.
  intros M perspective orthogonal m os. rewrite proj_run_expected by (intros H; discriminate). f_equal.
  unfold pvalues_of, pvalues_default, projection_new; cbn. f_equal. field.
Qed.
(** The documentation of SetFOV promises a default of 74 degrees; it is 45. *)
Lemma default_fov_refuted_holds : forall M (m : M), pfov (projection_new M m) <> 74 * PI / 180 /\ pfov (projection_new M m) = 45 * PI / 180.
Proof. intros M m. cbn. assert (P := PI_RGT_0). split; [intros H|]; lra. Qed.
Lemma t2_expected_ext f g : (forall pos a pivot, f pos a pivot = g pos a pivot) ->
  forall os pos a s ms, t2_expected f pos a s os ms -> t2_expected g pos a s os ms.
Proof.
  intros E. induction os as [|o os IH]; intros pos a s ms H; [exact H|]. destruct o; cbn [t2_expected] in *; try (apply IH; exact H).
  - rewrite <- E. apply IH. exact H.
  - destruct ms as [|m ms]; [exact H|]. split; [apply H|]. apply IH. apply H.
Qed.
(** The same for the transforms: every matrix returned takes v to position + rotation (scale v) for the values that follow from the calls before. *)
Lemma transform2_never_stale_holds : forall m os,
  t2_expected (fun pos a pivot => V2 (x2 pivot + sin a * (x2 pos - x2 pivot)) (y2 pivot + cos a * (y2 pos - y2 pivot)))
    (V2 0 0) 0 (V2 1 1) os (t2_run (transform2_new m) os).
Proof.
  intros m os. eapply t2_expected_ext; [|apply (t2_run_expected os (transform2_new m)); intros H; discriminate].
  intros pos a pivot. apply vec2_ext; cbn; ring.
Qed.
Lemma transform3_never_stale_holds : forall qmul m os, t3_expected qmul vzero qone (V3 1 1 1) os (t3_run qmul (transform3_new m) os).
Proof. intros qmul m os. apply (t3_run_expected qmul os (transform3_new m)). intros H; discriminate. Qed.

(** Turning in space rotates the position about the pivot, keeps its distance to the pivot, and turning by the identity does nothing to it. *)
Lemma turn_rotates_holds : forall qmul t q pivot, unit_quat q ->
  vsub (t3pos (turn3 qmul t q pivot)) pivot = rotate q (vsub (t3pos t) pivot) /\
  len (vsub (t3pos (turn3 qmul t q pivot)) pivot) = len (vsub (t3pos t) pivot) /\
  t3pos (turn3 qmul t qone pivot) = t3pos t.
Proof.
  intros qmul t q pivot U. assert (E : vsub (t3pos (turn3 qmul t q pivot)) pivot = rotate q (vsub (t3pos t) pivot)).
  { rewrite turn_pos. generalize (rotate q (vsub (t3pos t) pivot)). intros r. apply vec3_ext; cbn; ring. }
  split; [exact E|]. split.
  - rewrite E. unfold len. rewrite rotate_len by exact U. reflexivity.
  - rewrite turn_pos. apply vec3_ext; unfold rotate; cbn; ring.
Qed.
(** Rotation about an axis is what [rotate] does: the axis stays, and a perpendicular vector turns by the angle. *)
Lemma rotate_meaning_holds : forall a h v, dot a a = 1 -> dot a v = 0 ->
  unit_quat (axis_angle a h) /\ rotate (axis_angle a h) a = a /\
  rotate (axis_angle a h) v = vadd (vscale (cos (2 * h)) v) (vscale (sin (2 * h)) (cross a v)).
Proof.
  intros a h v A V. assert (S := sin2_cos2 h). unfold Rsqr in S. assert (U : unit_quat (axis_angle a h)).
  { unfold unit_quat, axis_angle, dot in *; cbn. transitivity (sin h * sin h * (vx a * vx a + vy a * vy a + vz a * vz a) + cos h * cos h); [ring|rewrite A; lra]. }
  split; [exact U|]. split.
  - apply vec3_ext; unfold rotate, axis_angle; cbn; ring.
  - rewrite rotate_hom by exact U. rewrite cos_2a, sin_2a. unfold hom.
    replace (dot (qvec (axis_angle a h)) (qvec (axis_angle a h))) with (sin h * sin h * dot a a) by (unfold dot; cbn; ring).
    replace (dot (qvec (axis_angle a h)) v) with (sin h * dot a v) by (unfold dot; cbn; ring). rewrite A, V.
    apply vec3_ext; cbn; ring.
Qed.
(** If products of quaternions apply the left factor first, the matrix of the turned object is the old one followed by the rotation about the pivot: a rigid turn. *)
Lemma turn_is_rigid_holds : forall t q pivot v m m' t1 t2, unit_quat q -> unit_quat (t3rot t) -> t3changed t = true ->
  let qmul a b := hamilton b a in
  get_matrix3 t = (m, t1) -> get_matrix3 (turn3 qmul t q pivot) = (m', t2) ->
  transform_vector m' v = vadd pivot (rotate q (vsub (transform_vector m v) pivot)).
Proof.
  intros t q pivot v m m' t1 t2 U Ut C qmul G G'.
  assert (H : matrix3_of (t3pos t) (t3rot t) (t3scale t) m).
  { assert (X := t3_run_expected qmul [T3Get] t ltac:(intros K; congruence)). cbn [t3_run] in X. rewrite G in X. apply X. }
  assert (H' : matrix3_of (t3pos (turn3 qmul t q pivot)) (qmul (t3rot t) q) (t3scale t) m').
  { assert (X := t3_run_expected qmul [T3Get] (turn3 qmul t q pivot) ltac:(intros K; discriminate)). cbn [t3_run] in X. rewrite G' in X. apply X. }
  rewrite H', H. rewrite turn_pos. unfold qmul. rewrite rotate_hamilton by assumption. rewrite !rotate_sub, !rotate_add.
  generalize (rotate q (rotate (t3rot t) (V3 (vx (t3scale t) * vx v) (vy (t3scale t) * vy v) (vz (t3scale t) * vz v)))) (rotate q (t3pos t)) (rotate q pivot).
  intros a b c. apply vec3_ext; cbn; ring.
Qed.
(** If they apply the right factor first, as in Hamilton's product, it is not: position and orientation turn about different axes. *)
Lemma turn_order_refuted_holds : exists t q, unit_quat q /\ unit_quat (t3rot t) /\ t3changed t = true /\
  transform_vector (fst (get_matrix3 (turn3 hamilton t q vzero))) (V3 1 0 0) <> rotate q (transform_vector (fst (get_matrix3 t)) (V3 1 0 0)).
Proof.
  exists (mkT3 vzero (Q4 (1 / 2) (1 / 2) (1 / 2) (1 / 2)) (V3 1 1 1) (mkAffine vzero vzero vzero vzero) true), (Q4 1 0 0 0).
  split; [unfold unit_quat; cbn; lra|]. split; [unfold unit_quat; cbn; lra|]. split; [reflexivity|].
  intros H. apply (f_equal vy) in H. revert H. unfold transform_vector, rotate_vector, rotate, dot. cbn. lra.
Qed.
(** Turning in the plane is no rotation: turning by the angle zero about the origin moves (1,1) to (0,1); *)
Lemma turn_plane_refuted_holds : forall m, let t := set_position2 (transform2_new m) (V2 1 1) in
  t2pos (turn2 t 0 (V2 0 0)) = V2 0 1 /\ rotated2 (t2pos t) 0 (V2 0 0) = V2 1 1.
Proof. intros m t. split; unfold t, rotated2, turn2; cbn; rewrite ?sin_0, ?cos_0; apply vec2_ext; cbn; ring. Qed.
(** the position is right for no angle at all unless the object has a special position: two of the four products are missing. *)
Lemma turn_plane_general_refuted_holds : forall a, exists t, t2pos (turn2 t a (V2 0 0)) <> rotated2 (t2pos t) a (V2 0 0).
Proof.
  intros a. destruct (Req_dec (sin a) (cos a)) as [E|E].
  - exists (mkT2 (V2 1 1) 0 (V2 1 1) (mkAffine2 0 0 0 0 (V2 0 0)) true). intros H. apply (f_equal y2) in H. revert H. unfold rotated2, turn2; cbn. intros H.
    assert (S := sin2_cos2 a). unfold Rsqr in S. assert (sin a = 0) by lra. rewrite <- E in S. rewrite H0 in S. lra.
  - exists (mkT2 (V2 1 0) 0 (V2 1 1) (mkAffine2 0 0 0 0 (V2 0 0)) true). intros H. apply (f_equal x2) in H. revert H. unfold rotated2, turn2; cbn. intros H. apply E. lra.
Qed.
