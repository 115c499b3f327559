(** Properties C49 and C50: cached matrices and turning. *)
From Coq Require Import ZArith Reals List Bool Lia Lra.
From Verif Require Import Model.Scalar Model.Vec Model.Plane Model.Transforms Spec.TransformSpec Proofs.VecLemmas Proofs.TransformLemmas Proofs.TransformEval.
Import ListNotations.
Local Open Scope R_scope.

(** For every sequence of calls on a new projection, the matrices returned are those of the values last set,
    whatever perspective and orthogonal matrices are, and whatever the cache holds at first. *)
Theorem C49_projection_never_stale : forall M perspective orthogonal (m : M) os,
  proj_run M perspective orthogonal (projection_new M m) os = proj_expected M perspective orthogonal pvalues_default os.
Proof. exact projection_never_stale_holds. Qed.
Print Assumptions C49_projection_never_stale.

(** The documentation of SetFOV promises a default of 74 degrees; it is 45. *)
Theorem C49_default_fov_refuted : forall M (m : M), pfov (projection_new M m) <> 74 * PI / 180 /\ pfov (projection_new M m) = 45 * PI / 180.
Proof. exact default_fov_refuted_holds. Qed.
Print Assumptions C49_default_fov_refuted.

(** The same for the transforms: every matrix returned takes v to position + rotation (scale v) for the values that follow from the calls before. *)
Theorem C49_transform2_never_stale : forall m os,
  t2_expected (fun pos a pivot => V2 (x2 pivot + sin a * (x2 pos - x2 pivot)) (y2 pivot + cos a * (y2 pos - y2 pivot)))
    (V2 0 0) 0 (V2 1 1) os (t2_run (transform2_new m) os).
Proof. exact transform2_never_stale_holds. Qed.
Print Assumptions C49_transform2_never_stale.

Theorem C49_transform3_never_stale : forall qmul m os, t3_expected qmul vzero qone (V3 1 1 1) os (t3_run qmul (transform3_new m) os).
Proof. exact transform3_never_stale_holds. Qed.
Print Assumptions C49_transform3_never_stale.

(** Turning in space rotates the position about the pivot, keeps its distance to the pivot, and turning by the identity does nothing to it. *)
Theorem C50_turn_rotates : forall qmul t q pivot, unit_quat q ->
  vsub (t3pos (turn3 qmul t q pivot)) pivot = rotate q (vsub (t3pos t) pivot) /\
  len (vsub (t3pos (turn3 qmul t q pivot)) pivot) = len (vsub (t3pos t) pivot) /\
  t3pos (turn3 qmul t qone pivot) = t3pos t.
Proof. exact turn_rotates_holds. Qed.
Print Assumptions C50_turn_rotates.

(** Rotation about an axis is what [rotate] does: the axis stays, and a perpendicular vector turns by the angle. *)
Theorem C50_rotate_meaning : forall a h v, dot a a = 1 -> dot a v = 0 ->
  unit_quat (axis_angle a h) /\ rotate (axis_angle a h) a = a /\
  rotate (axis_angle a h) v = vadd (vscale (cos (2 * h)) v) (vscale (sin (2 * h)) (cross a v)).
Proof. exact rotate_meaning_holds. Qed.
Print Assumptions C50_rotate_meaning.

(** If products of quaternions apply the left factor first, the matrix of the turned object is the old one followed by the rotation about the pivot: a rigid turn. *)
Theorem C50_turn_is_rigid : forall t q pivot v m m' t1 t2, unit_quat q -> unit_quat (t3rot t) -> t3changed t = true ->
  let qmul a b := hamilton b a in
  get_matrix3 t = (m, t1) -> get_matrix3 (turn3 qmul t q pivot) = (m', t2) ->
  transform_vector m' v = vadd pivot (rotate q (vsub (transform_vector m v) pivot)).
Proof. exact turn_is_rigid_holds. Qed.
Print Assumptions C50_turn_is_rigid.

(** If they apply the right factor first, as in Hamilton's product, it is not: position and orientation turn about different axes. *)
Theorem C50_turn_order_refuted : exists t q, unit_quat q /\ unit_quat (t3rot t) /\ t3changed t = true /\
  transform_vector (fst (get_matrix3 (turn3 hamilton t q vzero))) (V3 1 0 0) <> rotate q (transform_vector (fst (get_matrix3 t)) (V3 1 0 0)).
Proof. exact turn_order_refuted_holds. Qed.
Print Assumptions C50_turn_order_refuted.

(** Turning in the plane is no rotation: turning by the angle zero about the origin moves (1,1) to (0,1); *)
Theorem C50_turn_plane_refuted : forall m, let t := set_position2 (transform2_new m) (V2 1 1) in
  t2pos (turn2 t 0 (V2 0 0)) = V2 0 1 /\ rotated2 (t2pos t) 0 (V2 0 0) = V2 1 1.
Proof. exact turn_plane_refuted_holds. Qed.
Print Assumptions C50_turn_plane_refuted.

(** the position is right for no angle at all unless the object has a special position: two of the four products are missing. *)
Theorem C50_turn_plane_general_refuted : forall a, exists t, t2pos (turn2 t a (V2 0 0)) <> rotated2 (t2pos t) a (V2 0 0).
Proof. exact turn_plane_general_refuted_holds. Qed.
Print Assumptions C50_turn_plane_general_refuted.

(** Setters that skip the update do not lose a change: the size set during perspective projection is seen after the switch. *)
Example C49_example : forall M perspective orthogonal (m : M),
  proj_run M perspective orthogonal (projection_new M m) [PGet; PSize (V2 2 3); PGet; POrtho true; PGet; PNear 5; PSize (V2 2 4); PGet] =
  [perspective 1 1 1000 (PI / 4) 0%Z; perspective 1 1 1000 (PI / 4) 0%Z; orthogonal 2 3 1 1000 0%Z; orthogonal 2 4 5 1000 0%Z].
Proof. intros. rewrite C49_projection_never_stale. reflexivity. Qed.
(** A quarter turn about the third axis. *)
Example C50_example : forall qmul m, let q := axis_angle (V3 0 0 1) (PI / 4) in
  unit_quat q /\ t3pos (turn3 qmul (set_position3 (transform3_new m) (V3 3 0 0)) q (V3 1 0 0)) = V3 1 2 0.
Proof.
  intros qmul m q. destruct (C50_rotate_meaning (V3 0 0 1) (PI / 4) (V3 2 0 0)) as (U & _ & R); [unfold dot; cbn; ring|unfold dot; cbn; ring|]. fold q in U, R.
  split; [exact U|]. rewrite turn_pos. cbn [t3pos set_position3]. replace (vsub (V3 3 0 0) (V3 1 0 0)) with (V3 2 0 0) by (apply vec3_ext; cbn; ring).
  rewrite R. replace (2 * (PI / 4)) with (PI / 2) by field. rewrite cos_PI2, sin_PI2. apply vec3_ext; cbn; ring.
Qed.
