(** Property C60: the tangent space of a triangle. *)
From Coq Require Import Reals List Bool Lia Lra Psatz.
From Verif Require Import Model.Scalar Model.Vec Model.Tri Model.Tangent Spec.TangentSpec Proofs.VecLemmas Proofs.PlaneLemmas Proofs.TangentEval.
Import ListNotations.
Local Open Scope R_scope.

(** For a triangle with area, whose texture coordinates span an area, the tangent points along the first texture direction, the bitangent
    against the second one, and the normal to the side from which the corners are counterclockwise: also for mirrored textures, if the
    sine of the angle between the texture directions exceeds epsilon. *)
Theorem C60_directions : forall eps t st S T, 0 <= eps -> texture_directions t st S T ->
  cross (vsub (pb t) (pa t)) (vsub (pc t) (pa t)) <> vzero ->
  (texture_area st < 0 -> eps * (len S * len T) < len (cross S T)) ->
  tangent_space eps t st = (direction_of S, vopp (direction_of T), direction_of (cross (vsub (pb t) (pa t)) (vsub (pc t) (pa t)))).
Proof. exact directions_holds. Qed.
Print Assumptions C60_directions.

(** All three have length one, and the tangents are perpendicular to the normal. *)
Theorem C60_unit_and_perpendicular : forall eps t st u b n, texture_area st <> 0 ->
  cross (vsub (pb t) (pa t)) (vsub (pc t) (pa t)) <> vzero -> tangent_space eps t st = (u, b, n) ->
  dot u u = 1 /\ dot b b = 1 /\ dot n n = 1 /\ dot u n = 0 /\ dot b n = 0.
Proof. exact unit_and_perpendicular_holds. Qed.
Print Assumptions C60_unit_and_perpendicular.

(** The flip does not change the handedness: it is that of the texture, left-handed for mirrored and right-handed otherwise. *)
Theorem C60_handedness_refuted :
  let t := mkTri (V3 0 0 0) (V3 1 0 0) (V3 0 1 0) in
  let right := mkTri2 (V2 0 0) (V2 1 0) (V2 0 1) in
  let mirrored := mkTri2 (V2 0 0) (V2 0 1) (V2 1 0) in
  forall eps, 0 <= eps < 1 ->
  tangent_space eps t right = (V3 1 0 0, V3 0 (-1) 0, V3 0 0 1) /\
  tangent_space eps t mirrored = (V3 0 1 0, V3 (-1) 0 0, V3 0 0 1).
Proof. exact handedness_refuted_holds. Qed.
Print Assumptions C60_handedness_refuted.

(** With a positive epsilon there are mirrored triangles with area whose tangents point the wrong way. *)
Theorem C60_epsilon_refuted : forall eps, 0 < eps -> exists t st S T, texture_directions t st S T /\ texture_area st < 0 /\
  cross (vsub (pb t) (pa t)) (vsub (pc t) (pa t)) <> vzero /\ fst (fst (tangent_space eps t st)) = vopp (direction_of S).
Proof. exact epsilon_refuted_holds. Qed.
Print Assumptions C60_epsilon_refuted.

(** Tangent and bitangent need not be perpendicular to each other. *)
Theorem C60_skew_refuted : forall eps, 0 <= eps -> exists t st u b n, tangent_space eps t st = (u, b, n) /\ dot u u = 1 /\ dot b b = 1 /\ dot n n = 1 /\ dot u b < 0.
Proof. exact skew_refuted_holds. Qed.
Print Assumptions C60_skew_refuted.

(** A mirrored triangle that meets the hypotheses of C60_directions and C60_unit_and_perpendicular, for every epsilon below one. *)
Example C60_example : forall eps, 0 <= eps < 1 -> let t := mkTri (V3 0 0 0) (V3 1 0 0) (V3 0 1 0) in let st := mkTri2 (V2 0 0) (V2 0 1) (V2 1 0) in
  texture_directions t st (V3 0 1 0) (V3 1 0 0) /\ cross (vsub (pb t) (pa t)) (vsub (pc t) (pa t)) <> vzero /\ texture_area st < 0 /\
  eps * (len (V3 0 1 0) * len (V3 1 0 0)) < len (cross (V3 0 1 0) (V3 1 0 0)).
Proof.
  intros eps E t st. assert (L : forall v, dot v v = 1 -> len v = 1) by (intros v H; unfold len; rewrite H; apply sqrt_1).
  split; [split; apply vec3_ext; cbn; ring|]. split; [intros H; apply (f_equal vz) in H; cbn in H; lra|]. split; [unfold texture_area, st; cbn; lra|].
  rewrite !L by (unfold dot; cbn; ring). lra.
Qed.
