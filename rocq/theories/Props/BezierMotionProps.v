(** C76: motion along Bezier curves; linear precision of curves and patches (C36, C37). *)
From Coq Require Import ZArith Reals List Arith Lia Lra.
From Verif Require Import Model.Vec Model.Aabb Model.Interp Model.Bezier Spec.BezierSpec Spec.NormalSpec Proofs.VecLemmas Proofs.BezierFlat.
Import ListNotations.
Local Open Scope R_scope.

(** Control points at equal distances on a line give this line, traversed steadily. *)
Theorem C36_linear_precision a d n t : (1 <= n <= 20)%nat -> curve (evenly a d n) t = Some (vadd a (vscale (INR n * t) d)).
Proof. exact (curve_even a d n t). Qed.
Print Assumptions C36_linear_precision.
Theorem C37_linear_precision p o a b u v : let n := Z.to_nat (order p) in (1 <= n <= 20)%nat -> flat_sheet p o a b ->
  patch_eval p u v = Some (vadd o (vadd (vscale (INR n * u) a) (vscale (INR n * v) b))).
Proof. exact (patch_even p o a b u v). Qed.
Print Assumptions C37_linear_precision.

(** The velocity at any parameter is the degree times the point of the curve of the differences of the control points. *)
Theorem C76_velocity ps f t : (2 <= length ps <= 21)%nat -> (forall s, curve ps s = Some (f s)) ->
  exists q, casteljau (length ps - 2) t (steps ps) = [q] /\ velocity (fun s => f (t + s)) (vscale (INR (length ps - 1)) q).
Proof. exact (curve_velocity ps f t). Qed.
Print Assumptions C76_velocity.
(** The curve starts towards its second control point and ends coming from the last but one. *)
Theorem C76_end_velocities r f a b : (length r <= 19)%nat ->
  ((forall s, curve (a :: b :: r) s = Some (f s)) -> velocity f (vscale (INR (length r + 1)) (vsub b a))) /\
  ((forall s, curve (r ++ [a; b]) s = Some (f s)) -> velocity (fun s => f (1 + s)) (vscale (INR (length r + 1)) (vsub b a))).
Proof. exact (curve_end_velocities r f a b). Qed.
Print Assumptions C76_end_velocities.

(** ** Examples *)
Example ex_line t : curve [V3 0 0 0; V3 1 2 0; V3 2 4 0] t = Some (V3 (2 * t) (4 * t) 0).
Proof.
  replace [V3 0 0 0; V3 1 2 0; V3 2 4 0] with (evenly (V3 0 0 0) (V3 1 2 0) 2) by (unfold evenly, vadd, vscale; cbn [seq map vx vy vz INR]; repeat f_equal; ring).
  rewrite C36_linear_precision by lia. unfold vadd, vscale. cbn [vx vy vz INR]. do 2 f_equal; ring.
Qed.
Example ex_start : velocity (fun t => V3 (2 * t) (4 * t) 0) (vscale (INR 2) (vsub (V3 1 2 0) (V3 0 0 0))).
Proof. exact (proj1 (C76_end_velocities [V3 2 4 0] _ (V3 0 0 0) (V3 1 2 0) ltac:(cbn; lia)) ex_line). Qed.
