(** Tangents of the smooth surfaces the mesh generators sample *)
From Coquelicot Require Import Coquelicot.
From Coq Require Import Reals List Lra.
From Verif Require Import Model.Vec Model.Aabb Model.Interp Model.Bezier Model.MeshGen Spec.WindingSpec Spec.ChartSpec Spec.NormalSpec.
Import ListNotations.
Local Open Scope R_scope.

(** [Tx] and [Ty] are the velocities in the directions of x and y. *)
Definition spanned (P : R -> R -> vec3) (x y : R) (Tx Ty : vec3) : Prop :=
  forall a b, velocity (fun t => P (x + a * t) (y + b * t)) (vadd (vscale a Tx) (vscale b Ty)).
Lemma velocity_unique c S T : velocity c S -> velocity c T -> S = T.
Proof.
  intros (A & B & C) (D & E & F). destruct S as [s0 s1 s2], T as [t0 t1 t2]; cbn [vx vy vz] in *. f_equal; eapply uniqueness_limite; eassumption.
Qed.
Lemma perpendicular_iff n P x y Tx Ty : spanned P x y Tx Ty -> perpendicular n P x y <-> dot n Tx = 0 /\ dot n Ty = 0.
Proof.
  intros S. split.
  - intros Q. pose proof (Q 1 0 _ (S 1 0)) as A. pose proof (Q 0 1 _ (S 0 1)) as B. unfold dot, vadd, vscale in *. cbn [vx vy vz] in *. lra.
  - intros (A & B) a b T V. rewrite (velocity_unique _ _ _ V (S a b)). transitivity (a * dot n Tx + b * dot n Ty); [unfold dot, vadd, vscale; cbn [vx vy vz]; ring|]. rewrite A, B. ring.
Qed.
Ltac tangents := cbv zeta; intros ka kb; unfold velocity; cbn [vx vy vz vadd vscale]; (split; [|split]); apply is_derive_Reals; auto_derive; try exact I; unfold Rminus; rewrite ?Rmult_0_r, ?Rplus_0_r; field.

Lemma flat_tangents (c0 c1 c2 x0 x1 x2 y0 y1 y2 : R) x y :
  spanned (fun x y => V3 (c0 + x0 * x + y0 * y) (c1 + x1 * x + y1 * y) (c2 + x2 * x + y2 * y)) x y (V3 x0 x1 x2) (V3 y0 y1 y2).
Proof. tangents. Qed.
Lemma spanned_ext P Q x y Tx Ty : (forall x y, P x y = Q x y) -> spanned P x y Tx Ty -> spanned Q x y Tx Ty.
Proof.
  intros E S a b. destruct (S a b) as (A & B & C). unfold velocity.
  assert (forall t, P (x + a * t) (y + b * t) = Q (x + a * t) (y + b * t)) as F by (intros; apply E).
  (split; [|split]); apply is_derive_Reals; [apply is_derive_Reals in A; eapply is_derive_ext; [|exact A]|apply is_derive_Reals in B; eapply is_derive_ext; [|exact B]|apply is_derive_Reals in C; eapply is_derive_ext; [|exact C]];
    intros t; cbv beta; now rewrite (F t).
Qed.
Lemma ball_tangents r x y : let P := (fun x y => V3 (vx r * (sin (PI * y) * cos (2 * PI * x))) (vy r * cos (PI * y)) (vz r * (sin (PI * y) * sin (2 * PI * x)))) in
  spanned P x y (V3 (- (2 * PI * vx r * (sin (PI * y) * sin (2 * PI * x)))) 0 (2 * PI * vz r * (sin (PI * y) * cos (2 * PI * x))))
    (V3 (PI * vx r * (cos (PI * y) * cos (2 * PI * x))) (- (PI * vy r * sin (PI * y))) (PI * vz r * (cos (PI * y) * sin (2 * PI * x)))).
Proof. tangents. Qed.
Lemma around_tangents rx rz h s w x y :
  spanned (fun x y => around rx rz h (s + w * (1 - x)) 1 y) x y (V3 (- (w * rx * cos (s + w * (1 - x)))) 0 (w * rz * sin (s + w * (1 - x)))) (V3 0 (- h) 0).
Proof. unfold around. tangents. Qed.
Lemma mantle_tangents rx rz h x y : spanned (mantle_part rx rz h) x y (V3 (- (2 * PI * rx * cos (2 * PI * (1 - x)))) 0 (2 * PI * rz * sin (2 * PI * (1 - x)))) (V3 0 (- h) 0).
Proof. unfold mantle_part, around. tangents. Qed.
Lemma cone_tangents rx rz h x y : spanned (cone_part rx rz h) x y (V3 (- (2 * PI * y * rx * cos (2 * PI * (1 - x)))) 0 (2 * PI * y * rz * sin (2 * PI * (1 - x))))
  (V3 (rx * sin (2 * PI * (1 - x))) (- h) (rz * cos (2 * PI * (1 - x)))).
Proof. unfold cone_part, around. tangents. Qed.
Lemma wall_tangents rx rz h a k l x y : spanned (fun x y => around rx rz h a (k + l * x) y) x y (V3 (l * rx * sin a) 0 (l * rz * cos a)) (V3 0 (- h) 0).
Proof. unfold around. tangents. Qed.
Lemma cap_tangents r h s x y : let P := (fun x y => V3 (s * (vx r * (sin (PI / 2 * y) * sin (2 * PI * x)))) (- s * (vy r * cos (PI / 2 * y) + h / 2)) (vz r * (sin (PI / 2 * y) * cos (2 * PI * x)))) in
  spanned P x y (V3 (s * (2 * PI * vx r * (sin (PI / 2 * y) * cos (2 * PI * x)))) 0 (- (2 * PI * vz r * (sin (PI / 2 * y) * sin (2 * PI * x)))))
    (V3 (s * (PI / 2 * vx r * (cos (PI / 2 * y) * sin (2 * PI * x)))) (s * (PI / 2 * vy r * sin (PI / 2 * y))) (PI / 2 * vz r * (cos (PI / 2 * y) * cos (2 * PI * x)))).
Proof. tangents. Qed.
Lemma ring_tangents ring tube n up x y : let P := (fun x y => ring_point ring tube (- (2 * PI * x)) (2 * PI * y) ((- x - n) * up)) in let a := - (2 * PI * x) in let b := 2 * PI * y in
  spanned P x y (V3 (- (2 * PI * cos a * (x2 ring + sin b * vx tube))) (- up) (2 * PI * sin a * (y2 ring + sin b * vz tube)))
    (V3 (2 * PI * sin a * cos b * vx tube) (- (2 * PI * sin b * vy tube)) (2 * PI * cos a * cos b * vz tube)).
Proof. unfold ring_point. tangents. Qed.
Lemma section_tangents d a flip x y : spanned (section_part d a flip) x y (V3 (2 * sin a * vx (sp_tube d)) 0 (2 * cos a * vz (sp_tube d))) (V3 0 (2 * flip * vy (sp_tube d)) 0).
Proof. unfold section_part. pose proof PI_RGT_0. tangents; lra. Qed.
