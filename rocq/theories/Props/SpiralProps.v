(** C69 for spirals, tubes around curves and torus knots. *)
From Coq Require Import ZArith Reals List Bool Arith Lia Lra.
From Verif Require Import Model.Scalar Model.Vec Model.Aabb Model.Mesh Model.Interp Model.Bezier Model.Transforms Model.MeshGen Spec.MeshGenSpec Spec.ClosedSpec
  Spec.WindingSpec Spec.ChartSpec Spec.NormalSpec Spec.CurveSpec Spec.SpiralSpec Proofs.MeshGenMain Proofs.MeshGenWinding Proofs.MeshGenSpiral Proofs.MeshGenTube.
Import ListNotations.
Local Open Scope R_scope.

(** C69: for a round tube the front of each triangle of a spiral is the outside, whatever its displacement. On the tube it looks along the normals of at least two corners (those in the same ring);
    on the bottom along the normals of all corners; on the top along the direction in which the spiral would go on (the stored normals there are wrong: C74_spiral_refuted). *)
Theorem C69_spiral d r Rg m m' : valid (DSpiral d) -> (Z.of_nat (vertex_count (DSpiral d)) <= 2 ^ 32)%Z -> 0 < r < Rg -> sp_tube d = V3 r r r -> sp_ring d = V2 Rg Rg ->
  generate (DSpiral d) m = Ok m' ->
  let top := 2 * PI * Rmax 0 (sp_turns d) in
  forall t, In t (new_triangles m m') -> exists c, corners m' t = Some c /\
    (faces_two normal c \/ faces normal c \/ (all_corners (lies_on (section_part d top (-1))) c /\ faces (fun _ => V3 (cos top) 0 (- sin top)) c)).
Proof. exact (spiral_winding d r Rg m m'). Qed.
Print Assumptions C69_spiral.
(** The normal of the third corner can look to the back. *)
Theorem C69_spiral_third_refuted : exists d m m' t c, valid (DSpiral d) /\ sp_tube d = V3 1 1 1 /\ sp_ring d = V2 2 2 /\ generate (DSpiral d) m = Ok m' /\
  In t (new_triangles m m') /\ corners m' t = Some c /\ dot (front c) (normal (snd (fst c))) < 0.
Proof. exact spiral_steep. Qed.
Print Assumptions C69_spiral_third_refuted.

(** Tubes around closed curves (torus knots are such tubes: C73_knot_is_tube, C73_knots_closed): two corners p, q of each triangle are in one ring and the third, x, in the next or in the previous one.
    How far the front looks along the normals of p and q is proportional to how far x is ahead of the plane of the ring of p and q, or behind it. *)
Theorem C69_tube_sides d f m m' : let U := Nat.max 3 (cv_u d) in let V := Nat.max 3 (cv_v d) in let ring u w := exists v, (v < V)%nat /\ ring_vertex_at m m' V u v w in
  let unit_step u := let s := step_from f U (u mod (U - 1)) in vscale (/ len s) s in
  valid (DCurve d) -> (Z.of_nat (vertex_count (DCurve d)) <= 2 ^ 32)%Z -> cv_curve d = Some f -> closed_curve f -> cv_modifier d = None ->
  (forall u, (u + 1 < U)%nat -> slanted (step_from f U u)) -> generate (DCurve d) m = Ok m' ->
  forall t, In t (new_triangles m m') -> exists c, corners m' t = Some c /\
    (front c = vzero \/ exists u u' p q x sg, (u < U)%nat /\ (u' < U)%nat /\ ring u p /\ ring u q /\ ring u' x /\ same_triangle c (p, q, x) /\
      (u' = (u + 1)%nat /\ sg = 1 \/ u = (u' + 1)%nat /\ sg = -1) /\
      dot (front c) (normal p) = sg * (cv_radius d * sin (2 * PI / INR (V - 1)) * dot (vsub (position x) (position p)) (unit_step u)) /\
      dot (front c) (normal q) = sg * (cv_radius d * sin (2 * PI / INR (V - 1)) * dot (vsub (position x) (position q)) (unit_step u))).
Proof. exact (tube_winding d f m m'). Qed.
Print Assumptions C69_tube_sides.
(** So the front is the outside if steps are longer than the radius and bend little. *)
Theorem C69_tube_outside d f m m' : let U := Nat.max 3 (cv_u d) in let V := Nat.max 3 (cv_v d) in let step u := step_from f U (u mod (U - 1)) in
  valid (DCurve d) -> (Z.of_nat (vertex_count (DCurve d)) <= 2 ^ 32)%Z -> cv_curve d = Some f -> closed_curve f -> cv_modifier d = None ->
  (forall u, (u + 1 < U)%nat -> slanted (step u) /\ cv_radius d < len (step u) /\ cv_radius d * len (step (u + 1)%nat) < dot (step u) (step (u + 1)%nat)) -> generate (DCurve d) m = Ok m' ->
  (4 <= cv_v d)%nat -> 0 < cv_radius d ->
  forall t, In t (new_triangles m m') -> exists c, corners m' t = Some c /\ (front c = vzero \/ faces_two normal c).
Proof. exact (tube_outside d f m m'). Qed.
Print Assumptions C69_tube_outside.
(** With three segments, the least number, a tube has no inside: all vertices of a ring are on one line, because the first and the last of them are at the same place. *)
Theorem C69_tube_flat_refuted d f m m' u v w0 w : let U := Nat.max 3 (cv_u d) in let V := Nat.max 3 (cv_v d) in
  valid (DCurve d) -> cv_curve d = Some f -> generate (DCurve d) m = Ok m' -> closed_curve f -> cv_modifier d = None -> (forall u, (u + 1 < U)%nat -> slanted (step_from f U u)) ->
  (cv_v d <= 3)%nat -> (u < U)%nat -> (v < V)%nat -> ring_vertex_at m m' V u 0 w0 -> ring_vertex_at m m' V u v w ->
  position w = vadd (ring_at f U u) (vscale (if (v =? 1)%nat then - cv_radius d else cv_radius d) (normal w0)).
Proof. exact (tube_flat d f m m' u v w0 w). Qed.
Print Assumptions C69_tube_flat_refuted.

Example ex_spiral : let d := steep_spiral in valid (DSpiral d) /\ defined (DSpiral d) /\ (Z.of_nat (vertex_count (DSpiral d)) <= 2 ^ 32)%Z /\ sp_tube d = V3 1 1 1 /\ sp_ring d = V2 2 2.
Proof. destruct steep_ok as (A & B & C). repeat split; try assumption. lia. Qed.
Example ex_octagon : let d := octagon in let f := fun t => V3 (3 * sin (2 * PI * t)) 0 (3 * cos (2 * PI * t)) in let U := Nat.max 3 (cv_u d) in let step u := step_from f U (u mod (U - 1)) in
  valid (DCurve d) /\ defined (DCurve d) /\ (Z.of_nat (vertex_count (DCurve d)) <= 2 ^ 32)%Z /\ cv_curve d = Some f /\ closed_curve f /\ cv_modifier d = None /\ (4 <= cv_v d)%nat /\ 0 < cv_radius d /\
  (forall u, (u + 1 < U)%nat -> slanted (step u) /\ cv_radius d < len (step u) /\ cv_radius d * len (step (u + 1)%nat) < dot (step u) (step (u + 1)%nat)).
Proof. exact octagon_ok. Qed.
