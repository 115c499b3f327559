(** C70-C73: texture coordinates of the mesh generators, and tubes around curves. *)
From Coq Require Import ZArith Reals List Bool Arith Lia Lra.
From Verif Require Import Model.Scalar Model.Vec Model.Aabb Model.Mesh Model.Interp Model.Bezier Model.Transforms Model.MeshGen Spec.MeshGenSpec Spec.SurfaceSpec
  Spec.WindingSpec Spec.TextureSpec Spec.ChartSpec Spec.CurveSpec Proofs.MeshGenMain Proofs.MeshGenTexture Proofs.MeshGenCharts Proofs.MeshGenCurve.
Import ListNotations.
Local Open Scope R_scope.

(** C70: all texture coordinates lie in the image. *)
Theorem C70_in_image d m m' v : valid d -> fitted d -> generate d m = Ok m' -> In v (new_vertices m m') -> in_image v.
Proof. exact (image_holds d m m' v). Qed.
Print Assumptions C70_in_image.
(** Those of tori and of the tubes of spirals lie left of it. *)
Theorem C70_torus d m m' v : valid (DTorus d) -> generate (DTorus d) m = Ok m' -> In v (new_vertices m m') ->
  -1 <= x2 (tex_coord v) <= 0 /\ 0 <= y2 (tex_coord v) <= 1.
Proof. exact (torus_image_holds d m m' v). Qed.
Print Assumptions C70_torus.
Theorem C70_spiral d m m' v : valid (DSpiral d) -> generate (DSpiral d) m = Ok m' -> In v (new_vertices m m') ->
  - Rmax 0 (sp_turns d) <= x2 (tex_coord v) <= 1 /\ 0 <= y2 (tex_coord v) <= 1.
Proof. exact (spiral_image_holds d m m' v). Qed.
Print Assumptions C70_spiral.
Theorem C70_torus_refuted : exists d, valid (DTorus d) /\ forall m, exists m' v, generate (DTorus d) m = Ok m' /\ In v (new_vertices m m') /\ ~ in_image v.
Proof. exact torus_outside. Qed.
Print Assumptions C70_torus_refuted.

(** C71: seen from outside, the image is nowhere mirrored. *)
Theorem C71_not_mirrored d m m' : valid d -> (Z.of_nat (vertex_count d) <= 2 ^ 32)%Z -> upright d -> generate d m = Ok m' ->
  forall t, In t (new_triangles m m') -> exists c, corners m' t = Some c /\ 0 < image_area c.
Proof. exact (upright_holds d m m'). Qed.
Print Assumptions C71_not_mirrored.
(** On a pipe it is mirrored exactly on the inner mantle. *)
Theorem C71_pipe d m m' : valid (DPipe d) -> (Z.of_nat (vertex_count (DPipe d)) <= 2 ^ 32)%Z -> round (DPipe d) -> generate (DPipe d) m = Ok m' ->
  forall t, In t (new_triangles m m') -> exists a b c, corners m' t = Some (a, b, c) /\
    (0 < image_area (a, b, c) \/ (image_area (a, b, c) < 0 /\ on_inner d a /\ on_inner d b /\ on_inner d c)).
Proof. exact (pipe_upright_holds d m m'). Qed.
Print Assumptions C71_pipe.
(** On tubes around curves it is mirrored everywhere except at the seams. *)
Theorem C71_curve_refuted d m m' : valid d -> (Z.of_nat (vertex_count d) <= 2 ^ 32)%Z -> is_curve d -> generate d m = Ok m' ->
  (forall t, In t (new_triangles m m') -> exists c, corners m' t = Some c /\ (image_area c < 0 \/ across c)) /\
  (exists t c, In t (new_triangles m m') /\ corners m' t = Some c /\ image_area c < 0).
Proof. exact (curve_mirrored_holds d m m'). Qed.
Print Assumptions C71_curve_refuted.

(** C72: texture coordinates are the parameters of the surface. *)
Theorem C72_parameters d m m' v : valid d -> regular d \/ match d with DKnot _ | DSpiral _ | DCurve _ | DBezier _ => True | _ => False end ->
  generate d m = Ok m' -> In v (new_vertices m m') -> charted d v.
Proof. exact (charted_holds d m m' v). Qed.
Print Assumptions C72_parameters.

(** C73: the normals of a ring are unit vectors around the curve, evenly spaced, the first one upwards. *)
Theorem C73_rings_partial d f m m' u v w0 w : let U := Nat.max 3 (cv_u d) in let V := Nat.max 3 (cv_v d) in
  valid (DCurve d) -> cv_curve d = Some f -> generate (DCurve d) m = Ok m' -> closed_curve f \/ (u + 2 < U)%nat ->
  (u + 1 < U)%nat -> (v < V)%nat -> ring_vertex_at m m' V u 0 w0 -> ring_vertex_at m m' V u v w -> slanted (step_from f U u) ->
  0 < vy (normal w0) /\ vy (cross (step_from f U u) (normal w0)) = 0 /\
  turned_around (step_from f U u) (normal w0) (normal w) (2 * PI * INR v / INR (V - 1)).
Proof. exact (tube_holds d f m m' u v w0 w). Qed.
Print Assumptions C73_rings_partial.
(** The last ring of a closed curve is the first one again. *)
Theorem C73_seam d f m m' v w0 w : let U := Nat.max 3 (cv_u d) in let V := Nat.max 3 (cv_v d) in
  valid (DCurve d) -> cv_curve d = Some f -> generate (DCurve d) m = Ok m' -> closed_curve f -> cv_modifier d = None -> (v < V)%nat ->
  ring_vertex_at m m' V 0 v w0 -> ring_vertex_at m m' V (U - 1) v w -> position w = position w0 /\ normal w = normal w0.
Proof. exact (seam_holds d f m m' v w0 w). Qed.
Print Assumptions C73_seam.
Theorem C73_knots_closed d : closed_curve (knot_curve d).
Proof. exact (knot_closed d). Qed.
Print Assumptions C73_knots_closed.
(** A torus knot is the tube around its curve. *)
Theorem C73_knot_is_tube d m : generate (DKnot d) m = generate (DCurve (knot_as_curve d)) m /\ cv_curve (knot_as_curve d) = Some (knot_curve d).
Proof. split; reflexivity. Qed.
Print Assumptions C73_knot_is_tube.
(** Where the curve goes straight up or down, all vertices of the ring are at its center and have no normal. *)
Theorem C73_vertical_refuted d f m m' u v w : let U := Nat.max 3 (cv_u d) in let V := Nat.max 3 (cv_v d) in
  valid (DCurve d) -> cv_curve d = Some f -> generate (DCurve d) m = Ok m' -> closed_curve f \/ (u + 2 < U)%nat ->
  (u + 1 < U)%nat -> (v < V)%nat -> ring_vertex_at m m' V u v w -> ~ slanted (step_from f U u) ->
  normal w = vzero /\ position w = ring_at f U u.
Proof. exact (vertical_holds d f m m' u v w). Qed.
Print Assumptions C73_vertical_refuted.
(** On an open curve the last rings are not perpendicular to the curve. *)
Theorem C73_open_refuted : exists d f, valid (DCurve d) /\ cv_curve d = Some f /\ forall m, exists m' u w, generate (DCurve d) m = Ok m' /\
  (u + 1 < Nat.max 3 (cv_u d))%nat /\ ring_vertex_at m m' (Nat.max 3 (cv_v d)) u 0 w /\ slanted (step_from f (Nat.max 3 (cv_u d)) u) /\ dot (normal w) (step_from f (Nat.max 3 (cv_u d)) u) <> 0.
Proof. exact open_holds. Qed.
Print Assumptions C73_open_refuted.

(** ** Examples *)
Definition ex_pipe : pipe := mkPipe (V2 1 1) (V2 2 2) 3 8 2 1 1 true.
Example ex_pipe_ok : valid (DPipe ex_pipe) /\ defined (DPipe ex_pipe) /\ fitted (DPipe ex_pipe) /\ round (DPipe ex_pipe) /\ regular (DPipe ex_pipe) /\ vertex_count (DPipe ex_pipe) = 90%nat.
Proof.
  split; [intros n; cbn [ex_pipe segment_counts pp_u pp_v pp_top pp_bottom In]; lia|]. split; [exact I|]. split; [cbn; lra|].
  split; [split; [cbn; lra|exists 1, 2; split; [lra|split; reflexivity]]|]. split; [cbn; lra|reflexivity].
Qed.
Example ex_pie_upright : upright (DPie (mkPie (V2 2 3) 3 8 2 2 1 0 true)) /\ fitted (DPie (mkPie (V2 2 3) 3 8 2 2 1 0 true)).
Proof. pose proof PI_4. pose proof Rtrigo1.PI2_RGT_0. split; [cbn|exact I]. pose proof PI2_3_2. lra. Qed.
(** A circle in the ground plane: each step is slanted. *)
Definition ex_circle (t : R) : vec3 := V3 (sin (2 * PI * t)) 0 (cos (2 * PI * t)).
Example ex_circle_closed : closed_curve ex_circle /\ slanted (step_from ex_circle 5 0).
Proof.
  split.
  - unfold closed_curve, ex_circle. rewrite Rmult_0_r, Rmult_1_r, sin_2PI, cos_2PI, sin_0, cos_0. reflexivity.
  - left. unfold step_from, ring_at, ex_circle, vsub. cbn [vx Nat.sub Nat.add INR]. replace (2 * PI * (1 / (1 + 1 + 1 + 1))) with (PI / 2) by field.
    replace (2 * PI * (0 / (1 + 1 + 1 + 1))) with 0 by field. rewrite sin_PI2, sin_0. lra.
Qed.
(** A curve that climbs straight up *)
Example ex_vertical : ~ slanted (step_from (fun t => V3 0 t 0) 5 1).
Proof. intros [H|H]; apply H; cbn; ring. Qed.
(** The image of an upright and of a mirrored triangle *)
Example ex_image_area : let a := mkVertex vzero vzero (V2 0 0) in let b := mkVertex vzero vzero (V2 1 0) in let c := mkVertex vzero vzero (V2 0 1) in
  image_area (a, b, c) = 1 /\ image_area (a, c, b) = -1.
Proof. cbn. lra. Qed.
