(** C78-C80: sizes of boxes, oriented boxes, angles and areas of triangles; distance of segments (C45). *)
From Coq Require Import ZArith Reals List Bool Arith Lia Lra.
From Verif Require Import Model.Scalar Model.Vec Model.Plane Model.Coll Model.Tri Model.Shapes Spec.PlaneSpec Spec.CollSpec Spec.ShapeSpec Proofs.VecLemmas Proofs.ShapeLemmas.
Import ListNotations.
Local Open Scope R_scope.

(** C78: center and size describe the box, whatever the order of its bounds. *)
Theorem C78_center_size b : map (fun cs => around_center (fst cs) (snd cs)) (combine (center_real b) (size_real b)) = map ascending b.
Proof. exact (center_size b). Qed.
Print Assumptions C78_center_size.
(** Integers: when the center is defined it is in the middle, and inside of a valid box. *)
Theorem C78_integer_center_partial b c : center_int b = Some c ->
  Forall2 middle b c /\ (Forall (fun i => (fst i <= snd i)%Z) b -> Forall2 (fun i x => (fst i <= x <= snd i)%Z) b c).
Proof. intros H. split; [exact (center_int_middle b c H)|exact (center_int_inside b c H)]. Qed.
Print Assumptions C78_integer_center_partial.
(** It is undefined exactly if the sum of two bounds overflows, which happens far from the limits of the bounds themselves. *)
Theorem C78_integer_center_refuted b : center_int b = None <-> Exists (fun i => ~ is_int32 (fst i + snd i)) b.
Proof. exact (center_int_none b). Qed.
Print Assumptions C78_integer_center_refuted.
Theorem C78_integer_size b s : size_int b = Some s <-> Forall2 (fun i d => d = Z.abs (snd i - fst i) /\ (d < 2 ^ 31)%Z) b s.
Proof. exact (size_int_iff b s). Qed.
Print Assumptions C78_integer_size.

(** C79: an oriented box built from corners is the box between them. *)
Theorem C79_from_corners lo hi x : in_obb (obb_of_corners lo hi) x <-> in_box (mkAabb lo hi) x.
Proof. exact (corners_solid lo hi x). Qed.
Print Assumptions C79_from_corners.
(** One built from half axes is the solid they span, with unit axes. *)
Theorem C79_from_axes c x y z b : obb_of_axes c x y z = Some b ->
  (forall p, in_obb b p <-> in_solid c x y z p) /\ len (oaxx b) = 1 /\ len (oaxy b) = 1 /\ len (oaxz b) = 1.
Proof. exact (axes_solid c x y z b). Qed.
Print Assumptions C79_from_axes.
(** A flat box cannot be built this way: its zero axis is divided by zero. *)
Theorem C79_flat_box_refuted c x y z : obb_of_axes c x y z = None <-> x = vzero \/ y = vzero \/ z = vzero.
Proof. exact (axes_defined c x y z). Qed.
Print Assumptions C79_flat_box_refuted.
(** Updating the half size of a box whose axes have unit length, as those of all constructed boxes, sets all half sizes to one. *)
Theorem C79_update_refuted b : len (oaxx b) = 1 -> len (oaxy b) = 1 -> len (oaxz b) = 1 ->
  update_half_size b = Some (mkObb (ocenter b) (oaxx b) (oaxy b) (oaxz b) (V3 1 1 1)).
Proof. exact (update_of_units b). Qed.
Print Assumptions C79_update_refuted.

(** C80: the angles of a triangle with distinct corners sum up to a half turn. *)
Theorem C80_angle_sum t : distinct t ->
  exists x y z, tri_angle t 0 = Some x /\ tri_angle t 1 = Some y /\ tri_angle t 2 = Some z /\ x + y + z = PI /\ 0 <= x /\ 0 <= y /\ 0 <= z.
Proof. exact (angles_sum t). Qed.
Print Assumptions C80_angle_sum.
(** The angle of a corner depends neither on the corner's place nor on the orientation. *)
Theorem C80_angle_of_corner t i : (i < 3)%nat ->
  tri_angle (mkTri (pb t) (pc t) (pa t)) i = tri_angle t ((i + 1) mod 3) /\ tri_angle (mkTri (pa t) (pc t) (pb t)) 0 = tri_angle t 0.
Proof. intros H. split; [exact (angle_moved t i H)|exact (angle_mirrored t)]. Qed.
Print Assumptions C80_angle_of_corner.
(** The area is half of base times height. *)
Theorem C80_base_height t : a2 t <> b2 t -> let a := flat (a2 t) in let b := flat (b2 t) in let c := flat (c2 t) in
  exists s, Rabs (tri_area2 t) = dist a b * dist c (along a b s) / 2 /\ forall r, dist c (along a b s) <= dist c (along a b r).
Proof. exact (area_base_height t). Qed.
Print Assumptions C80_base_height.
Theorem C80_area_and_angle t x : tri_angle2 t 0 = Some x -> 2 * Rabs (tri_area2 t) = dist (flat (a2 t)) (flat (b2 t)) * dist (flat (a2 t)) (flat (c2 t)) * sin x.
Proof. exact (area_angle t x). Qed.
Print Assumptions C80_area_and_angle.
(** Areas add up when the triangle is divided at a point. *)
Theorem C80_area_adds_up a b c p : tri_area2 (mkTri2 a b c) = tri_area2 (mkTri2 a b p) + tri_area2 (mkTri2 b c p) + tri_area2 (mkTri2 c a p).
Proof. exact (area_split a b c p). Qed.
Print Assumptions C80_area_adds_up.
(** Clockwise triangles have negative areas. *)
Theorem C80_area_sign_refuted a b c : tri_area2 (mkTri2 a c b) = - tri_area2 (mkTri2 a b c).
Proof. exact (area_mirrored a b c). Qed.
Print Assumptions C80_area_sign_refuted.

(** C45: the distance of two segments is attained and no points are nearer. *)
Theorem C45_distance_partial eps A B : 0 < eps ->
  (eps < len_sq (vsub (lb A) (la A)) \/ la A = lb A) -> (eps < len_sq (vsub (lb B) (la B)) \/ la B = lb B) ->
  let d := distance_between_lines eps A B in
  (exists x y, on_segment A x /\ on_segment B y /\ dist x y = d) /\ (forall x y, on_segment A x -> on_segment B y -> d <= dist x y) /\ distance_sq_between_lines eps A B = d * d.
Proof. exact (between_lines eps A B). Qed.
Print Assumptions C45_distance_partial.

(** ** Examples *)
Example ex_center : center_int [((-3)%Z, 8%Z); (1%Z, 4%Z)] = Some [2%Z; 2%Z] /\ size_int [((-3)%Z, 8%Z); (1%Z, 4%Z)] = Some [11%Z; 3%Z].
Proof. split; reflexivity. Qed.
(** A box of size 2 whose center overflows *)
Example ex_center_overflow : center_int [(2000000000%Z, 2000000002%Z)] = None /\ size_int [(2000000000%Z, 2000000002%Z)] = Some [2%Z].
Proof. split; reflexivity. Qed.
Example ex_axes : exists b, obb_of_axes (V3 1 2 3) (V3 2 0 0) (V3 0 3 0) (V3 0 0 4) = Some b /\ vx (ohalf b) = 2.
Proof.
  destruct (obb_of_axes (V3 1 2 3) (V3 2 0 0) (V3 0 3 0) (V3 0 0 4)) as [b|] eqn:E.
  - exists b. split; [reflexivity|]. unfold obb_of_axes in E. apply update_iff in E. cbn [oaxx oaxy oaxz ocenter] in E. destruct E as (_ & _ & _ & ->). cbn [ohalf vx]. unfold len, dot. cbn [vx vy vz].
    replace (2 * 2 + 0 * 0 + 0 * 0) with (2 * 2) by ring. apply sqrt_square. lra.
  - apply axes_defined in E. destruct E as [E|[E|E]]; [apply (f_equal vx) in E|apply (f_equal vy) in E|apply (f_equal vz) in E]; cbn in E; lra.
Qed.
(** The update changes a box of half size 2: a corner is lost. *)
Example ex_update : let b := obb_of_corners (V3 (-2) (-2) (-2)) (V3 2 2 2) in
  in_obb b (V3 2 2 2) /\ exists b', update_half_size b = Some b' /\ ~ in_obb b' (V3 2 2 2).
Proof.
  cbn zeta. split; [apply corners_solid; unfold in_box; cbn; lra|]. assert (U : forall a, dot a a = 1 -> len a = 1) by (intros a E; unfold len; rewrite E; apply sqrt_1).
  eexists. split; [apply update_of_units; apply U; unfold dot; cbn; ring|]. intros (u & v & w & A & _ & _ & E). cbn [obb_of_corners ocenter oaxx oaxy oaxz ohalf vx] in *. apply (f_equal vx) in E.
  unfold vadd, vscale, obb_of_corners in E. cbn in E. pose proof (Rle_abs u). lra.
Qed.
Example ex_triangle : distinct (mkTri (V3 0 0 0) (V3 1 0 0) (V3 0 1 0)) /\ tri_area2 (mkTri2 (V2 0 0) (V2 1 0) (V2 0 1)) = 1 / 2 /\ tri_area2 (mkTri2 (V2 0 0) (V2 0 1) (V2 1 0)) < 0.
Proof.
  split; [unfold distinct; cbn [pa pb pc]; repeat split; intros E; injection E; lra|]. unfold tri_area2. cbn [a2 b2 c2 x2 y2]. lra.
Qed.
