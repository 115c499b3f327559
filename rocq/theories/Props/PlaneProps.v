(** Properties C41-C44, C63, C64: planes.  [alt] selects the plane equation: false is n*x = d, true is n*x + d = 0. *)
From Coq Require Import Reals List Bool Lra Psatz.
From Verif Require Import Model.Scalar Model.Vec Model.Ext Model.Plane Spec.PlaneSpec.
From Verif Require Import Proofs.VecLemmas Proofs.PlaneLemmas Proofs.PlaneLemmas2.
Import ListNotations.
Local Open Scope R_scope.

(** ** C41 *)

(** The plane built from three points contains them; if they are not collinear its normal has length 1 and is the direction
    of the cross product of the edges. *)
Theorem C41_three_points_on_plane :
  forall (alt : bool) (a b c : vec3), let p := build3 alt a b c in
  on_plane alt p a /\ on_plane alt p b /\ on_plane alt p c /\
  (cross (vsub b a) (vsub c a) <> vzero ->
   unit (normal p) /\ exists s, 0 < s /\ normal p = vscale s (cross (vsub b a) (vsub c a))).
Proof.
  intros alt a b c p. unfold on_plane, p. split; [|split; [|split]].
  - destruct (build3_side alt a b c a) as (s & _ & ->). rewrite vsub_self. vring.
  - destruct (build3_side alt a b c b) as (s & _ & ->). vring.
  - destruct (build3_side alt a b c c) as (s & _ & ->). vring.
  - intros H. split; [apply normalize_dot, H|]. destruct (normalize_as_scale (cross (vsub b a) (vsub c a))) as (s & Hs & E).
    exists s. auto.
Qed.
Print Assumptions C41_three_points_on_plane.

Example C41_three_points_example : cross (vsub (V3 1 0 2) (V3 0 0 2)) (vsub (V3 0 3 2) (V3 0 0 2)) <> vzero.
Proof. vunfold. intros [= _ _ H]. lra. Qed.

(** The plane built from a normal and a point has that normal and contains that point. *)
Theorem C41_point_on_plane :
  forall (alt : bool) (n m : vec3), normal (build_point alt n m) = n /\ on_plane alt (build_point alt n m) m.
Proof. intros alt n m. split; [reflexivity|]. unfold on_plane, build_point, update_distance. cbn [normal]. rewrite side_dsign. ring. Qed.
Print Assumptions C41_point_on_plane.

(** Flipping exchanges the sides and keeps the plane. *)
Theorem C41_flip_negates :
  forall (alt : bool) (p : plane) (x : vec3),
  side alt (flip p) x = - side alt p x /\ sgn_distance alt (flip p) x = - sgn_distance alt p x /\
  plane_distance alt (flip p) x = plane_distance alt p x /\ flip (flip p) = p.
Proof.
  intros alt p x. assert (E : side alt (flip p) x = - side alt p x).
  { unfold side, flip; cbn. rewrite dot_opp_l. destruct alt; ring. }
  unfold plane_distance. rewrite !sgn_side, E. repeat split; [apply Rabs_Ropp|].
  destruct p as [[nx ny nz] d]. unfold flip, vopp; cbn. f_equal; [f_equal|]; ring.
Qed.
Print Assumptions C41_flip_negates.

(** Normalizing keeps the plane and its sides, and gives a normal of length 1 (unless it is zero). *)
Theorem C41_normalize_keeps_plane :
  forall (alt : bool) (p : plane),
  (forall x, (on_plane alt (plane_normalize p) x <-> on_plane alt p x) /\
             (in_front alt (plane_normalize p) x <-> in_front alt p x)) /\
  (normal p <> vzero -> unit (normal (plane_normalize p))).
Proof.
  intros alt p. split; [|apply plane_normalize_unit]. intros x.
  unfold on_plane, in_front. destruct (plane_normalize_pos alt p x) as (s & Hs & ->). split; split; intros H; nra.
Qed.
Print Assumptions C41_normalize_keeps_plane.

(** MemberPoint lies on the plane, and no point of the plane is nearer to the origin, if the normal has length 1... *)
Theorem C41_member_point :
  forall (alt : bool) (p : plane), unit (normal p) ->
  on_plane alt p (member_point alt p) /\ forall x, on_plane alt p x -> dist (member_point alt p) vzero <= dist x vzero.
Proof.
  intros alt p U.
  assert (O : on_plane alt p (member_point alt p)).
  { unfold on_plane, member_point. rewrite <- sgn_side. unfold sgn_distance. rewrite dot_scale_r, U. ring. }
  split; [exact O|]. intros x Hx.
  assert (K := side_le_dist alt p vzero x U). unfold on_plane in Hx. rewrite Hx, Rminus_0_r in K.
  replace (dist x vzero) with (dist vzero x) by (unfold dist, len; f_equal; vring).
  eapply Rle_trans; [|exact K].
  unfold dist. replace (vsub (member_point alt p) vzero) with (vscale (dsign alt (distance p)) (normal p)).
  - rewrite len_scale, (unit_len _ U), <- sgn_side. unfold sgn_distance.
    replace (dot (normal p) vzero) with 0 by (unfold dot, vzero; cbn; ring).
    rewrite Rminus_0_l, Rabs_Ropp. lra.
  - unfold member_point. generalize (vscale (dsign alt (distance p)) (normal p)). intros v. vring.
Qed.
Print Assumptions C41_member_point.

(** ...but not for other normals, although no such precondition is documented. *)
Theorem C41_member_point_refuted :
  ~ forall (alt : bool) (p : plane), normal p <> vzero -> on_plane alt p (member_point alt p).
Proof.
  intros H. specialize (H false (mkPlane (V3 2 0 0) 1)). unfold on_plane, side, member_point, dsign in H; cbn in H. vunfold.
  assert (N : V3 2 0 0 <> V3 0 0 0) by (intros [= E]; lra). specialize (H N). lra.
Qed.
Print Assumptions C41_member_point_refuted.

(** The documented meaning of the constructor with four scalars, "n*x + d = 0 no matter which equation", holds for neither
    equation: the plane contains the mirrored points n*x = d instead. *)
Theorem C41_four_scalars_refuted :
  forall alt : bool, ~ forall (x y z d : R) (q : vec3), on_plane alt (plane_4 alt x y z d) q <-> x * vx q + y * vy q + z * vz q + d = 0.
Proof.
  intros alt H. specialize (H 1 0 0 1 (V3 (-1) 0 0)). unfold on_plane, plane_4 in H. rewrite side_dsign in H. vunfold.
  destruct H as [_ H]. lra.
Qed.
Print Assumptions C41_four_scalars_refuted.
Theorem C41_four_scalars_mirrored :
  forall (alt : bool) (x y z d : R) (q : vec3), on_plane alt (plane_4 alt x y z d) q <-> x * vx q + y * vy q + z * vz q = d.
Proof. intros. unfold on_plane, plane_4. rewrite side_dsign. unfold dot; cbn. lra. Qed.
Print Assumptions C41_four_scalars_mirrored.

(** ** C42 *)

(** SgnDistanceToPlane is the value of the plane equation, for unit normals the signed euclidean distance: nothing on the
    plane is nearer to the point than ClosestPointOnPlane, which is on the plane, at DistanceToPlane. *)
Theorem C42_distance_and_closest_point :
  forall (alt : bool) (p : plane) (x : vec3),
  sgn_distance alt p x = side alt p x /\
  (unit (normal p) ->
   on_plane alt p (closest_on_plane alt p x) /\
   dist x (closest_on_plane alt p x) = plane_distance alt p x /\
   forall y, on_plane alt p y -> plane_distance alt p x <= dist x y).
Proof.
  intros alt p x. split; [apply sgn_side|]. intros U. unfold plane_distance. rewrite sgn_side. split; [|split].
  - unfold on_plane. rewrite closest_side, U. ring.
  - apply closest_dist, U.
  - intros y Hy. assert (K := side_le_dist alt p x y U). unfold on_plane in Hy. rewrite Hy, Rminus_0_r in K. exact K.
Qed.
Print Assumptions C42_distance_and_closest_point.

Theorem C42_closest_point_refuted :
  ~ forall (alt : bool) (p : plane) (x : vec3), normal p <> vzero -> on_plane alt p (closest_on_plane alt p x).
Proof.
  intros H. specialize (H false (mkPlane (V3 2 0 0) 0) (V3 1 0 0)). unfold on_plane in H. rewrite closest_side in H.
  unfold side in H; cbn in H. vunfold. assert (N : V3 2 0 0 <> V3 0 0 0) by (intros [= E]; lra). specialize (H N). lra.
Qed.
Print Assumptions C42_closest_point_refuted.

(** A point is in front of, behind or on the plane according to its signed distance, up to the tolerance. *)
Theorem C42_point_relation :
  forall (alt : bool) (p : plane) (x : vec3) (eps : R), 0 <= eps ->
  (relation_point alt p x eps = InFrontOf <-> eps < side alt p x) /\
  (relation_point alt p x eps = Behind <-> side alt p x < - eps) /\
  (relation_point alt p x eps = Onto <-> - eps <= side alt p x <= eps) /\
  relation_point alt p x eps <> Clipped /\
  (is_front alt p x = true <-> 0 < side alt p x).
Proof.
  intros alt p x eps He. unfold relation_point. rewrite sgn_side.
  destruct (Rltb eps (side alt p x)) eqn:E1; [apply Rltb_iff in E1|apply Rltb_false in E1].
  - repeat split; try discriminate; try lra; try reflexivity; try apply is_front_iff.
  - destruct (Rltb (side alt p x) (- eps)) eqn:E2; [apply Rltb_iff in E2|apply Rltb_false in E2];
      repeat split; try discriminate; try lra; try reflexivity; try apply is_front_iff.
Qed.
Print Assumptions C42_point_relation.

(** A box is in front of the plane iff all its points are, behind iff none is, and clipped iff some are and some are not. *)
Theorem C42_box_relation :
  forall (alt : bool) (p : plane) (b : aabb), in_box b (bmin b) -> in_box b (bmax b) ->
  (relation_aabb alt p b = InFrontOf <-> forall x, in_box b x -> 0 < side alt p x) /\
  (relation_aabb alt p b = Behind <-> forall x, in_box b x -> side alt p x <= 0) /\
  (relation_aabb alt p b = Clipped <-> (exists x, in_box b x /\ 0 < side alt p x) /\ (exists x, in_box b x /\ side alt p x <= 0)) /\
  relation_aabb alt p b <> Onto.
Proof. intros alt p b H _. apply relation_aabb_spec. unfold valid_box, in_box in *. lra. Qed.
Print Assumptions C42_box_relation.

Example C42_box_example :
  relation_aabb false (mkPlane (V3 1 (-1) 0) 0) (mkAabb (V3 0 0 0) (V3 1 1 1)) = Clipped /\
  relation_aabb true (mkPlane (V3 1 (-1) 0) 5) (mkAabb (V3 0 0 0) (V3 1 1 1)) = InFrontOf.
Proof.
  split; apply C42_box_relation; unfold in_box, side; cbn; try lra.
  - split; [exists (V3 1 0 0)|exists (V3 0 1 0)]; cbn; vunfold; lra.
  - intros x H. vdestr; vunfold; lra.
Qed.

(** ** C43 *)

(** The line reported for two planes consists exactly of their common points; nothing is reported only if the squared length
    of the cross product of the normals is within the tolerance. *)
Theorem C43_two_planes :
  forall (alt : bool) (a b : plane) (eps : R), 0 <= eps ->
  match plane_plane alt a b eps with
  | Some r => (forall x, on_plane alt a x /\ on_plane alt b x <-> on_line r x) /\ rdirection r <> vzero
  | None => len_sq (cross (normal a) (normal b)) <= eps
  end.
Proof.
  intros alt a b eps He. destruct (plane_plane alt a b eps) as [r|] eqn:E.
  - split; [intros x; apply (plane_plane_spec _ _ _ _ _ _ He E)|].
    unfold plane_plane in E. destruct (Rltb eps _) eqn:L; [|discriminate]. injection E as <-. cbn. apply Rltb_iff in L.
    intros Z. rewrite Z in L. unfold dot, vzero in L; cbn in L. lra.
  - unfold plane_plane in E. destruct (Rltb eps _) eqn:L; [discriminate|]. apply Rltb_false in L. exact L.
Qed.
Print Assumptions C43_two_planes.

Lemma three_planes_sound alt neg a b c eps x : 0 <= eps ->
  plane_plane_plane alt neg a b c eps = Hit x -> on_plane alt a x /\ on_plane alt b x /\ on_plane alt c x.
Proof.
  intros He. unfold plane_plane_plane. destruct (plane_plane alt a b eps) as [r|] eqn:E; [|discriminate].
  unfold plane_ray. destruct (plane_interp alt neg c (rorigin r) (rdirection r)) as [t| | |] eqn:I; cbn [ext_ge]; try discriminate.
  destruct (Rleb 0 t); [|discriminate]. intros [= <-].
  assert (D : dot (normal c) (rdirection r) <> 0).
  { intros Z. unfold plane_interp, ediv in I. rewrite Z in I. replace (Reqb 0 0) with true in I by (symmetry; apply Reqb_iff; reflexivity).
    destruct (Reqb _ 0); [discriminate|]. destruct (eqb _ _); discriminate. }
  rewrite (interp_fin _ _ _ _ _ D) in I. injection I as <-.
  assert (C : on_plane alt c (ray_lerp r (- side alt c (rorigin r) / dot (normal c) (rdirection r)))) by (apply interp_side; [exact D|reflexivity]).
  assert (AB : on_plane alt a (ray_lerp r (- side alt c (rorigin r) / dot (normal c) (rdirection r))) /\
               on_plane alt b (ray_lerp r (- side alt c (rorigin r) / dot (normal c) (rdirection r)))).
  { apply (plane_plane_spec _ _ _ _ _ _ He E). eexists. reflexivity. }
  tauto.
Qed.

(** A point reported for three planes lies in all of them.  If the planes meet in exactly one point (and the first two are not
    parallel within the tolerance), that point is reported iff it is not on the backward half of the line of the first two planes;
    so the full statement "a point is reported whenever there is exactly one" is only true for half of the inputs. *)
Theorem C43_three_planes_partial :
  forall (alt neg : bool) (a b c : plane) (eps : R), 0 <= eps ->
  (forall x, plane_plane_plane alt neg a b c eps = Hit x -> on_plane alt a x /\ on_plane alt b x /\ on_plane alt c x) /\
  (forall r, plane_plane alt a b eps = Some r -> dot (normal c) (cross (normal a) (normal b)) <> 0 ->
   exists x, on_plane alt a x /\ on_plane alt b x /\ on_plane alt c x /\
   (forall y, on_plane alt a y -> on_plane alt b y -> on_plane alt c y -> y = x) /\
   (plane_plane_plane alt neg a b c eps = if Rltb (dot (vsub x (rorigin r)) (rdirection r)) 0 then Miss else Hit x)).
Proof.
  intros alt neg a b c eps He. split; [intros x; apply three_planes_sound, He|].
  intros r E D.
  assert (Dr : rdirection r = cross (normal a) (normal b)).
  { unfold plane_plane in E. destruct (Rltb eps _); [|discriminate]. injection E as <-. reflexivity. }
  rewrite <- Dr in D. set (t := - side alt c (rorigin r) / dot (normal c) (rdirection r)).
  exists (vadd (rorigin r) (vscale t (rdirection r))).
  assert (AB := fun x => plane_plane_spec alt a b eps r x He E).
  assert (L : on_line r (vadd (rorigin r) (vscale t (rdirection r)))) by (eexists; reflexivity).
  apply AB in L. destruct L as [L1 L2].
  assert (Cp : on_plane alt c (vadd (rorigin r) (vscale t (rdirection r)))) by (apply interp_side; [exact D|reflexivity]).
  split; [exact L1|]. split; [exact L2|]. split; [exact Cp|]. split.
  - intros y Ya Yb Yc. destruct (proj1 (AB y) (conj Ya Yb)) as (s & Es). subst y.
    apply interp_side in Yc; [|exact D]. rewrite Yc. reflexivity.
  - unfold plane_plane_plane, plane_ray. rewrite E, (interp_fin _ _ _ _ _ D). fold t. cbn [ext_ge].
    assert (P : 0 < dot (rdirection r) (rdirection r)).
    { unfold plane_plane in E. destruct (Rltb eps _) eqn:F; [|discriminate]. injection E as <-. cbn. apply Rltb_iff in F. lra. }
    replace (dot (vsub (vadd (rorigin r) (vscale t (rdirection r))) (rorigin r)) (rdirection r)) with (t * dot (rdirection r) (rdirection r))
      by (generalize (rorigin r) (rdirection r) t; intros; vring).
    destruct (Rleb 0 t) eqn:T; [apply Rleb_iff in T|apply Rleb_false in T].
    + replace (Rltb (t * dot (rdirection r) (rdirection r)) 0) with false; [reflexivity|]. symmetry. apply Rltb_false. nra.
    + replace (Rltb (t * dot (rdirection r) (rdirection r)) 0) with true; [reflexivity|]. symmetry. apply Rltb_iff. nra.
Qed.
Print Assumptions C43_three_planes_partial.

(** The planes x = 0, y = 0, z = -1 meet in one point, which is not reported; in another order of the planes it is. *)
Theorem C43_three_planes_refuted :
  let a := mkPlane (V3 1 0 0) 0 in let b := mkPlane (V3 0 1 0) 0 in let c := mkPlane (V3 0 0 1) (-1) in
  forall eps neg, 0 <= eps < 1 ->
  (forall x, on_plane false a x /\ on_plane false b x /\ on_plane false c x <-> x = V3 0 0 (-1)) /\
  plane_plane_plane false neg a b c eps = Miss /\ plane_plane_plane false neg b a c eps = Hit (V3 0 0 (-1)).
Proof.
  intros a b c eps neg He. split; [|split].
  - intros x. unfold on_plane, side, a, b, c, dot; cbn [normal distance vx vy vz]. split; [|intros ->; cbn; lra].
    intros (H1 & H2 & H3). apply vec3_ext; cbn; lra.
  - assert (K := C43_three_planes_partial false neg a b c eps (proj1 He)). destruct K as [_ K].
    unfold plane_plane in K. replace (Rltb eps _) with true in K
      by (symmetry; apply Rltb_iff; unfold a, b; vunfold; cbn; lra).
    specialize (K _ eq_refl). destruct K as (x & X1 & X2 & X3 & _ & ->).
    + unfold a, b, c; vunfold; cbn. lra.
    + assert (x = V3 0 0 (-1)) as ->.
      { unfold on_plane, side, a, b, c, dot in X1, X2, X3; cbn in X1, X2, X3. apply vec3_ext; cbn; lra. }
      replace (Rltb _ 0) with true; [reflexivity|]. symmetry. apply Rltb_iff. unfold a, b, dsign; vunfold; cbn. field_simplify; lra.
  - assert (K := C43_three_planes_partial false neg b a c eps (proj1 He)). destruct K as [_ K].
    unfold plane_plane in K. replace (Rltb eps _) with true in K
      by (symmetry; apply Rltb_iff; unfold a, b; vunfold; cbn; lra).
    specialize (K _ eq_refl). destruct K as (x & X1 & X2 & X3 & _ & ->).
    + unfold a, b, c; vunfold; cbn. lra.
    + assert (x = V3 0 0 (-1)) as ->.
      { unfold on_plane, side, a, b, c, dot in X1, X2, X3; cbn in X1, X2, X3. apply vec3_ext; cbn; lra. }
      replace (Rltb _ 0) with false; [reflexivity|]. symmetry. apply Rltb_false. unfold a, b, dsign; vunfold; cbn. field_simplify; lra.
Qed.
Print Assumptions C43_three_planes_refuted.

(** Planes without a common point (x = 0, y = 0, x = -1): depending on the sign of a zero, an intersection is reported, at
    infinity. *)
Theorem C43_no_common_point_refuted :
  exists (neg : bool) (a b c : plane), (~ exists x, on_plane false a x /\ on_plane false b x /\ on_plane false c x) /\
  forall eps, 0 <= eps < 1 -> plane_plane_plane false neg a b c eps = HitInf.
Proof.
  exists true, (mkPlane (V3 1 0 0) 0), (mkPlane (V3 0 1 0) 0), (mkPlane (V3 1 0 0) (-1)). split.
  - intros (x & H1 & _ & H3). unfold on_plane, side, dot in *; cbn in *. lra.
  - intros eps He. unfold plane_plane_plane, plane_plane. cbn [normal distance].
    replace (Rltb eps _) with true by (symmetry; apply Rltb_iff; vunfold; lra).
    unfold plane_ray, plane_interp, ediv. cbn [rorigin rdirection normal distance].
    replace (Reqb (dot _ (cross _ _)) 0) with true by (symmetry; apply Reqb_iff; vunfold; ring).
    match goal with |- context [- ?s] => replace (- s) with (-1) by (unfold sgn_distance, dsign; vunfold; cbn; field_simplify; lra) end.
    replace (Reqb (-1) 0) with false by (symmetry; apply Reqb_false; lra).
    replace (Rltb 0 (-1)) with false by (symmetry; apply Rltb_false; lra). reflexivity.
Qed.
Print Assumptions C43_no_common_point_refuted.

(** ** C44 *)

(** Rays that are not parallel to the plane: the reported point is on the plane and on the ray, and nothing is reported only if
    the ray does not meet the plane.  [neg] (the sign of a zero divisor) does not matter. *)
Theorem C44_ray_hits :
  forall (alt neg : bool) (p : plane) (r : ray), dot (normal p) (rdirection r) <> 0 ->
  match plane_ray alt neg p r with
  | Hit x => on_ray r x /\ on_plane alt p x
  | Miss => forall x, on_ray r x -> ~ on_plane alt p x
  | HitInf => False
  end.
Proof.
  intros alt neg p r D. unfold plane_ray. rewrite (interp_fin _ _ _ _ _ D). cbn [ext_ge].
  set (t := - side alt p (rorigin r) / dot (normal p) (rdirection r)).
  destruct (Rleb 0 t) eqn:T; [apply Rleb_iff in T|apply Rleb_false in T].
  - split; [exists t; auto|]. apply interp_side; [exact D|reflexivity].
  - intros x (s & Hs & ->) O. apply interp_side in O; [|exact D]. fold t in O. lra.
Qed.
Print Assumptions C44_ray_hits.

(** The same for line segments; here parallel segments are never reported. *)
Theorem C44_segment_hits :
  forall (alt neg : bool) (p : plane) (l : line),
  match plane_line alt neg p l with
  | Hit x => on_segment l x /\ on_plane alt p x
  | Miss => dot (normal p) (vsub (lb l) (la l)) <> 0 -> forall x, on_segment l x -> ~ on_plane alt p x
  | HitInf => False
  end.
Proof.
  intros alt neg p l. unfold plane_line. change (vsub (lb l) (la l)) with (line_direction l).
  destruct (Req_dec (dot (normal p) (line_direction l)) 0) as [Z|D].
  - unfold plane_interp, ediv. rewrite Z. replace (Reqb 0 0) with true by (symmetry; apply Reqb_iff; reflexivity).
    destruct (Reqb _ 0); cbn; [intros H; exfalso; apply H; reflexivity|].
    destruct (eqb _ _); cbn; intros H; exfalso; apply H; reflexivity.
  - rewrite (interp_fin _ _ _ _ _ D). cbn [ext_ge ext_le]. set (t := - side alt p (la l) / dot (normal p) (line_direction l)).
    destruct (Rleb 0 t) eqn:T0; [apply Rleb_iff in T0; destruct (Rleb t 1) eqn:T1; [apply Rleb_iff in T1|apply Rleb_false in T1]|apply Rleb_false in T0]; cbn [andb].
    + split; [exists t; split; [lra|apply line_lerp_mix]|]. rewrite line_lerp_ray. apply interp_side; [exact D|reflexivity].
    + intros _ x (s & Hs & ->) O. rewrite <- line_lerp_mix, line_lerp_ray in O. apply interp_side in O; [|exact D]. fold t in O. lra.
    + intros _ x (s & Hs & ->) O. rewrite <- line_lerp_mix, line_lerp_ray in O. apply interp_side in O; [|exact D]. fold t in O. lra.
Qed.
Print Assumptions C44_segment_hits.

Example C44_example : forall neg, plane_line false neg (mkPlane (V3 0 0 1) 1) (mkLine (V3 0 0 0) (V3 0 0 2)) = Hit (V3 0 0 1).
Proof.
  intros neg. assert (H := C44_segment_hits false neg (mkPlane (V3 0 0 1) 1) (mkLine (V3 0 0 0) (V3 0 0 2))).
  destruct (plane_line false neg (mkPlane (V3 0 0 1) 1) (mkLine (V3 0 0 0) (V3 0 0 2))) as [|x|]; [|f_equal|contradiction].
  - exfalso. apply (H ltac:(vunfold; cbn; lra) (V3 0 0 1)).
    + exists (1 / 2). split; [lra|]. vunfold; cbn. f_equal; lra.
    + unfold on_plane, side, dot; cbn. lra.
  - destruct H as ((t & Ht & ->) & O). unfold on_plane, side in O; cbn in O. vunfold. cbn. cbn in O. f_equal; lra.
Qed.

(** Parallel rays: a ray that never meets the plane may be reported as hitting it (at infinity), and a ray within the plane is
    reported as a miss. *)
Theorem C44_parallel_ray_refuted :
  (exists (neg : bool) (p : plane) (r : ray), (forall x, on_ray r x -> ~ on_plane false p x) /\ plane_ray false neg p r = HitInf) /\
  (exists (p : plane) (r : ray), (forall x, on_ray r x -> on_plane false p x) /\ forall neg, plane_ray false neg p r = Miss).
Proof.
  split.
  - exists false, (mkPlane (V3 0 0 1) 1), (mkRay (V3 0 0 0) (V3 1 0 0)). split.
    + intros x (t & _ & ->). unfold on_plane, side; vunfold; cbn. lra.
    + unfold plane_ray, plane_interp, ediv, sgn_distance, dsign. cbn [rorigin rdirection normal distance].
      replace (Reqb (dot _ (V3 1 0 0)) 0) with true by (symmetry; apply Reqb_iff; vunfold; ring).
      replace (- (dot (V3 0 0 1) (V3 0 0 0) - 1)) with 1 by (vunfold; ring).
      replace (Reqb 1 0) with false by (symmetry; apply Reqb_false; lra).
      replace (Rltb 0 1) with true by (symmetry; apply Rltb_iff; lra). reflexivity.
  - exists (mkPlane (V3 0 0 1) 0), (mkRay (V3 0 0 0) (V3 1 0 0)). split.
    + intros x (t & _ & ->). unfold on_plane, side; vunfold; cbn. lra.
    + intros neg. unfold plane_ray, plane_interp, ediv, sgn_distance, dsign. cbn [rorigin rdirection normal distance].
      replace (Reqb (dot _ (V3 1 0 0)) 0) with true by (symmetry; apply Reqb_iff; vunfold; ring).
      replace (Reqb (- _) 0) with true by (symmetry; apply Reqb_iff; vunfold; ring). reflexivity.
Qed.
Print Assumptions C44_parallel_ray_refuted.

(** ** C63 *)

(** For the equation n*x = d and unit normals, a rigid motion moves the plane along: signed distances are preserved. *)
Theorem C63_transform_plane_partial :
  forall (m : affine) (p : plane) (x : vec3), rigid m -> unit (normal p) ->
  side false (transform_plane false m p) (transform_vector m x) = side false p x /\ unit (normal (transform_plane false m p)).
Proof.
  intros m p x M U. unfold unit in *. split; [|cbn; rewrite M; exact U].
  unfold side, transform_plane, transform_vector, member_point, dsign. cbn [normal distance].
  rewrite !dot_add_r, !M, dot_scale_r, U. ring.
Qed.
Print Assumptions C63_transform_plane_partial.

Example C63_example : rigid (mkAffine (V3 0 (-1) 0) (V3 1 0 0) (V3 0 0 1) (V3 5 6 7)) /\ unit (V3 (3 / 5) (4 / 5) 0).
Proof. split; [intros u v|unfold unit]; unfold rotate_vector; cbn; vdestr; vunfold; field. Qed.

(** For n*x + d = 0 even the identity moves the plane; and for n*x = d a scaling does not keep points on the plane. *)
Theorem C63_alternate_equation_refuted :
  let m := mkAffine (V3 1 0 0) (V3 0 1 0) (V3 0 0 1) vzero in let p := mkPlane (V3 0 0 1) 1 in let x := V3 0 0 (-1) in
  transform_vector m x = x /\ on_plane true p x /\ ~ on_plane true (transform_plane true m p) x.
Proof.
  unfold transform_vector, rotate_vector, transform_plane, on_plane, side, member_point, dsign. cbn.
  split; [vunfold; f_equal; ring|]. unfold transform_vector, rotate_vector. vunfold. cbn. lra.
Qed.
Print Assumptions C63_alternate_equation_refuted.

Theorem C63_scaling_refuted :
  exists (m : affine) (p : plane) (x : vec3), unit (normal p) /\ on_plane false p x /\
  ~ on_plane false (transform_plane false m p) (transform_vector m x).
Proof.
  exists (mkAffine (V3 2 0 0) (V3 0 1 0) (V3 0 0 1) vzero), (mkPlane (V3 (3 / 5) (4 / 5) 0) 0), (V3 4 (-3) 0).
  unfold unit, on_plane, side, transform_plane, transform_vector, rotate_vector, member_point, dsign. cbn. vunfold. cbn.
  unfold rotate_vector; cbn. vunfold. split; [field|]. split; [field|]. lra.
Qed.
Print Assumptions C63_scaling_refuted.

(** ** C64 *)

(** DistanceToPlane of a box, for unit normals: it is positive iff the plane misses the box, and then it is the distance of the
    nearest point.  (If the plane meets the box the result may be negative, although documented as unsigned.) *)
Theorem C64_box_distance :
  forall (alt : bool) (p : plane) (b : aabb), in_box b (bmin b) -> in_box b (bmax b) -> unit (normal p) ->
  let d := plane_distance_aabb alt p b in
  (d <= 0 <-> exists x, in_box b x /\ on_plane alt p x) /\
  (0 < d -> (forall x y, in_box b x -> on_plane alt p y -> d <= dist x y) /\
            (exists x y, in_box b x /\ on_plane alt p y /\ dist x y = d)).
Proof.
  intros alt p b H _ U d. assert (V : valid_box b) by (unfold valid_box, in_box in *; lra).
  unfold d. rewrite aabb_radius. destruct (aabb_interval alt p b V) as (R0 & I & N & F). cbn zeta in *.
  set (c := side alt p (box_center b)) in *. set (r := c - side alt p (near_point (normal p) b)) in *.
  split; [|intros P; split].
  - rewrite (interval_zero c r R0). split.
    + intros Z. rewrite <- N, <- F in Z. destruct (zero_between _ _ Z) as (t & Ht & E).
      exists (vadd (near_point (normal p) b) (vscale t (vsub (far_point (normal p) b) (near_point (normal p) b)))).
      split; [apply in_box_mix; [apply near_in, V|apply far_in, V|exact Ht]|].
      unfold on_plane. rewrite side_add, dot_scale_r, <- (side_diff alt). exact E.
    + intros (x & Hx & O). specialize (I x Hx). unfold on_plane in O. lra.
  - intros x y Hx Hy. eapply Rle_trans; [apply (interval_distance c r (side alt p x) R0 (I x Hx))|].
    assert (K := side_le_dist alt p x y U). unfold on_plane in Hy. rewrite Hy, Rminus_0_r in K. exact K.
  - destruct (interval_attained c r R0 (Rlt_le _ _ P)) as [E|E].
    + exists (near_point (normal p) b), (closest_on_plane alt p (near_point (normal p) b)).
      split; [apply near_in, V|]. split; [unfold on_plane; rewrite closest_side, U; ring|]. rewrite closest_dist by exact U. rewrite N. exact E.
    + exists (far_point (normal p) b), (closest_on_plane alt p (far_point (normal p) b)).
      split; [apply far_in, V|]. split; [unfold on_plane; rewrite closest_side, U; ring|]. rewrite closest_dist by exact U. rewrite F. exact E.
Qed.
Print Assumptions C64_box_distance.

(** The same for oriented boxes, whatever their axes. *)
Theorem C64_oriented_box_distance :
  forall (alt : bool) (p : plane) (b : obb), 0 <= vx (ohalf b) -> 0 <= vy (ohalf b) -> 0 <= vz (ohalf b) -> unit (normal p) ->
  let d := plane_distance_obb alt p b in
  (d <= 0 <-> exists x, in_obb b x /\ on_plane alt p x) /\
  (0 < d -> (forall x y, in_obb b x -> on_plane alt p y -> d <= dist x y) /\
            (exists x y, in_obb b x /\ on_plane alt p y /\ dist x y = d)).
Proof.
  intros alt p b H1 H2 H3 U d.
  destruct (obb_interval alt p b (conj H1 (conj H2 H3))) as (R0 & I & A). cbn zeta in *.
  assert (E : d = Rabs (side alt p (ocenter b)) - obb_radius p b).
  { unfold d, plane_distance_obb, plane_distance. rewrite sgn_side. reflexivity. }
  rewrite E. set (c := side alt p (ocenter b)) in *. set (r := obb_radius p b) in *.
  split; [|intros P; split].
  - rewrite (interval_zero c r R0). split.
    + intros Z. apply A. lra.
    + intros (x & Hx & O). specialize (I x Hx). unfold on_plane in O. lra.
  - intros x y Hx Hy. eapply Rle_trans; [apply (interval_distance c r (side alt p x) R0 (I x Hx))|].
    assert (K := side_le_dist alt p x y U). unfold on_plane in Hy. rewrite Hy, Rminus_0_r in K. exact K.
  - destruct (interval_attained c r R0 (Rlt_le _ _ P)) as [Q|Q].
    + destruct (A (c - r)) as (x & Hx & S); [lra|]. exists x, (closest_on_plane alt p x).
      split; [exact Hx|]. split; [unfold on_plane; rewrite closest_side, U; ring|]. rewrite closest_dist by exact U. rewrite S. exact Q.
    + destruct (A (c + r)) as (x & Hx & S); [lra|]. exists x, (closest_on_plane alt p x).
      split; [exact Hx|]. split; [unfold on_plane; rewrite closest_side, U; ring|]. rewrite closest_dist by exact U. rewrite S. exact Q.
Qed.
Print Assumptions C64_oriented_box_distance.

(** "Unsigned" is wrong: a box halved by the plane has a negative distance. *)
Theorem C64_unsigned_refuted :
  exists (p : plane) (b : aabb), in_box b (bmin b) /\ in_box b (bmax b) /\ unit (normal p) /\ plane_distance_aabb false p b < 0.
Proof.
  exists (mkPlane (V3 1 0 0) 0), (mkAabb (V3 (-1) (-1) (-1)) (V3 1 1 1)).
  unfold in_box, unit, plane_distance_aabb, plane_distance, sgn_distance, box_center, dsign; cbn. vunfold. cbn.
  repeat (split; try lra). replace (_ - 0) with 0 by field. rewrite Rabs_R0, (Rabs_pos_eq 1) by lra. lra.
Qed.
Print Assumptions C64_unsigned_refuted.
