(** Properties C57 and C59: convex hulls, frusta, cones. *)
From Coq Require Import Reals List Bool Lra Psatz.
From Verif Require Import Model.Scalar Model.Vec Model.Ext Model.Plane Spec.PlaneSpec.
From Verif Require Import Proofs.VecLemmas Proofs.PlaneLemmas Proofs.PlaneLemmas2.
Import ListNotations.
Local Open Scope R_scope.

(** ** C57 *)

(** A point is reported inside iff it is in front of none of the planes; normalizing the planes does not change the hull. *)
Theorem C57_hull_membership :
  forall (alt : bool) (planes : list plane) (x : vec3),
  (hull_point_inside alt planes x = true <-> in_hull alt planes x) /\
  (hull_point_inside alt (hull_normalize planes) x = hull_point_inside alt planes x).
Proof.
  intros alt planes x. split; [apply hull_point_iff|].
  apply eq_true_iff_eq. rewrite !hull_point_iff. unfold in_hull, hull_normalize. split.
  - intros H p Hp F. apply (H (plane_normalize p)); [apply in_map, Hp|].
    unfold in_front in *. destruct (plane_normalize_pos alt p x) as (s & Hs & ->). apply Rmult_lt_0_compat; assumption.
  - intros H q Hq. apply in_map_iff in Hq. destruct Hq as (p & <- & Hp). intros F. apply (H p Hp).
    unfold in_front in *. destruct (plane_normalize_pos alt p x) as (s & Hs & E). rewrite E in F. nra.
Qed.
Print Assumptions C57_hull_membership.

(** A sphere reported outside has no point in the hull (planes with unit normals, see hull_normalize). *)
Theorem C57_sphere_outside :
  forall (alt : bool) (planes : list plane) (s : sphere), Forall (fun p => unit (normal p)) planes ->
  hull_sphere_inside alt planes s = false -> forall x, in_ball s x -> ~ in_hull alt planes x.
Proof.
  intros alt planes s U H x Hx I. apply hull_sphere_false in H. destruct H as (p & Hp & L).
  rewrite Forall_forall in U. assert (K := side_le_dist alt p (sorigin s) x (U p Hp)).
  apply (I p Hp). unfold in_front, in_ball in *.
  replace (dist x (sorigin s)) with (dist (sorigin s) x) in Hx by (unfold dist, len; f_equal; vring).
  assert (B := Rle_abs (side alt p (sorigin s) - side alt p x)). lra.
Qed.
Print Assumptions C57_sphere_outside.

(** A sphere whose center is in the hull is reported inside (if its radius is not negative). *)
Theorem C57_sphere_center_inside :
  forall (alt : bool) (planes : list plane) (s : sphere), 0 <= sradius s -> in_hull alt planes (sorigin s) ->
  hull_sphere_inside alt planes s = true.
Proof.
  intros alt planes s Hr I. destruct (hull_sphere_inside alt planes s) eqn:E; [reflexivity|].
  apply hull_sphere_false in E. destruct E as (p & Hp & L). exfalso. apply (I p Hp). unfold in_front. lra.
Qed.
Print Assumptions C57_sphere_center_inside.

Example C57_sphere_example :
  hull_sphere_inside false [mkPlane (V3 1 0 0) 0; mkPlane (V3 0 1 0) 0] (mkSphere (V3 2 0 0) 1) = false.
Proof.
  apply hull_sphere_false. exists (mkPlane (V3 1 0 0) 0). split; [left; reflexivity|]. unfold side, dot; cbn. lra.
Qed.

(** The converse does not hold: near an edge of the hull a sphere is reported inside although it has no point in the hull. *)
Theorem C57_sphere_inside_refuted :
  exists (planes : list plane) (s : sphere), Forall (fun p => unit (normal p)) planes /\ 0 <= sradius s /\
  hull_sphere_inside false planes s = true /\ forall x, in_ball s x -> ~ in_hull false planes x.
Proof.
  exists [mkPlane (V3 1 0 0) 0; mkPlane (V3 0 1 0) 0], (mkSphere (V3 (9 / 10) (9 / 10) 0) 1).
  split; [repeat constructor; unfold unit; vunfold; cbn; ring|]. split; [cbn; lra|]. split.
  - destruct (hull_sphere_inside false _ _) eqn:E; [reflexivity|]. apply hull_sphere_false in E.
    destruct E as (p & [<-|[<-|[]]] & L); unfold side, dot in L; cbn in L; lra.
  - intros x Hx I. unfold in_ball, dist in Hx. cbn [sorigin sradius] in Hx.
    assert (A : ~ 0 < vx x) by (intros H; apply (I (mkPlane (V3 1 0 0) 0)); [left; reflexivity|]; unfold in_front, side, dot; cbn; lra).
    assert (B : ~ 0 < vy x) by (intros H; apply (I (mkPlane (V3 0 1 0) 0)); [right; left; reflexivity|]; unfold in_front, side, dot; cbn; lra).
    assert (S := len_sqr (vsub x (V3 (9 / 10) (9 / 10) 0))). assert (L := len_ge (vsub x (V3 (9 / 10) (9 / 10) 0))).
    set (l := len _) in *. destruct x as [a b c]. unfold dot, vsub in S; cbn in *.
    assert (0.81 <= (a - 9 / 10) * (a - 9 / 10)) by nra. assert (0.81 <= (b - 9 / 10) * (b - 9 / 10)) by nra.
    assert (0 <= (c - 0) * (c - 0)) by nra. assert (l * l <= 1) by nra. lra.
Qed.
Print Assumptions C57_sphere_inside_refuted.

(** The frustum of a matrix: due to the sign in the four-scalar constructor of planes (C41_four_scalars_refuted), the points
    reported inside are those whose mirror image satisfies all six inequalities of the view volume with the opposite sign... *)
Theorem C57_frustum_mirrored :
  forall (alt : bool) (m : mat4) (x : vec3),
  hull_point_inside alt (frustum_planes (frustum_from alt m)) x = true <->
  let c := fun r => clip r (vopp x) in
  c (m2 m) <= 0 /\ c (m3 m) + c (m0 m) <= 0 /\ c (m3 m) - c (m0 m) <= 0 /\
  c (m3 m) - c (m1 m) <= 0 /\ c (m3 m) + c (m1 m) <= 0 /\ c (m3 m) - c (m2 m) <= 0.
Proof.
  intros alt m x. rewrite hull_point_iff. unfold in_hull, frustum_planes, frustum_from. cbn [fnear fleft fright ftop fbottom ffar].
  assert (F : forall r, ~ in_front alt (frustum_plane alt r) x <-> clip r (vopp x) <= 0).
  { intros r. rewrite frustum_plane_front. unfold clip. rewrite dot_opp_r. lra. }
  assert (A : forall r r', clip (add4 r r') (vopp x) = clip r (vopp x) + clip r' (vopp x))
    by (intros; unfold clip, add4; cbn; rewrite dot_add_l; ring).
  assert (S : forall r r', clip (sub4 r r') (vopp x) = clip r (vopp x) - clip r' (vopp x))
    by (intros; unfold clip, sub4; cbn; rewrite dot_sub_l; ring).
  cbn zeta. rewrite <- !A, <- !S, <- !F. split.
  - intros H. repeat split; apply H; cbn; tauto.
  - intros (H1 & H2 & H3 & H4 & H5 & H6) p Hp. cbn in Hp. destruct Hp as [<-|[<-|[<-|[<-|[<-|[<-|[]]]]]]]; assumption.
Qed.
Print Assumptions C57_frustum_mirrored.

(** ...so a frustum does not contain the view volume.  For an orthographic matrix (here the identity) and for a perspective
    matrix (near plane 1, far plane 2) the frustum contains no point at all. *)
Theorem C57_frustum_refuted :
  let ortho := mkMat4 (V4 (V3 1 0 0) 0) (V4 (V3 0 1 0) 0) (V4 (V3 0 0 1) 0) (V4 (V3 0 0 0) 1) in
  let persp := mkMat4 (V4 (V3 1 0 0) 0) (V4 (V3 0 1 0) 0) (V4 (V3 0 0 2) (-2)) (V4 (V3 0 0 1) 0) in
  in_view_volume ortho (V3 0 0 0) /\ in_view_volume persp (V3 0 0 (3 / 2)) /\
  forall alt x, hull_point_inside alt (frustum_planes (frustum_from alt ortho)) x = false /\
                hull_point_inside alt (frustum_planes (frustum_from alt persp)) x = false.
Proof.
  intros ortho persp. split; [unfold in_view_volume, clip, ortho, dot; cbn; lra|]. split; [unfold in_view_volume, clip, persp, dot; cbn; lra|].
  intros alt x. split.
  - destruct (hull_point_inside alt (frustum_planes (frustum_from alt ortho)) x) eqn:E; [|reflexivity].
    apply C57_frustum_mirrored in E. unfold clip, ortho, dot in E; cbn in E. lra.
  - destruct (hull_point_inside alt (frustum_planes (frustum_from alt persp)) x) eqn:E; [|reflexivity].
    apply C57_frustum_mirrored in E. unfold clip, persp, dot in E; cbn in E. lra.
Qed.
Print Assumptions C57_frustum_refuted.

(** With the sign of the constructor corrected, the same planes describe the view volume exactly. *)
Theorem C57_frustum_corrected :
  forall (m : mat4) (x : vec3),
  let pl := fun r => mkPlane (vopp (xyz r)) (w4 r) in
  in_hull false [pl (m2 m); pl (add4 (m3 m) (m0 m)); pl (sub4 (m3 m) (m0 m)); pl (sub4 (m3 m) (m1 m)); pl (add4 (m3 m) (m1 m)); pl (sub4 (m3 m) (m2 m))] x
  <-> in_view_volume m x.
Proof.
  intros m x pl.
  assert (F : forall r, ~ in_front false (pl r) x <-> 0 <= clip r x).
  { intros r. unfold in_front, side, pl, clip; cbn. rewrite dot_opp_l. lra. }
  assert (A : forall r r', clip (add4 r r') x = clip r x + clip r' x) by (intros; unfold clip, add4; cbn; rewrite dot_add_l; ring).
  assert (S : forall r r', clip (sub4 r r') x = clip r x - clip r' x) by (intros; unfold clip, sub4; cbn; rewrite dot_sub_l; ring).
  unfold in_hull, in_view_volume. split.
  - intros H.
    assert (G : forall r, In (pl r) [pl (m2 m); pl (add4 (m3 m) (m0 m)); pl (sub4 (m3 m) (m0 m)); pl (sub4 (m3 m) (m1 m)); pl (add4 (m3 m) (m1 m)); pl (sub4 (m3 m) (m2 m))] -> 0 <= clip r x)
      by (intros r Hr; apply F, H, Hr).
    assert (G1 := G (m2 m) ltac:(cbn; tauto)). assert (G2 := G (add4 (m3 m) (m0 m)) ltac:(cbn; tauto)).
    assert (G3 := G (sub4 (m3 m) (m0 m)) ltac:(cbn; tauto)). assert (G4 := G (sub4 (m3 m) (m1 m)) ltac:(cbn; tauto)).
    assert (G5 := G (add4 (m3 m) (m1 m)) ltac:(cbn; tauto)). assert (G6 := G (sub4 (m3 m) (m2 m)) ltac:(cbn; tauto)).
    rewrite A in G2, G5. rewrite S in G3, G4, G6. lra.
  - intros V p Hp. cbn in Hp.
    destruct Hp as [<-|[<-|[<-|[<-|[<-|[<-|[]]]]]]]; apply F; rewrite ?A, ?S; lra.
Qed.
Print Assumptions C57_frustum_corrected.

(** The corners reported for a frustum: a point common to three of its planes, or the initial value (0, 0, 0). *)
Theorem C57_frustum_corners_partial :
  forall (alt neg : bool) (f : frustum) (eps : R), 0 <= eps ->
  let ok := fun c side => match c with Some x => x = vzero \/ (on_plane alt (ffar f) x /\ on_plane alt (fst side) x /\ on_plane alt (snd side) x) | None => True end in
  ok (left_top alt neg f eps) (ftop f, fleft f) /\ ok (left_bottom alt neg f eps) (fbottom f, fleft f) /\
  ok (right_top alt neg f eps) (ftop f, fright f) /\ ok (right_bottom alt neg f eps) (fbottom f, fright f).
Proof.
  intros alt neg f eps He ok.
  assert (K : forall a b c, match corner_of_hit (plane_plane_plane alt neg a b c eps) with Some x => x = vzero \/ (on_plane alt a x /\ on_plane alt b x /\ on_plane alt c x) | None => True end).
  { intros a b c. destruct (plane_plane_plane alt neg a b c eps) as [|x|] eqn:E; cbn; auto. right.
    unfold plane_plane_plane in E. destruct (plane_plane alt a b eps) as [r|] eqn:P; [|discriminate].
    unfold plane_ray in E. destruct (plane_interp alt neg c (rorigin r) (rdirection r)) as [t| | |] eqn:I; cbn [ext_ge] in E; try discriminate.
    destruct (Rleb 0 t); [|discriminate]. injection E as <-.
    assert (D : dot (normal c) (rdirection r) <> 0).
    { intros Z. unfold plane_interp, ediv in I. rewrite Z in I. replace (Reqb 0 0) with true in I by (symmetry; apply Reqb_iff; reflexivity).
      destruct (Reqb _ 0); [discriminate|]. destruct (eqb _ _); discriminate. }
    assert (AB : on_plane alt a (ray_lerp r t) /\ on_plane alt b (ray_lerp r t)) by (apply (plane_plane_spec _ _ _ _ _ _ He P); exists t; reflexivity).
    rewrite (interp_fin _ _ _ _ _ D) in I. injection I as <-.
    assert (C : on_plane alt c (ray_lerp r (- side alt c (rorigin r) / dot (normal c) (rdirection r)))) by (apply interp_side; [exact D|reflexivity]).
    tauto. }
  unfold ok, left_top, left_bottom, right_top, right_bottom. cbn [fst snd]. repeat split; apply K.
Qed.
Print Assumptions C57_frustum_corners_partial.

(** ** C59 *)

(** A cone is reported in front of the plane iff all its points are. *)
Theorem C59_cone_in_front :
  forall (alt : bool) (p : plane) (c : cone), unit (cdirection c) -> 0 <= cradius c ->
  (is_front_cone alt p c = true <-> forall x, in_cone c x -> in_front alt p x).
Proof.
  intros alt p c U Hr. rewrite is_front_cone_eq, andb_true_iff, !is_front_iff. split.
  - intros (T & Q) x Hx. destruct (cone_side alt p c x U Hx) as (s & Hs & L). unfold in_front in *. nra.
  - intros H. split; apply H; [apply tip_in|apply rim_in; assumption].
Qed.
Print Assumptions C59_cone_in_front.

(** The closest point reported for a cone that is wholly on the front side (or touching the plane) is a point of the cone and no
    point of the cone is nearer to the plane. *)
Theorem C59_closest_point_partial :
  forall (alt : bool) (p : plane) (c : cone), unit (cdirection c) -> 0 <= cradius c ->
  (forall x, in_cone c x -> 0 <= side alt p x) ->
  in_cone c (closest_on_cone alt c p) /\ forall x, in_cone c x -> plane_distance alt p (closest_on_cone alt c p) <= plane_distance alt p x.
Proof.
  intros alt p c U Hr F.
  assert (T := F _ (tip_in c)). assert (Q := F _ (rim_in p c U Hr)).
  assert (D : forall x, in_cone c x -> plane_distance alt p x = side alt p x).
  { intros x Hx. unfold plane_distance. rewrite sgn_side. apply Rabs_pos_eq, F, Hx. }
  unfold closest_on_cone. rewrite (D _ (tip_in c)), (D _ (rim_in p c U Hr)).
  destruct (Rltb (side alt p (cone_rim_point p c)) (side alt p (cpoint c))) eqn:E; [apply Rltb_iff in E|apply Rltb_false in E].
  - split; [apply rim_in; assumption|]. intros x Hx. rewrite (D _ (rim_in p c U Hr)), (D x Hx).
    destruct (cone_side alt p c x U Hx) as (s & Hs & L). nra.
  - split; [apply tip_in|]. intros x Hx. rewrite (D _ (tip_in c)), (D x Hx).
    destruct (cone_side alt p c x U Hx) as (s & Hs & L). nra.
Qed.
Print Assumptions C59_closest_point_partial.

Example C59_example :
  let c := mkCone (V3 0 0 0) (V3 1 0 0) 1 2 in let p := mkPlane (V3 0 1 0) (-3) in
  unit (cdirection c) /\ is_front_cone false p c = true /\ forall x, in_cone c x -> 0 <= side false p x.
Proof.
  intros c p. assert (U : unit (cdirection c)) by (unfold unit, c; vunfold; cbn; ring).
  assert (F : forall x, in_cone c x -> in_front false p x).
  { intros x (s & e & Hs & Hd & Hl & ->). cbn in Hd, Hl. unfold in_front, side, c, p; cbn.
    assert (S := len_sqr e). assert (G := len_ge e). destruct e as [a b d]. vunfold. cbn in *.
    assert (b * b <= 1) by nra. nra. }
  split; [exact U|]. split; [apply C59_cone_in_front; [exact U|cbn; lra|exact F]|].
  intros x Hx. apply Rlt_le, F, Hx.
Qed.

(** For a cone behind the plane the reported point is in general not the closest one. *)
Theorem C59_closest_point_refuted :
  exists (p : plane) (c : cone), unit (normal p) /\ unit (cdirection c) /\ 0 <= cradius c /\ 0 <= cheight c /\
  exists x, in_cone c x /\ plane_distance false p x < plane_distance false p (closest_on_cone false c p).
Proof.
  exists (mkPlane (V3 0 1 0) 2), (mkCone (V3 0 0 0) (V3 1 0 0) 1 2).
  assert (U : unit (cdirection (mkCone (V3 0 0 0) (V3 1 0 0) 1 2))) by (unfold unit; vunfold; cbn; ring).
  split; [unfold unit; vunfold; cbn; ring|]. split; [exact U|]. split; [cbn; lra|]. split; [cbn; lra|].
  exists (V3 2 1 0). split.
  - exists 1, (V3 0 1 0). cbn. split; [lra|]. split; [vunfold; cbn; ring|]. split; [|vunfold; cbn; f_equal; ring].
    unfold len. replace (dot _ _) with 1 by (vunfold; cbn; ring). rewrite sqrt_1. lra.
  - unfold closest_on_cone.
    assert (E : plane_distance false (mkPlane (V3 0 1 0) 2) (cone_rim_point (mkPlane (V3 0 1 0) 2) (mkCone (V3 0 0 0) (V3 1 0 0) 1 2)) = 3).
    { unfold plane_distance. rewrite sgn_side, (rim_side false _ _ U). cbn [cpoint cheight cdirection cradius normal].
      replace (len (perp (V3 0 1 0) (V3 1 0 0))) with 1.
      - unfold side; cbn; vunfold; cbn. rewrite Rabs_left1 by lra. ring.
      - unfold len, perp. replace (dot _ _) with 1 by (vunfold; cbn; ring). symmetry. apply sqrt_1. }
    assert (T : plane_distance false (mkPlane (V3 0 1 0) 2) (V3 0 0 0) = 2).
    { unfold plane_distance, sgn_distance, dsign; vunfold; cbn. rewrite Rabs_left1 by lra. ring. }
    cbn [cpoint]. rewrite E, T. replace (Rltb 3 2) with false by (symmetry; apply Rltb_false; lra).
    rewrite T. unfold plane_distance, sgn_distance, dsign; vunfold; cbn. rewrite Rabs_left1 by lra. lra.
Qed.
Print Assumptions C59_closest_point_refuted.
