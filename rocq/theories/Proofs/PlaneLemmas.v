From Coq Require Import Reals List Bool Lra Psatz.
From Verif Require Import Model.Scalar Model.Vec Model.Ext Model.Plane Spec.PlaneSpec Proofs.VecLemmas.
Import ListNotations.
Local Open Scope R_scope.

Lemma sgn_side alt p x : sgn_distance alt p x = side alt p x.
Proof. unfold sgn_distance, side, dsign. destruct alt; ring. Qed.

Lemma is_front_iff alt p x : is_front alt p x = true <-> in_front alt p x.
Proof. unfold is_front, in_front. rewrite Rltb_iff, <- sgn_side. unfold sgn_distance. lra. Qed.
Lemma is_front_false alt p x : is_front alt p x = false <-> side alt p x <= 0.
Proof. unfold is_front. rewrite Rltb_false, <- sgn_side. unfold sgn_distance. lra. Qed.

Lemma side_dsign alt n m x : side alt (mkPlane n (dsign alt m)) x = dot n x - m.
Proof. unfold side, dsign; cbn. destruct alt; ring. Qed.
Lemma side_add alt p x v : side alt p (vadd x v) = side alt p x + dot (normal p) v.
Proof. unfold side. rewrite dot_add_r. destruct alt; ring. Qed.
Lemma side_sub alt p x v : side alt p (vsub x v) = side alt p x - dot (normal p) v.
Proof. unfold side. rewrite dot_sub_r. destruct alt; ring. Qed.
Lemma side_diff alt p x y : side alt p x - side alt p y = dot (normal p) (vsub x y).
Proof. unfold side. rewrite dot_sub_r. destruct alt; ring. Qed.

Lemma normalize_as_scale v : exists s, 0 < s /\ normalize v = vscale s v.
Proof.
  unfold normalize. destruct (Reqb (dot v v) 0) eqn:E0; [exists 1; split; [lra|destruct v; unfold vscale; cbn; f_equal; ring]|].
  destruct (Reqb (dot v v) 1) eqn:E1; [exists 1; split; [lra|destruct v; unfold vscale; cbn; f_equal; ring]|].
  apply Reqb_false in E0. exists (/ len v). split; [apply Rinv_0_lt_compat, len_pos, E0|reflexivity].
Qed.

Lemma build3_side alt a b c x :
  exists s, 0 < s /\ side alt (build3 alt a b c) x = s * dot (cross (vsub b a) (vsub c a)) (vsub x a).
Proof.
  unfold build3, update_distance; cbn [normal]. destruct (normalize_as_scale (cross (vsub b a) (vsub c a))) as (s & Hs & E).
  exists s. split; [exact Hs|]. rewrite E, side_dsign, <- dot_sub_r, dot_scale_l. reflexivity.
Qed.

Lemma plane_normalize_side alt p x : normal p <> vzero ->
  side alt (plane_normalize p) x = / len (normal p) * side alt p x.
Proof.
  intros H. unfold plane_normalize.
  assert (P : 0 < len (normal p)) by (apply len_pos; intros E; apply H, dot_self_0, E).
  destruct (Rltb 0 (len (normal p))) eqn:E; [|apply Rltb_false in E; lra].
  unfold side; cbn. rewrite dot_scale_l. destruct alt; field; lra.
Qed.
Lemma plane_normalize_zero p : normal p = vzero -> plane_normalize p = p.
Proof.
  intros H. unfold plane_normalize. destruct (Rltb 0 (len (normal p))) eqn:E; [|reflexivity].
  apply Rltb_iff in E. rewrite H in E. unfold len in E. replace (dot vzero vzero) with 0 in E by (unfold dot, vzero; cbn; ring).
  rewrite sqrt_0 in E. lra.
Qed.
Lemma plane_normalize_pos alt p x : exists s, 0 < s /\ side alt (plane_normalize p) x = s * side alt p x.
Proof.
  destruct (Req_dec (dot (normal p) (normal p)) 0) as [E|E].
  - exists 1. split; [lra|]. rewrite plane_normalize_zero by (apply dot_self_0, E). ring.
  - exists (/ len (normal p)). split; [apply Rinv_0_lt_compat, len_pos, E|]. apply plane_normalize_side.
    intros Z. apply E. rewrite Z. unfold dot, vzero; cbn; ring.
Qed.
Lemma plane_normalize_unit p : normal p <> vzero -> unit (normal (plane_normalize p)).
Proof.
  intros H. unfold plane_normalize, unit.
  assert (P : 0 < len (normal p)) by (apply len_pos; intros E; apply H, dot_self_0, E).
  destruct (Rltb 0 (len (normal p))) eqn:E; [|apply Rltb_false in E; lra].
  cbn. rewrite dot_scale_l, dot_scale_r, <- len_sqr. field. lra.
Qed.

Lemma unit_len v : unit v -> len v = 1.
Proof. unfold unit, len. intros ->. apply sqrt_1. Qed.
Lemma len_scale s v : len (vscale s v) = Rabs s * len v.
Proof.
  unfold len. rewrite dot_scale_l, dot_scale_r. rewrite <- Rmult_assoc, sqrt_mult; [|nra|apply dot_self_ge].
  f_equal. apply sqrt_Rsqr_abs.
Qed.

(** |side| is a lower bound of the distance to every point of the plane. *)
Lemma side_le_dist alt p x y : unit (normal p) -> Rabs (side alt p x - side alt p y) <= dist x y.
Proof. intros U. rewrite side_diff. eapply Rle_trans; [apply cauchy_abs|]. rewrite (unit_len _ U). unfold dist. lra. Qed.

Lemma closest_side alt p x : side alt p (closest_on_plane alt p x) = (1 - dot (normal p) (normal p)) * side alt p x.
Proof. unfold closest_on_plane. rewrite side_sub, dot_scale_r, sgn_side. ring. Qed.
Lemma closest_dist alt p x : unit (normal p) -> dist x (closest_on_plane alt p x) = Rabs (side alt p x).
Proof.
  intros U. unfold dist, closest_on_plane.
  replace (vsub x (vsub x (vscale (sgn_distance alt p x) (normal p)))) with (vscale (sgn_distance alt p x) (normal p)).
  - rewrite len_scale, (unit_len _ U), sgn_side. ring.
  - destruct x, (normal p); unfold vscale, vsub; cbn; f_equal; ring.
Qed.

(** The extreme points of a box in the direction of the normal. *)
Lemma prod_lo n lo hi x : lo <= x <= hi -> n * (if Rltb 0 n then lo else hi) <= n * x.
Proof. intros H. destruct (Rltb 0 n) eqn:E; [apply Rltb_iff in E|apply Rltb_false in E]; nra. Qed.
Lemma prod_hi n lo hi x : lo <= x <= hi -> n * x <= n * (if Rltb 0 n then hi else lo).
Proof. intros H. destruct (Rltb 0 n) eqn:E; [apply Rltb_iff in E|apply Rltb_false in E]; nra. Qed.
Lemma pick_in (t : bool) lo hi : lo <= hi -> lo <= (if t then lo else hi) <= hi.
Proof. destruct t; lra. Qed.
Lemma pick_in' (t : bool) lo hi : lo <= hi -> lo <= (if t then hi else lo) <= hi.
Proof. destruct t; lra. Qed.

Definition near_point (n : vec3) (b : aabb) :=
  V3 (if Rltb 0 (vx n) then vx (bmin b) else vx (bmax b))
     (if Rltb 0 (vy n) then vy (bmin b) else vy (bmax b))
     (if Rltb 0 (vz n) then vz (bmin b) else vz (bmax b)).
Definition far_point (n : vec3) (b : aabb) :=
  V3 (if Rltb 0 (vx n) then vx (bmax b) else vx (bmin b))
     (if Rltb 0 (vy n) then vy (bmax b) else vy (bmin b))
     (if Rltb 0 (vz n) then vz (bmax b) else vz (bmin b)).
Definition valid_box (b : aabb) := vx (bmin b) <= vx (bmax b) /\ vy (bmin b) <= vy (bmax b) /\ vz (bmin b) <= vz (bmax b).

Lemma near_in n b : valid_box b -> in_box b (near_point n b).
Proof. intros (A & B & C). unfold near_point, in_box; cbn. repeat split; apply pick_in; assumption. Qed.
Lemma far_in n b : valid_box b -> in_box b (far_point n b).
Proof. intros (A & B & C). unfold far_point, in_box; cbn. repeat split; apply pick_in'; assumption. Qed.
Lemma near_le alt p b x : in_box b x -> side alt p (near_point (normal p) b) <= side alt p x.
Proof.
  intros (A & B & C). unfold side, dot, near_point; cbn.
  assert (X := prod_lo (vx (normal p)) _ _ _ A). assert (Y := prod_lo (vy (normal p)) _ _ _ B). assert (Z := prod_lo (vz (normal p)) _ _ _ C).
  destruct alt; lra.
Qed.
Lemma far_ge alt p b x : in_box b x -> side alt p x <= side alt p (far_point (normal p) b).
Proof.
  intros (A & B & C). unfold side, dot, far_point; cbn.
  assert (X := prod_hi (vx (normal p)) _ _ _ A). assert (Y := prod_hi (vy (normal p)) _ _ _ B). assert (Z := prod_hi (vz (normal p)) _ _ _ C).
  destruct alt; lra.
Qed.

Lemma relation_aabb_eq alt p b :
  relation_aabb alt p b = (if is_front alt p (near_point (normal p) b) then InFrontOf
                           else if is_front alt p (far_point (normal p) b) then Clipped else Behind).
Proof. reflexivity. Qed.

Lemma relation_aabb_spec alt p b : valid_box b ->
  (relation_aabb alt p b = InFrontOf <-> forall x, in_box b x -> 0 < side alt p x) /\
  (relation_aabb alt p b = Behind <-> forall x, in_box b x -> side alt p x <= 0) /\
  (relation_aabb alt p b = Clipped <-> (exists x, in_box b x /\ 0 < side alt p x) /\ (exists x, in_box b x /\ side alt p x <= 0)) /\
  relation_aabb alt p b <> Onto.
Proof.
  intros V. rewrite relation_aabb_eq.
  assert (NI := near_in (normal p) b V). assert (FI := far_in (normal p) b V).
  assert (NF := far_ge alt p b _ NI).
  destruct (is_front alt p (near_point (normal p) b)) eqn:E1; [apply is_front_iff in E1|apply is_front_false in E1].
  - unfold in_front in E1. assert (A : forall x, in_box b x -> 0 < side alt p x).
    { intros x Hx. assert (K := near_le alt p b x Hx). lra. }
    split; [|split; [|split]].
    + split; [intros _; exact A|reflexivity].
    + split; [discriminate|]. intros H. specialize (H _ NI). lra.
    + split; [discriminate|]. intros (_ & x & Hx & H). specialize (A x Hx). lra.
    + discriminate.
  - destruct (is_front alt p (far_point (normal p) b)) eqn:E2; [apply is_front_iff in E2|apply is_front_false in E2].
    + unfold in_front in E2. split; [|split; [|split]].
      * split; [discriminate|]. intros H. specialize (H _ NI). lra.
      * split; [discriminate|]. intros H. specialize (H _ FI). lra.
      * split; [|reflexivity]. intros _. split; [exists (far_point (normal p) b)|exists (near_point (normal p) b)]; auto.
      * discriminate.
    + assert (A : forall x, in_box b x -> side alt p x <= 0).
      { intros x Hx. assert (K := far_ge alt p b x Hx). lra. }
      split; [|split; [|split]].
      * split; [discriminate|]. intros H. specialize (H _ NI). lra.
      * split; [intros _; exact A|reflexivity].
      * split; [discriminate|]. intros ((x & Hx & H) & _). specialize (A x Hx). lra.
      * discriminate.
Qed.

(** ** Intersections *)

Lemma interp_fin alt neg p o d : dot (normal p) d <> 0 ->
  plane_interp alt neg p o d = Fin (- side alt p o / dot (normal p) d).
Proof.
  intros H. unfold plane_interp, ediv. destruct (Reqb (dot (normal p) d) 0) eqn:E; [apply Reqb_iff in E; contradiction|].
  rewrite sgn_side. reflexivity.
Qed.
Lemma interp_side alt p o d t : dot (normal p) d <> 0 ->
  (on_plane alt p (vadd o (vscale t d)) <-> t = - side alt p o / dot (normal p) d).
Proof.
  intros H. unfold on_plane. rewrite side_add, dot_scale_r. split.
  - intros E. apply Rmult_eq_reg_r with (dot (normal p) d); [|exact H]. unfold Rdiv. rewrite Rmult_assoc, Rinv_l by exact H. lra.
  - intros ->. field. exact H.
Qed.

Lemma line_lerp_ray l t : line_lerp l t = vadd (la l) (vscale t (line_direction l)).
Proof. reflexivity. Qed.
Lemma line_lerp_mix l t : line_lerp l t = vadd (vscale (1 - t) (la l)) (vscale t (lb l)).
Proof. unfold line_lerp, lerp3. destruct (la l), (lb l). vunfold. f_equal; ring. Qed.

Lemma triple_cross x a b : cross x (cross a b) = vsub (vscale (dot b x) a) (vscale (dot a x) b). Proof. vring. Qed.
Lemma dot_cross_own u v : dot (cross u v) v = 0. Proof. vring. Qed.
Lemma vscale_0 v : vscale 0 v = vzero. Proof. vring. Qed.
Lemma vsub_self v : vsub v v = vzero. Proof. vring. Qed.
Lemma cross_0 v : cross v vzero = vzero. Proof. vring. Qed.
Lemma vscale_div s k u v : s <> 0 -> vscale s u = vscale k v -> u = vscale (k / s) v.
Proof.
  intros Hs H. replace u with (vscale (/ s) (vscale s u)).
  - rewrite H. destruct v. vunfold. f_equal; unfold Rdiv; ring.
  - destruct u. vunfold. f_equal; field; exact Hs.
Qed.
Lemma triple_n1 a b sa sb : dot a (cross (vsub (vscale sa b) (vscale sb a)) (cross a b)) = sa * dot (cross a b) (cross a b).
Proof. vring. Qed.
Lemma triple_n2 a b sa sb : dot b (cross (vsub (vscale sa b) (vscale sb a)) (cross a b)) = sb * dot (cross a b) (cross a b).
Proof. vring. Qed.

Lemma plane_plane_spec alt a b eps r x : 0 <= eps -> plane_plane alt a b eps = Some r ->
  (on_plane alt a x /\ on_plane alt b x <-> on_line r x).
Proof.
  intros He. unfold plane_plane. set (d := cross (normal a) (normal b)).
  destruct (Rltb eps (dot d d)) eqn:E; [|discriminate]. apply Rltb_iff in E. intros [= <-].
  assert (D : dot d d <> 0) by lra.
  set (sa := dsign alt (distance a)). set (sb := dsign alt (distance b)).
  assert (Fa : forall y, side alt a y = dot (normal a) y - sa) by (intros y; unfold side, sa, dsign; destruct alt; ring).
  assert (Fb : forall y, side alt b y = dot (normal b) y - sb) by (intros y; unfold side, sb, dsign; destruct alt; ring).
  set (o := vscale (/ dot d d) (cross (vsub (vscale sa (normal b)) (vscale sb (normal a))) d)).
  assert (Oa : dot (normal a) o = sa).
  { unfold o. rewrite dot_scale_r.
    replace (dot (normal a) (cross (vsub (vscale sa (normal b)) (vscale sb (normal a))) d)) with (sa * dot d d); [field; exact D|].
    symmetry; apply triple_n1. }
  assert (Ob : dot (normal b) o = sb).
  { unfold o. rewrite dot_scale_r.
    replace (dot (normal b) (cross (vsub (vscale sa (normal b)) (vscale sb (normal a))) d)) with (sb * dot d d); [field; exact D|].
    symmetry; apply triple_n2. }
  unfold on_line, on_plane; cbn [rorigin rdirection]. rewrite Fa, Fb. split.
  - intros (Ha & Hb). exists (dot x d / dot d d).
    (* x - o is perpendicular to both normals, hence a multiple of d *)
    assert (P : dot (normal a) (vsub x o) = 0) by (rewrite dot_sub_r; lra).
    assert (Q : dot (normal b) (vsub x o) = 0) by (rewrite dot_sub_r; lra).
    assert (K : vscale (dot d d) (vsub x o) = vscale (dot (vsub x o) d) d).
    { (* d x (y x d) = y (d.d) - d (d.y), and y x d = y x (na x nb) = na (y.nb) - nb (y.na) = 0 *)
      assert (Z : cross (vsub x o) d = vzero).
      { unfold d. replace (cross (vsub x o) (cross (normal a) (normal b)))
          with (vsub (vscale (dot (normal b) (vsub x o)) (normal a)) (vscale (dot (normal a) (vsub x o)) (normal b)))
          by (rewrite triple_cross; reflexivity).
        rewrite P, Q. rewrite !vscale_0. apply vsub_self. }
      assert (T : forall y e, vsub (vscale (dot e e) y) (vscale (dot y e) e) = cross e (cross y e)) by (intros; vring).
      specialize (T (vsub x o) d). rewrite Z in T.
      assert (T' : vsub (vscale (dot d d) (vsub x o)) (vscale (dot (vsub x o) d) d) = vzero)
        by (rewrite T; apply cross_0).
      revert T'. generalize (vscale (dot d d) (vsub x o)) (vscale (dot (vsub x o) d) d). intros u v.
      destruct u, v. vunfold. intros [= H1 H2 H3]. f_equal; lra. }
    assert (Od : dot o d = 0) by (unfold o; rewrite dot_scale_l, dot_cross_own; ring).
    rewrite dot_sub_l, Od, Rminus_0_r in K.
    assert (K' : vsub x o = vscale (dot x d / dot d d) d).
    { apply vscale_div; assumption. }
    fold o. rewrite <- K'. generalize o. intros o'. destruct x, o'. vunfold. f_equal; ring.
  - intros (t & E'). fold o in E'. rewrite E', !dot_add_r, !dot_scale_r, Oa, Ob. unfold d. rewrite dot_cross_l, dot_cross_r. lra.
Qed.

(** ** Boxes *)

Lemma Rabs_pick n lo hi : (hi - (1 / 2) * (lo + hi)) * Rabs n = n * (1 / 2 * (lo + hi)) - n * (if Rltb 0 n then lo else hi).
Proof.
  destruct (Rltb 0 n) eqn:E; [apply Rltb_iff in E; rewrite Rabs_pos_eq by lra|apply Rltb_false in E; rewrite Rabs_left1 by lra]; lra.
Qed.
Lemma aabb_radius alt p b :
  plane_distance_aabb alt p b =
  Rabs (side alt p (box_center b)) - (side alt p (box_center b) - side alt p (near_point (normal p) b)).
Proof.
  unfold plane_distance_aabb, plane_distance. rewrite sgn_side. f_equal.
  unfold side, dot, box_center, near_point, vscale, vadd, vsub; cbn [vx vy vz].
  rewrite !Rabs_pick. destruct alt; ring.
Qed.
Lemma near_far alt p b :
  side alt p (near_point (normal p) b) + side alt p (far_point (normal p) b) = 2 * side alt p (box_center b).
Proof.
  unfold side, dot, box_center, near_point, far_point, vscale, vadd; cbn [vx vy vz].
  destruct (Rltb 0 (vx (normal p))), (Rltb 0 (vy (normal p))), (Rltb 0 (vz (normal p))), alt; lra.
Qed.
Lemma center_in b : valid_box b -> in_box b (box_center b).
Proof. intros (A & B & C). unfold in_box, box_center, vscale, vadd; cbn. lra. Qed.
