(** Oriented boxes, cones, hulls, frusta. *)
From Coq Require Import Reals List Bool Lra Psatz.
From Verif Require Import Model.Scalar Model.Vec Model.Ext Model.Plane Spec.PlaneSpec Proofs.VecLemmas Proofs.PlaneLemmas.
Import ListNotations.
Local Open Scope R_scope.

(** A solid whose points have the values [c - r .. c + r]: distance |c| - r. *)
Lemma interval_distance c r v : 0 <= r -> c - r <= v <= c + r -> Rabs c - r <= Rabs v.
Proof. intros Hr H. unfold Rabs. destruct (Rcase_abs c), (Rcase_abs v); lra. Qed.
Lemma interval_attained c r : 0 <= r -> 0 <= Rabs c - r -> Rabs (c - r) = Rabs c - r \/ Rabs (c + r) = Rabs c - r.
Proof. intros Hr. unfold Rabs. destruct (Rcase_abs c), (Rcase_abs (c - r)), (Rcase_abs (c + r)); intros; try (left; lra); right; lra. Qed.
Lemma interval_zero c r : 0 <= r -> (Rabs c - r <= 0 <-> c - r <= 0 <= c + r).
Proof. intros Hr. unfold Rabs. destruct (Rcase_abs c); lra. Qed.

Lemma in_box_mix b x y t : in_box b x -> in_box b y -> 0 <= t <= 1 -> in_box b (vadd x (vscale t (vsub y x))).
Proof. unfold in_box. intros Hx Hy Ht. destruct x, y. vunfold. destruct (bmin b), (bmax b); cbn in *. nra. Qed.

Lemma zero_between a b : a <= 0 <= b -> exists t, 0 <= t <= 1 /\ a + t * (b - a) = 0.
Proof.
  intros H. destruct (Req_dec a b) as [E|E]; [exists 0; lra|]. exists (- a / (b - a)). split.
  - split; [apply Rle_mult_inv_pos; lra|]. apply Rmult_le_reg_r with (b - a); [lra|]. unfold Rdiv. rewrite Rmult_assoc, Rinv_l by lra. lra.
  - field. lra.
Qed.

Lemma aabb_interval alt p b : valid_box b ->
  let r := side alt p (box_center b) - side alt p (near_point (normal p) b) in
  0 <= r /\ (forall x, in_box b x -> side alt p (box_center b) - r <= side alt p x <= side alt p (box_center b) + r) /\
  side alt p (near_point (normal p) b) = side alt p (box_center b) - r /\
  side alt p (far_point (normal p) b) = side alt p (box_center b) + r.
Proof.
  intros V r. assert (K := near_far alt p b). assert (N := near_le alt p b _ (center_in b V)).
  unfold r in *. split; [lra|]. split; [|lra]. intros x Hx.
  assert (N' := near_le alt p b x Hx). assert (F' := far_ge alt p b x Hx). lra.
Qed.

(** ** Oriented boxes *)
Definition obb_point (b : obb) (u v w : R) : vec3 :=
  vadd (ocenter b) (vadd (vscale u (oaxx b)) (vadd (vscale v (oaxy b)) (vscale w (oaxz b)))).
Lemma obb_side alt p b u v w :
  side alt p (obb_point b u v w) =
  side alt p (ocenter b) + (u * dot (normal p) (oaxx b) + (v * dot (normal p) (oaxy b) + w * dot (normal p) (oaxz b))).
Proof. unfold obb_point. rewrite side_add, !dot_add_r, !dot_scale_r. reflexivity. Qed.
Definition sg (h k : R) : R := if Rltb 0 k then h else - h.
Lemma sg_mul h k : sg h k * k = h * Rabs k.
Proof. unfold sg. destruct (Rltb 0 k) eqn:E; [apply Rltb_iff in E; rewrite Rabs_pos_eq by lra|apply Rltb_false in E; rewrite Rabs_left1 by lra]; ring. Qed.
Lemma sg_abs h k : 0 <= h -> Rabs (sg h k) <= h.
Proof. intros H. unfold sg. destruct (Rltb 0 k); [rewrite Rabs_pos_eq by lra; lra|rewrite Rabs_Ropp, Rabs_pos_eq by lra; lra]. Qed.
Lemma sg_opp_abs h k : 0 <= h -> Rabs (- sg h k) <= h.
Proof. intros H. rewrite Rabs_Ropp. apply sg_abs, H. Qed.
Lemma mul_bound h k u : Rabs u <= h -> - (h * Rabs k) <= u * k <= h * Rabs k.
Proof.
  intros H. assert (K : Rabs (u * k) <= h * Rabs k).
  { rewrite Rabs_mult. apply Rmult_le_compat_r; [apply Rabs_pos|exact H]. }
  unfold Rabs in K at 1. destruct (Rcase_abs (u * k)); lra.
Qed.
Definition obb_radius (p : plane) (b : obb) : R :=
  vx (ohalf b) * Rabs (dot (normal p) (oaxx b)) + vy (ohalf b) * Rabs (dot (normal p) (oaxy b)) +
  vz (ohalf b) * Rabs (dot (normal p) (oaxz b)).
Definition valid_obb (b : obb) := 0 <= vx (ohalf b) /\ 0 <= vy (ohalf b) /\ 0 <= vz (ohalf b).
Lemma obb_interval alt p b : valid_obb b ->
  let r := obb_radius p b in
  0 <= r /\ (forall x, in_obb b x -> side alt p (ocenter b) - r <= side alt p x <= side alt p (ocenter b) + r) /\
  (forall v, side alt p (ocenter b) - r <= v <= side alt p (ocenter b) + r -> exists x, in_obb b x /\ side alt p x = v).
Proof.
  intros (H1 & H2 & H3). unfold obb_radius. cbn zeta.
  assert (A1 := Rabs_pos (dot (normal p) (oaxx b))). assert (A2 := Rabs_pos (dot (normal p) (oaxy b))). assert (A3 := Rabs_pos (dot (normal p) (oaxz b))).
  split; [nra|]. split.
  - intros x (u & v & w & U & V & W & ->). fold (obb_point b u v w). rewrite obb_side.
    assert (B1 := mul_bound _ (dot (normal p) (oaxx b)) _ U).
    assert (B2 := mul_bound _ (dot (normal p) (oaxy b)) _ V).
    assert (B3 := mul_bound _ (dot (normal p) (oaxz b)) _ W). lra.
  - intros v Hv.
    set (r := vx (ohalf b) * Rabs (dot (normal p) (oaxx b)) + vy (ohalf b) * Rabs (dot (normal p) (oaxy b)) + vz (ohalf b) * Rabs (dot (normal p) (oaxz b))) in *.
    assert (T : exists t, Rabs t <= 1 /\ side alt p (ocenter b) + t * r = v).
    { destruct (Req_dec r 0) as [E|E].
      - exists 0. rewrite Rabs_R0. lra.
      - assert (0 <= r) by (unfold r; nra). exists ((v - side alt p (ocenter b)) / r). split; [|field; exact E].
        unfold Rdiv. rewrite Rabs_mult, (Rabs_pos_eq (/ r)) by (apply Rlt_le, Rinv_0_lt_compat; lra).
        apply Rmult_le_reg_r with r; [lra|]. rewrite Rmult_assoc, Rinv_l, Rmult_1_r by exact E.
        rewrite Rmult_1_l. apply Rabs_le. lra. }
    destruct T as (t & Ht & Et).
    exists (obb_point b (t * sg (vx (ohalf b)) (dot (normal p) (oaxx b))) (t * sg (vy (ohalf b)) (dot (normal p) (oaxy b))) (t * sg (vz (ohalf b)) (dot (normal p) (oaxz b)))).
    assert (S : forall h k, 0 <= h -> Rabs (t * sg h k) <= h).
    { intros h k Hh. rewrite Rabs_mult. assert (X := sg_abs h k Hh). assert (Y := Rabs_pos (sg h k)). nra. }
    split.
    + do 3 eexists. split; [|split; [|split; [|reflexivity]]]; apply S; assumption.
    + rewrite obb_side, !Rmult_assoc, !sg_mul, <- Et. unfold r. ring.
Qed.

(** ** Cones *)

(** The part of the normal perpendicular to the direction of the cone. *)
Definition perp (n d : vec3) : vec3 := vsub n (vscale (dot n d) d).
Lemma cross_cross n d : unit d -> cross (cross n d) d = vopp (perp n d).
Proof.
  intros U. unfold unit in U. unfold perp.
  replace (cross (cross n d) d) with (vsub (vscale (dot n d) d) (vscale (dot d d) n)) by vring.
  rewrite U. vring.
Qed.
Lemma perp_dot n d e : dot e d = 0 -> dot n e = dot (perp n d) e.
Proof. intros H. unfold perp. rewrite dot_sub_l, dot_scale_l, (dot_comm d e), H. ring. Qed.
Lemma perp_perp n d : unit d -> dot (perp n d) d = 0.
Proof. intros U. unfold perp, unit in *. rewrite dot_sub_l, dot_scale_l, U. ring. Qed.
Lemma vopp_zero v : vopp v = vzero -> v = vzero.
Proof. destruct v. vunfold. intros [= A B C]. f_equal; lra. Qed.

Lemma offset_spec n d : unit d ->
  let o := normalize (cross (cross n d) d) in
  dot o d = 0 /\ len o <= 1 /\ dot n o = - len (perp n d).
Proof.
  intros U o. assert (PP := perp_perp n d U).
  destruct (Req_dec (dot (perp n d) (perp n d)) 0) as [E|E].
  - assert (Z : perp n d = vzero) by (apply dot_self_0, E).
    unfold o. rewrite cross_cross, Z by exact U.
    replace (vopp vzero) with vzero by vring. rewrite normalize_zero.
    unfold len. replace (dot vzero vzero) with 0 by vring. rewrite sqrt_0.
    repeat split; [vring|lra|vring].
  - assert (P := len_pos _ E).
    assert (NZ : vopp (perp n d) <> vzero).
    { intros H. apply E. apply vopp_zero in H. rewrite H. vring. }
    assert (Eo : o = vscale (/ len (perp n d)) (vopp (perp n d))).
    { unfold o. rewrite cross_cross, normalize_scale by assumption. f_equal. f_equal. unfold len. f_equal. vring. }
    assert (Od : dot o d = 0) by (rewrite Eo, dot_scale_l, dot_opp_l, PP; ring).
    split; [exact Od|]. split.
    + unfold len. unfold o. rewrite cross_cross, normalize_dot, sqrt_1 by assumption. lra.
    + rewrite (perp_dot n d o Od), Eo, dot_scale_r, dot_opp_r, <- len_sqr. field. lra.
Qed.

Lemma rim_side alt p c : unit (cdirection c) ->
  side alt p (cone_rim_point p c) =
  side alt p (cpoint c) + cheight c * dot (normal p) (cdirection c) - cradius c * len (perp (normal p) (cdirection c)).
Proof.
  intros U. unfold cone_rim_point. destruct (offset_spec (normal p) _ U) as (_ & _ & E). cbn zeta in E.
  rewrite !side_add, !dot_scale_r, E. ring.
Qed.
Lemma rim_in p c : unit (cdirection c) -> 0 <= cradius c -> in_cone c (cone_rim_point p c).
Proof.
  intros U Hr. unfold cone_rim_point. destruct (offset_spec (normal p) _ U) as (A & B & _).
  exists 1, (vscale (cradius c) (normalize (cross (cross (normal p) (cdirection c)) (cdirection c)))).
  split; [lra|]. split; [rewrite dot_scale_l, A; ring|]. split.
  - rewrite len_scale, Rabs_pos_eq by exact Hr. nra.
  - rewrite Rmult_1_l. generalize (cpoint c) (cheight c) (cdirection c). intros. vring.
Qed.
Lemma tip_in c : in_cone c (cpoint c).
Proof.
  exists 0, vzero. split; [lra|]. split; [vring|]. split.
  - unfold len. replace (dot vzero vzero) with 0 by vring. rewrite sqrt_0. lra.
  - destruct (cpoint c), (cdirection c). vunfold. f_equal; ring.
Qed.
(** Every point of the cone is at least as far in front as a mixture of the tip and the rim point. *)
Lemma cone_side alt p c x : unit (cdirection c) -> in_cone c x ->
  exists s, 0 <= s <= 1 /\ (1 - s) * side alt p (cpoint c) + s * side alt p (cone_rim_point p c) <= side alt p x.
Proof.
  intros U (s & e & Hs & Hd & Hl & ->). exists s. split; [exact Hs|].
  rewrite (rim_side alt p c U), side_add, dot_add_r, dot_scale_r, (perp_dot _ _ _ Hd).
  assert (C := cauchy_abs (perp (normal p) (cdirection c)) e).
  assert (K : - (len (perp (normal p) (cdirection c)) * len e) <= dot (perp (normal p) (cdirection c)) e).
  { unfold Rabs in C. destruct (Rcase_abs (dot (perp (normal p) (cdirection c)) e)); lra. }
  assert (L := len_ge (perp (normal p) (cdirection c))).
  assert (M : len (perp (normal p) (cdirection c)) * len e <= len (perp (normal p) (cdirection c)) * (s * cradius c))
    by (apply Rmult_le_compat_l; assumption).
  nra.
Qed.

Lemma is_front_cone_eq alt p c : is_front_cone alt p c = is_front alt p (cpoint c) && is_front alt p (cone_rim_point p c).
Proof. unfold is_front_cone. destruct (is_front alt p (cpoint c)); reflexivity. Qed.

(** ** Hulls and frusta *)
Lemma hull_point_iff alt l x : hull_point_inside alt l x = true <-> in_hull alt l x.
Proof.
  induction l as [|p l IH]; cbn [hull_point_inside].
  - split; [intros _ p []|reflexivity].
  - destruct (is_front alt p x) eqn:E.
    + apply is_front_iff in E. split; [discriminate|]. intros H. exfalso. apply (H p); [left; reflexivity|exact E].
    + rewrite IH. split.
      * intros H q [<-|Hq]; [rewrite <- is_front_iff, E; discriminate|apply H, Hq].
      * intros H q Hq. apply H. right. exact Hq.
Qed.
Lemma hull_sphere_false alt l s : hull_sphere_inside alt l s = false <->
  exists p, In p l /\ sradius s < side alt p (sorigin s).
Proof.
  induction l as [|p l IH]; cbn [hull_sphere_inside].
  - split; [discriminate|intros (p & [] & _)].
  - destruct (Rltb (sradius s) (sgn_distance alt p (sorigin s))) eqn:E.
    + apply Rltb_iff in E. rewrite sgn_side in E. split; [|reflexivity]. intros _. exists p. split; [left; reflexivity|exact E].
    + apply Rltb_false in E. rewrite sgn_side in E. rewrite IH. split.
      * intros (q & Hq & H). exists q. split; [right; exact Hq|exact H].
      * intros (q & [<-|Hq] & H); [lra|]. exists q. auto.
Qed.
Lemma frustum_plane_front alt r x : in_front alt (frustum_plane alt r) x <-> dot (xyz r) x < w4 r.
Proof.
  unfold in_front, frustum_plane.
  destruct (plane_normalize_pos alt (plane_4 alt (- vx (xyz r)) (- vy (xyz r)) (- vz (xyz r)) (- w4 r)) x) as (s & Hs & ->).
  unfold plane_4. rewrite side_dsign.
  replace (dot (V3 (- vx (xyz r)) (- vy (xyz r)) (- vz (xyz r))) x - - w4 r) with (w4 r - dot (xyz r) x) by (unfold dot; cbn; ring).
  split; intros H; [nra|apply Rmult_lt_0_compat; lra].
Qed.
