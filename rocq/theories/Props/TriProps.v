(** C47, C48, C66, C67: triangles *)
From Coq Require Import Reals List Bool Lra Psatz Arith Lia.
From Verif Require Import Model.Scalar Model.Vec Model.Ext Model.Plane Model.Coll Model.Tri.
From Verif Require Import Spec.InterpSpec Spec.ClipSpec Spec.PlaneSpec Spec.CollSpec Spec.TriSpec.
From Verif Require Import Proofs.VecLemmas Proofs.PlaneLemmas Proofs.LineLemmas Proofs.TriLemmas Proofs.TriHit Proofs.TriTri Proofs.TriSeg Props.LineProps.
Import ListNotations.
Local Open Scope R_scope.

(** ** C48: coordinates *)

Lemma to_cartesian_combine t w : to_cartesian t w = combine3 w (pa t) (pb t) (pc t).
Proof. unfold to_cartesian, combine3. destruct t as [a b c], w as [u v w]. cbn [pa pb pc]. vring. Qed.

(** Weights of a triangle to a point and back *)
Theorem C48_round_trip t w : proper t -> affine_weights w -> to_barycentric t (to_cartesian t w) = Some w.
Proof.
  intros P S. rewrite to_cartesian_combine. unfold to_barycentric.
  change (cross (vsub (pb t) (pa t)) (vsub (pc t) (pa t)) <> vzero) in P. fold (tri_normal t) in P.
  assert (NZ : Rabs (vx (tri_normal t)) <> 0 \/ Rabs (vy (tri_normal t)) <> 0 \/ Rabs (vz (tri_normal t)) <> 0).
  { destruct (Req_dec (vx (tri_normal t)) 0) as [X|X]; [|left; apply Rabs_no_R0, X].
    destruct (Req_dec (vy (tri_normal t)) 0) as [Y|Y]; [|right; left; apply Rabs_no_R0, Y].
    destruct (Req_dec (vz (tri_normal t)) 0) as [Z|Z]; [|right; right; apply Rabs_no_R0, Z].
    exfalso. apply P. apply vec3_ext; assumption. }
  assert (X0 := Rabs_pos (vx (tri_normal t))). assert (Y0 := Rabs_pos (vy (tri_normal t))). assert (Z0 := Rabs_pos (vz (tri_normal t))).
  assert (FIN : forall nu nv d, d <> 0 -> nu = vx w * d -> nv = vy w * d ->
    (if Reqb d 0 then None else Some (V3 (nu * (1 / d)) (nv * (1 / d)) (1 - nu * (1 / d) - nv * (1 / d)))) = Some w).
  { intros nu nv d D -> ->. replace (Reqb d 0) with false by (symmetry; apply Reqb_false, D). f_equal.
    unfold affine_weights in S. apply vec3_ext; cbn [vx vy vz]; [field; exact D|field; exact D|].
    replace (vz w) with (1 - vx w - vy w) by lra. field. exact D. }
  cbv zeta. destruct (Rleb _ _ && Rleb _ _) eqn:E1.
  - apply andb_true_iff in E1. destruct E1 as [A B]. apply Rleb_iff in A, B. apply FIN.
    + intros Z. rewrite Z, Rabs_R0 in *. lra.
    + unfold area2d, tri_normal, combine3. clear - S. destruct t as [a b c], w as [u v w]. unfold affine_weights in S. cbn [pa pb pc vx vy vz] in *. replace u with (1 - v - w) by lra. clear. vring.
    + unfold area2d, tri_normal, combine3. clear - S. destruct t as [a b c], w as [u v w]. unfold affine_weights in S. cbn [pa pb pc vx vy vz] in *. replace u with (1 - v - w) by lra. clear. vring.
  - destruct (Rleb (Rabs (vx _)) (Rabs (vy _)) && _) eqn:E2.
    + apply andb_true_iff in E2. destruct E2 as [A B]. apply Rleb_iff in A, B. apply FIN.
      * intros Z. replace (vy (tri_normal t)) with 0 in * by lra. rewrite Rabs_R0 in *. lra.
      * unfold area2d, tri_normal, combine3. clear - S. destruct t as [a b c], w as [u v w]. unfold affine_weights in S. cbn [pa pb pc vx vy vz] in *. replace u with (1 - v - w) by lra. clear. vring.
      * unfold area2d, tri_normal, combine3. clear - S. destruct t as [a b c], w as [u v w]. unfold affine_weights in S. cbn [pa pb pc vx vy vz] in *. replace u with (1 - v - w) by lra. clear. vring.
    + apply FIN.
      * intros Z. rewrite Z, Rabs_R0 in *. apply andb_false_iff in E1, E2. rewrite !Rleb_false in E1, E2. lra.
      * unfold area2d, tri_normal, combine3. clear - S. destruct t as [a b c], w as [u v w]. unfold affine_weights in S. cbn [pa pb pc vx vy vz] in *. replace u with (1 - v - w) by lra. clear. vring.
      * unfold area2d, tri_normal, combine3. clear - S. destruct t as [a b c], w as [u v w]. unfold affine_weights in S. cbn [pa pb pc vx vy vz] in *. replace u with (1 - v - w) by lra. clear. vring.
Qed.
(** A point in the plane of the triangle to weights and back *)
Theorem C48_round_trip_point t x : proper t -> coplanar t x ->
  exists w, to_barycentric t x = Some w /\ affine_weights w /\ to_cartesian t w = x.
Proof.
  intros P C. destruct (coplanar_weights t x P C) as (w & S & ->). exists w. rewrite <- to_cartesian_combine.
  split; [apply C48_round_trip; assumption|]. split; [exact S|reflexivity].
Qed.
(** For a degenerate triangle the conversion divides by zero. *)
Theorem C48_degenerate t x : ~ proper t -> to_barycentric t x = None.
Proof.
  intros P. assert (Z : tri_normal t = vzero).
  { destruct (Req_dec (dot (tri_normal t) (tri_normal t)) 0) as [E|E]; [apply dot_self_0, E|].
    exfalso. apply P. intros H. apply E. change (tri_normal t = vzero) in H. rewrite H. unfold dot, vzero. cbn. ring. }
  unfold to_barycentric. cbv zeta. rewrite Z. unfold vzero. cbn [vx vy vz]. rewrite Rabs_R0.
  replace (Rleb 0 0) with true by (symmetry; apply Rleb_iff; lra). cbn [andb].
  replace (Reqb 0 0) with true by (symmetry; apply Reqb_iff; reflexivity). reflexivity.
Qed.

Theorem C48_round_trip_2d t w : proper2 t -> affine_weights w -> to_barycentric2 t (to_cartesian2 t w) = Some w.
Proof.
  intros P S. unfold to_barycentric2. cbv zeta.
  assert (N : vz (normal2 t) = (x2 (b2 t) - x2 (a2 t)) * (y2 (c2 t) - y2 (a2 t)) - (y2 (b2 t) - y2 (a2 t)) * (x2 (c2 t) - x2 (a2 t))) by reflexivity.
  unfold proper2 in P. rewrite <- N in P. replace (Reqb (vz (normal2 t)) 0) with false by (symmetry; apply Reqb_false, P).
  assert (U : forall nu, nu = vx w * vz (normal2 t) -> nu * (1 / vz (normal2 t)) = vx w) by (intros ? ->; field; exact P).
  assert (V : forall nu, nu = vy w * vz (normal2 t) -> nu * (1 / vz (normal2 t)) = vy w) by (intros ? ->; field; exact P).
  unfold affine_weights in S. f_equal. rewrite U, V.
  - destruct w as [u v w]. cbn [vx vy vz] in *. f_equal. lra.
  - unfold area2d, normal2, to_cartesian2. destruct t as [[ax ay] [bx by'] [cx cy]], w as [u v w]. cbn [a2 b2 c2 vx vy vz x2 y2 cross add2 scale2] in *. replace u with (1 - v - w) by lra. ring.
  - unfold area2d, normal2, to_cartesian2. destruct t as [[ax ay] [bx by'] [cx cy]], w as [u v w]. cbn [a2 b2 c2 vx vy vz x2 y2 cross add2 scale2] in *. replace u with (1 - v - w) by lra. ring.
Qed.
Theorem C48_round_trip_point_2d t x : proper2 t ->
  exists w, to_barycentric2 t x = Some w /\ affine_weights w /\ to_cartesian2 t w = x.
Proof.
  intros P. unfold proper2 in P. unfold to_barycentric2. cbv zeta.
  assert (N : vz (normal2 t) = (x2 (b2 t) - x2 (a2 t)) * (y2 (c2 t) - y2 (a2 t)) - (y2 (b2 t) - y2 (a2 t)) * (x2 (c2 t) - x2 (a2 t))) by reflexivity.
  rewrite N. set (d := _ - _) in P |- *. replace (Reqb d 0) with false by (symmetry; apply Reqb_false, P).
  eexists. split; [reflexivity|]. unfold affine_weights. cbn [vx vy vz]. split; [ring|].
  unfold to_cartesian2, area2d, add2, scale2. cbn [vx vy vz x2 y2]. destruct x as [x y]. cbn [x2 y2].
  destruct t as [[ax ay] [bx by'] [cx cy]]. cbn [a2 b2 c2 x2 y2] in *. f_equal; unfold d in *; field; exact P.
Qed.

(** A triangle given by barycentric coordinates: a point of it, converted with the converted triangle, is the point converted with the original triangle; and each corner converts back. *)
Theorem C48_triangle t s w : to_cartesian (to_cartesian_tri t s) w = to_cartesian t (to_cartesian s w) /\
  (proper t -> affine_weights (pa s) -> affine_weights (pb s) -> affine_weights (pc s) ->
   to_barycentric t (pa (to_cartesian_tri t s)) = Some (pa s) /\ to_barycentric t (pb (to_cartesian_tri t s)) = Some (pb s) /\ to_barycentric t (pc (to_cartesian_tri t s)) = Some (pc s)).
Proof.
  split.
  - destruct t as [a b c], s as [[a1 a2 a3] [b1 b2 b3] [c1 c2 c3]], w as [u v w], a, b, c. unfold to_cartesian_tri, to_cartesian. cbn [pa pb pc]. vring.
  - intros P A B C. cbn [to_cartesian_tri pa pb pc]. rewrite !C48_round_trip by assumption. auto.
Qed.
Theorem C48_triangle_2d t s w : to_cartesian2 (to_cartesian2_tri t s) w = to_cartesian2 t (to_cartesian s w) /\
  (proper2 t -> affine_weights (pa s) -> affine_weights (pb s) -> affine_weights (pc s) ->
   to_barycentric2 t (a2 (to_cartesian2_tri t s)) = Some (pa s) /\ to_barycentric2 t (b2 (to_cartesian2_tri t s)) = Some (pb s) /\ to_barycentric2 t (c2 (to_cartesian2_tri t s)) = Some (pc s)).
Proof.
  split.
  - destruct t as [[ax ay] [bx by'] [cx cy]], s as [[a1 a2 a3] [b1 b2 b3] [c1 c2 c3]], w as [u v w]. unfold to_cartesian2_tri, to_cartesian2, to_cartesian, add2, scale2, vadd, vscale. cbn [pa pb pc Tri.a2 Tri.b2 Tri.c2 x2 y2 vx vy vz]. f_equal; ring.
  - intros P A B C. cbn [to_cartesian2_tri a2 b2 c2]. rewrite !C48_round_trip_2d by assumption. auto.
Qed.
Example C48_triangle_case : let t := mkTri (V3 0 0 0) (V3 4 0 0) (V3 0 4 0) in let s := mkTri (V3 0 (1/2) (1/2)) (V3 (1/2) 0 (1/2)) (V3 (1/2) (1/2) 0) in
  affine_weights (pa s) /\ affine_weights (pb s) /\ affine_weights (pc s) /\ to_cartesian_tri t s = mkTri (V3 2 2 0) (V3 0 2 0) (V3 2 0 0).
Proof.
  cbv zeta. unfold affine_weights. cbn [pa pb pc vx vy vz]. split; [lra|]. split; [lra|]. split; [lra|]. unfold to_cartesian_tri, to_cartesian. cbn [pa pb pc]. f_equal; vunfold; apply vec3_ext; cbn [vx vy vz]; lra.
Qed.

Example C48_case :
  let t := mkTri (V3 0 0 0) (V3 2 0 0) (V3 0 2 1) in
  proper t /\ to_barycentric t (V3 (1/2) 1 (1/2)) = Some (V3 (1/4) (1/4) (1/2)).
Proof.
  cbv zeta. set (t := mkTri _ _ _). assert (P : proper t).
  { unfold proper, t. cbn [pa pb pc]. intros E. apply (f_equal vz) in E. vunfold. lra. }
  split; [exact P|]. replace (V3 (1/2) 1 (1/2)) with (to_cartesian t (V3 (1/4) (1/4) (1/2))).
  - apply C48_round_trip; [exact P|]. unfold affine_weights. cbn [vx vy vz]. lra.
  - unfold to_cartesian, t. cbn [pa pb pc]. vunfold. apply vec3_ext; cbn [vx vy vz]; lra.
Qed.
Example C48_case_2d : proper2 (mkTri2 (V2 0 0) (V2 1 0) (V2 0 3)).
Proof. unfold proper2. cbn. lra. Qed.

(** ** C47: queries *)

(** IsInsideTriangle, for points in the plane of the triangle as documented *)
Theorem C47_inside t x : proper t -> coplanar t x -> (is_inside_triangle t x = true <-> in_triangle t x).
Proof. apply is_inside_spec. Qed.
(** ClosestPointOnTriangle never divides by zero and returns the nearest point, for degenerate triangles too. *)
Theorem C47_closest_point t p : exists q, closest_on_triangle t p = Some q /\ nearest (in_triangle t) p q.
Proof. apply closest_on_triangle_spec. Qed.
(** IntersectionWithTriangleBarycentric: exactly the rays from in front that hit the triangle, with the weights of the hit. *)
Theorem C47_barycentric t r w :
  hit_barycentric t r = Some w <->
  0 < above t (rorigin r) /\ bary w /\ exists s, 0 < s /\ ray_at r s = combine3 w (pa t) (pb t) (pc t).
Proof. apply hit_barycentric_spec. Qed.
(** The precomputed variant: the same weights, but only for hits away from the edges. *)
Theorem C47_precomputed t r w :
  hit_precomputed (pre_triangle t) (pre_ray r) = Some w <->
  0 < above t (rorigin r) /\ bary w /\ (0 < vx w /\ 0 < vy w /\ 0 < vz w) /\
  exists s, 0 < s /\ ray_at r s = combine3 w (pa t) (pb t) (pc t).
Proof. rewrite hit_precomputed_spec, hit_barycentric_spec. tauto. Qed.
(** IntersectionWithTriangle for rays and segments, with a plane of the triangle or with the plane that is built from it *)
Theorem C47_ray alt neg t r x : proper t ->
  (forall p, is_plane_of alt p t ->
    (triangle_ray_plane alt neg t p r = Hit x <-> enters t (rdirection r) /\ in_triangle t x /\ on_ray r x) /\
    (rdirection r <> vzero -> triangle_ray_plane alt neg t p r <> HitInf)) /\
  (triangle_ray alt neg t r = Hit x <-> enters t (rdirection r) /\ in_triangle t x /\ on_ray r x) /\
  (rdirection r <> vzero -> triangle_ray alt neg t r <> HitInf).
Proof.
  intros P. split; [intros p Pl; split; [apply triangle_ray_plane_spec; assumption|intros D; apply triangle_ray_plane_finite; assumption]|].
  assert (Pl := plane_of_is alt t P). split; [apply triangle_ray_plane_spec; assumption|intros D; apply triangle_ray_plane_finite; assumption].
Qed.
Theorem C47_segment alt neg t l x : proper t ->
  (forall p, is_plane_of alt p t ->
    triangle_line_plane alt neg t p l = Hit x <-> enters t (line_direction l) /\ in_triangle t x /\ on_segment l x) /\
  (triangle_line alt neg t l = Hit x <-> enters t (line_direction l) /\ in_triangle t x /\ on_segment l x) /\
  triangle_line alt neg t l <> HitInf.
Proof.
  intros P. split; [intros p Pl; apply triangle_line_plane_spec; assumption|]. assert (Pl := plane_of_is alt t P).
  split; [apply triangle_line_plane_spec; assumption|apply triangle_line_plane_finite].
Qed.

Definition unit_triangle : triangle := mkTri (V3 0 0 0) (V3 1 0 0) (V3 0 1 0).
Lemma unit_triangle_proper : proper unit_triangle.
Proof. unfold proper, unit_triangle. cbn [pa pb pc]. intros E. apply (f_equal vz) in E. vunfold. lra. Qed.
Lemma unit_triangle_in u v : 0 <= u -> 0 <= v -> u + v <= 1 -> in_triangle unit_triangle (V3 u v 0).
Proof.
  intros A B C. exists (V3 (1 - u - v) u v). unfold bary, combine3, unit_triangle. cbn [pa pb pc vx vy vz]. split; [repeat split; lra|]. vunfold. apply vec3_ext; cbn [vx vy vz]; ring.
Qed.
Example C47_case alt neg :
  triangle_ray alt neg unit_triangle (mkRay (V3 (1/4) (1/4) 2) (V3 0 0 (-1))) = Hit (V3 (1/4) (1/4) 0) /\
  hit_barycentric unit_triangle (mkRay (V3 (1/4) (1/4) 2) (V3 0 0 (-1))) = Some (V3 (1/2) (1/4) (1/4)).
Proof.
  split.
  - apply (proj1 (proj2 (C47_ray alt neg _ _ _ unit_triangle_proper))). cbn [rdirection]. split; [|split].
    + unfold enters, unit_triangle. cbn [pa pb pc]. vunfold. lra.
    + apply unit_triangle_in; lra.
    + exists 2. split; [lra|]. cbn [rorigin rdirection]. vunfold. apply vec3_ext; cbn [vx vy vz]; lra.
  - apply C47_barycentric. cbn [rorigin]. split; [unfold above, unit_triangle; cbn [pa pb pc]; vunfold; lra|].
    split; [unfold bary; cbn [vx vy vz]; lra|]. exists 2. split; [lra|]. unfold ray_at, combine3, unit_triangle. cbn [pa pb pc vx vy vz rorigin rdirection]. vunfold. apply vec3_ext; cbn [vx vy vz]; lra.
Qed.

(** A ray or segment that passes the triangle from behind is not reported by any of the functions. *)
Theorem C47_from_behind_refuted alt neg :
  exists t r x, proper t /\ in_triangle t x /\ on_ray r x /\ triangle_ray alt neg t r = Miss /\ hit_barycentric t r = None.
Proof.
  set (r := mkRay (V3 (1/4) (1/4) (-1)) (V3 0 0 1)). exists unit_triangle, r, (V3 (1/4) (1/4) 0).
  assert (NE : ~ enters unit_triangle (V3 0 0 1)) by (unfold enters, unit_triangle; cbn [pa pb pc]; vunfold; lra).
  split; [exact unit_triangle_proper|]. split; [apply unit_triangle_in; lra|]. split.
  { exists 1. split; [lra|]. unfold r. cbn [rorigin rdirection]. vunfold. apply vec3_ext; cbn [vx vy vz]; lra. }
  split.
  - destruct (triangle_ray alt neg unit_triangle r) as [|x|] eqn:E; [reflexivity| |].
    + apply (proj1 (proj2 (C47_ray alt neg _ _ _ unit_triangle_proper))) in E. exfalso. apply NE, (proj1 E).
    + exfalso. apply (proj2 (proj2 (C47_ray alt neg _ r vzero unit_triangle_proper))); [|exact E]. unfold r. cbn [rdirection]. intros Z. apply (f_equal vz) in Z. cbn in Z. lra.
  - destruct (hit_barycentric unit_triangle r) as [w|] eqn:E; [|reflexivity]. apply C47_barycentric in E. exfalso. destruct E as [A _].
    unfold above, unit_triangle, r in A. cbn [pa pb pc rorigin] in A. vunfold. lra.
Qed.
(** A ray through the common edge of two triangles of a surface misses both in the precomputed variant. *)
Theorem C47_shared_edge_refuted :
  exists t1 t2 r x, proper t1 /\ proper t2 /\ in_triangle t1 x /\ in_triangle t2 x /\ on_ray r x /\
    0 < above t1 (rorigin r) /\ 0 < above t2 (rorigin r) /\
    hit_precomputed (pre_triangle t1) (pre_ray r) = None /\ hit_precomputed (pre_triangle t2) (pre_ray r) = None /\
    hit_barycentric t1 r <> None /\ hit_barycentric t2 r <> None.
Proof.
  set (t2 := mkTri (V3 1 1 0) (V3 0 1 0) (V3 1 0 0)). set (r := mkRay (V3 (1/2) (1/2) 1) (V3 0 0 (-1))).
  exists unit_triangle, t2, r, (V3 (1/2) (1/2) 0).
  assert (P2 : proper t2) by (unfold proper, t2; cbn [pa pb pc]; intros E; apply (f_equal vz) in E; vunfold; lra).
  assert (A1 : 0 < above unit_triangle (rorigin r)) by (unfold above, unit_triangle, r; cbn [pa pb pc rorigin]; vunfold; lra).
  assert (A2 : 0 < above t2 (rorigin r)) by (unfold above, t2, r; cbn [pa pb pc rorigin]; vunfold; lra).
  assert (B : bary (V3 0 (1/2) (1/2))) by (unfold bary; cbn [vx vy vz]; lra).
  assert (R1 : ray_at r 1 = combine3 (V3 0 (1/2) (1/2)) (pa unit_triangle) (pb unit_triangle) (pc unit_triangle)).
  { unfold ray_at, r, combine3, unit_triangle. cbn [pa pb pc rorigin rdirection vx vy vz]. vunfold. apply vec3_ext; cbn [vx vy vz]; lra. }
  assert (R2 : ray_at r 1 = combine3 (V3 0 (1/2) (1/2)) (pa t2) (pb t2) (pc t2)).
  { unfold ray_at, r, combine3, t2. cbn [pa pb pc rorigin rdirection vx vy vz]. vunfold. apply vec3_ext; cbn [vx vy vz]; lra. }
  assert (H1 : hit_barycentric unit_triangle r = Some (V3 0 (1/2) (1/2))) by (apply C47_barycentric; split; [exact A1|]; split; [exact B|]; exists 1; split; [lra|exact R1]).
  assert (H2 : hit_barycentric t2 r = Some (V3 0 (1/2) (1/2))) by (apply C47_barycentric; split; [exact A2|]; split; [exact B|]; exists 1; split; [lra|exact R2]).
  assert (X : ray_at r 1 = V3 (1/2) (1/2) 0) by (unfold ray_at, r; cbn [rorigin rdirection]; vunfold; apply vec3_ext; cbn [vx vy vz]; lra).
  split; [exact unit_triangle_proper|]. split; [exact P2|]. split; [rewrite <- X, R1; eexists; split; [exact B|reflexivity]|].
  split; [rewrite <- X, R2; eexists; split; [exact B|reflexivity]|]. split; [exists 1; split; [lra|rewrite <- X; reflexivity]|].
  split; [exact A1|]. split; [exact A2|]. split; [|split; [|split; congruence]].
  - destruct (hit_precomputed _ _) as [w|] eqn:E; [|reflexivity]. apply hit_precomputed_spec in E. destruct E as [E W]. rewrite H1 in E. injection E as <-. cbn in W. lra.
  - destruct (hit_precomputed _ _) as [w|] eqn:E; [|reflexivity]. apply hit_precomputed_spec in E. destruct E as [E W]. rewrite H2 in E. injection E as <-. cbn in W. lra.
Qed.
(** Without the two assumptions the point test accepts points outside: above the triangle, and beside a degenerate triangle. *)
Theorem C47_inside_refuted :
  (exists t x, proper t /\ ~ in_triangle t x /\ is_inside_triangle t x = true) /\
  (exists t x, coplanar t x /\ ~ in_triangle t x /\ is_inside_triangle t x = true).
Proof.
  split.
  - exists unit_triangle, (V3 0 0 5). split; [exact unit_triangle_proper|]. split.
    + intros (w & _ & E). apply (f_equal vz) in E. unfold combine3, unit_triangle in E. cbn [pa pb pc] in E. vunfold. lra.
    + unfold is_inside_triangle, same_side, unit_triangle. cbn [pa pb pc]. cbv zeta. rewrite !andb_true_iff, !Rleb_iff. vunfold. lra.
  - exists (mkTri (V3 0 0 0) (V3 1 0 0) (V3 2 0 0)), (V3 9 0 0). split; [unfold coplanar, above; cbn [pa pb pc]; vunfold; ring|]. split.
    + intros (w & B & E). apply (f_equal vx) in E. unfold combine3, bary in *. cbn [pa pb pc] in E. destruct w as [u v w]. vunfold. lra.
    + unfold is_inside_triangle, same_side. cbn [pa pb pc]. cbv zeta. rewrite !andb_true_iff, !Rleb_iff. vunfold. lra.
Qed.

(** ** C66: intersection of two triangles *)

(** A reported segment ends in both triangles (and hence lies in both). *)
Theorem C66_sound alt neg s t l : triangle_triangle alt neg s t = Some l ->
  forall x, on_segment l x -> in_triangle s x /\ in_triangle t x.
Proof.
  intros H. destruct (triangle_triangle_sound alt neg s t l H) as (A & B & C & D).
  assert (Conv : forall t x y q, 0 <= q <= 1 -> in_triangle t x -> in_triangle t y -> in_triangle t (vadd (vscale (1 - q) x) (vscale q y))).
  { clear. intros t x y q Q (w & B & ->) (w' & B' & ->). exists (vadd (vscale (1 - q) w) (vscale q w')). split.
    - unfold bary, vadd, vscale in *. cbn [vx vy vz]. assert (0 <= 1 - q) by lra.
      repeat split; try (apply Rplus_le_le_0_compat; apply Rmult_le_pos; lra).
      transitivity ((1 - q) * (vx w + vy w + vz w) + q * (vx w' + vy w' + vz w')); [ring|].
      replace (vx w + vy w + vz w) with 1 by lra. replace (vx w' + vy w' + vz w') with 1 by lra. ring.
    - unfold combine3. generalize (pa t) (pb t) (pc t). clear. intros. vring. }
  intros x (q & Q & ->). split; apply Conv; assumption.
Qed.
(** Two triangles that are not in one plane and have a common point are reported. *)
Theorem C66_complete alt neg s t : proper s -> proper t ->
  ~ (coplanar s (pa t) /\ coplanar s (pb t) /\ coplanar s (pc t)) ->
  (exists x, in_triangle s x /\ in_triangle t x) -> exists l, triangle_triangle alt neg s t = Some l.
Proof.
  intros Ps Pt N (x & A & B). destruct (triangle_triangle alt neg s t) eqn:E; [eexists; reflexivity|].
  exfalso. exact (triangle_triangle_complete alt neg s t x Ps Pt N A B E).
Qed.
Example C66_case alt neg :
  exists l, triangle_triangle alt neg unit_triangle (mkTri (V3 (1/4) (1/4) 1) (V3 (1/4) (1/4) (-1)) (V3 5 5 0)) = Some l.
Proof.
  apply C66_complete; [exact unit_triangle_proper| | |].
  - unfold proper. cbn [pa pb pc]. intros E. apply (f_equal vx) in E. vunfold. lra.
  - unfold coplanar, above, unit_triangle. cbn [pa pb pc]. vunfold. lra.
  - exists (V3 (1/4) (1/4) 0). split; [apply unit_triangle_in; lra|].
    exists (V3 (1/2) (1/2) 0). unfold bary, combine3. cbn [pa pb pc vx vy vz]. split; [lra|]. vunfold. apply vec3_ext; cbn [vx vy vz]; lra.
Qed.

(** Two overlapping triangles in one plane are not reported. *)
Lemma coplanar_no_test alt neg t e : dot (tri_normal t) (line_direction e) = 0 -> edge_test alt neg t e = None.
Proof. intros H. destruct (edge_test alt neg t e) eqn:E; [|reflexivity]. apply edge_test_spec in E. destruct E as [N _]. contradiction. Qed.
Theorem C66_coplanar_refuted alt neg : exists s t x, proper s /\ proper t /\ in_triangle s x /\ in_triangle t x /\ triangle_triangle alt neg s t = None.
Proof.
  exists unit_triangle, unit_triangle, (V3 (1/4) (1/4) 0). do 2 (split; [exact unit_triangle_proper|]). do 2 (split; [apply unit_triangle_in; lra|]).
  unfold triangle_triangle, edges. cbn [map app two_hits].
  rewrite !coplanar_no_test; [reflexivity|..]; unfold tri_normal, line_direction, unit_triangle; cbn [pa pb pc la lb]; vunfold; ring.
Qed.

(** The reported segment can be a single point although the triangles have a whole segment in common: a corner in the plane of the
    other triangle is found twice, on both of its edges. *)
Theorem C66_whole_segment_refuted alt neg : exists s t x y l, proper s /\ proper t /\ x <> y /\
  in_triangle s x /\ in_triangle t x /\ in_triangle s y /\ in_triangle t y /\
  triangle_triangle alt neg s t = Some l /\ la l = lb l.
Proof.
  set (t := mkTri (V3 (1/4) (1/4) 1) (V3 (1/8) (1/8) 0) (V3 (1/4) (1/4) (-1))).
  exists unit_triangle, t, (V3 (1/8) (1/8) 0), (V3 (1/4) (1/4) 0), (mkLine (V3 (1/8) (1/8) 0) (V3 (1/8) (1/8) 0)).
  assert (H0 : edge_test alt (neg 0%nat) unit_triangle (mkLine (pa t) (pb t)) = Some (V3 (1/8) (1/8) 0)).
  { apply edge_test_spec. split; [|split].
    - unfold tri_normal, line_direction, unit_triangle, t. cbn [pa pb pc la lb]. vunfold. lra.
    - apply unit_triangle_in; lra.
    - exists 1. split; [lra|]. unfold t. cbn [pa pb pc la lb]. vunfold. apply vec3_ext; cbn [vx vy vz]; lra. }
  assert (H1 : edge_test alt (neg 1%nat) unit_triangle (mkLine (pb t) (pc t)) = Some (V3 (1/8) (1/8) 0)).
  { apply edge_test_spec. split; [|split].
    - unfold tri_normal, line_direction, unit_triangle, t. cbn [pa pb pc la lb]. vunfold. lra.
    - apply unit_triangle_in; lra.
    - exists 0. split; [lra|]. unfold t. cbn [pa pb pc la lb]. vunfold. apply vec3_ext; cbn [vx vy vz]; lra. }
  split; [exact unit_triangle_proper|]. split; [unfold proper, t; cbn [pa pb pc]; intros E; apply (f_equal vx) in E; vunfold; lra|].
  split; [intros E; apply (f_equal vx) in E; cbn in E; lra|]. split; [apply unit_triangle_in; lra|].
  split; [exists (V3 0 1 0); unfold bary, combine3, t; cbn [pa pb pc vx vy vz]; split; [lra|]; vunfold; apply vec3_ext; cbn [vx vy vz]; lra|].
  split; [apply unit_triangle_in; lra|].
  split; [exists (V3 (1/2) 0 (1/2)); unfold bary, combine3, t; cbn [pa pb pc vx vy vz]; split; [lra|]; vunfold; apply vec3_ext; cbn [vx vy vz]; lra|].
  split; [|reflexivity]. unfold triangle_triangle. unfold edges at 1. cbn [map app two_hits]. rewrite H0, H1. reflexivity.
Qed.

(** ** C67: closest segment between a segment and a triangle *)

(** For a segment that does not meet the triangle (as documented), edges that are longer than the machine epsilon admits, and
    distances below the largest number. *)
Theorem C67_closest_segment alt eps big t l :
  0 < eps -> proper t ->
  (forall x, in_triangle t x -> on_segment l x -> False) ->
  (forall e, In e (edges t) -> eps < len_sq (vsub (lb e) (la e))) -> (eps < len_sq (vsub (lb l) (la l)) \/ la l = lb l) ->
  (forall x y, in_triangle t x -> on_segment l y -> len_sq (vsub x y) < big) ->
  (forall p, is_plane_of alt p t -> unit (normal p) ->
     exists r, closest_to_triangle alt eps big t p l = Some r /\ shortest (in_triangle t) (on_segment l) r) /\
  exists r, closest_to_triangle alt eps big t (plane_of alt t) l = Some r /\ shortest (in_triangle t) (on_segment l) r.
Proof.
  intros He P F Ne Nl B.
  assert (G : forall p, is_plane_of alt p t -> unit (normal p) -> exists r, closest_to_triangle alt eps big t p l = Some r /\ shortest (in_triangle t) (on_segment l) r).
  { intros p Pl U. apply closest_to_triangle_spec; try assumption. intros e I. apply C45_closest_segment_partial; [exact He|left; apply Ne, I|exact Nl]. }
  split; [exact G|]. apply G; [apply plane_of_is, P|]. unfold unit, plane_of, build3, update_distance. cbn [normal]. apply normalize_dot, P.
Qed.
Example C67_case eps : 0 < eps < 1/2 -> exists r, closest_to_triangle false eps 100 unit_triangle (plane_of false unit_triangle) (mkLine (V3 (1/4) (1/4) 1) (V3 (1/4) (1/4) 3)) = Some r /\
  shortest (in_triangle unit_triangle) (on_segment (mkLine (V3 (1/4) (1/4) 1) (V3 (1/4) (1/4) 3))) r.
Proof.
  intros He. apply C67_closest_segment; [lra|exact unit_triangle_proper| | | |].
  - intros x (w & B & E) (q & Q & E'). rewrite E in E'. apply (f_equal vz) in E'. unfold combine3, unit_triangle in E'. cbn [pa pb pc la lb] in E'. vunfold. lra.
  - unfold edges, unit_triangle. cbn [pa pb pc]. intros e [<-|[<-|[<-|[]]]]; cbn [la lb]; vunfold; lra.
  - left. cbn [la lb]. vunfold. lra.
  - intros x y (w & B & ->) (q & Q & ->). unfold combine3, unit_triangle, bary in *. cbn [pa pb pc la lb]. destruct w as [u v w]. vunfold. nra.
Qed.
Print Assumptions C48_round_trip.
Print Assumptions C48_round_trip_point.
Print Assumptions C48_degenerate.
Print Assumptions C48_round_trip_2d.
Print Assumptions C48_round_trip_point_2d.
Print Assumptions C48_triangle.
Print Assumptions C48_triangle_2d.
Print Assumptions C47_inside.
Print Assumptions C47_closest_point.
Print Assumptions C47_barycentric.
Print Assumptions C47_precomputed.
Print Assumptions C47_ray.
Print Assumptions C47_segment.
Print Assumptions C47_from_behind_refuted.
Print Assumptions C47_shared_edge_refuted.
Print Assumptions C47_inside_refuted.
Print Assumptions C66_sound.
Print Assumptions C66_complete.
Print Assumptions C66_coplanar_refuted.
Print Assumptions C66_whole_segment_refuted.
Print Assumptions C67_closest_segment.
