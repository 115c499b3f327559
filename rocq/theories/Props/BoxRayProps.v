(** Properties C33 and C34: rays and segments against axis-aligned boxes. *)
From Coq Require Import Reals List Bool Lra Psatz.
From Verif Require Import Model.Scalar Model.Vec Model.Plane Model.Coll Spec.PlaneSpec Spec.CollSpec Proofs.VecLemmas Proofs.BoxRayLemmas.
Import ListNotations.
Local Open Scope R_scope.

(** ** C33 *)

(** The parameter reported for a ray: it is in the box there and not before; without a report no point of the ray up to the largest
    finite parameter [big] is in the box.  This holds for nonempty boxes and directions without components that are small but not
    zero; what is missing is the small components, see C33_all_directions and C33_small_component_refuted. *)
Theorem C33_first_hit_partial eps big b r : 0 < eps -> 0 <= big -> nonempty_box b -> clear_direction eps (rdirection r) ->
  match box_interp eps big b r with
  | Some t => 0 <= t <= big /\ in_box b (ray_at r t) /\ (forall u, 0 <= u < t -> ~ in_box b (ray_at r u))
  | None => forall u, 0 <= u <= big -> ~ in_box b (ray_at r u)
  end.
Proof.
  intros He Hb Hn Hd. assert (K := box_interp_spec eps big b r He Hb Hn Hd). destruct (box_interp eps big b r) as [t|]; [|exact K].
  destruct K as (A & B & C). split; [exact A|]. split; [exact B|]. intros u Hu H. apply C in H; lra.
Qed.
Print Assumptions C33_first_hit_partial.

(** For every direction: the result is the one for the ray with its small components replaced by zero, so the above applies to it. *)
Theorem C33_all_directions eps big b r : 0 < eps -> 0 <= big -> nonempty_box b ->
  let r' := flush_ray eps r in
  match box_interp eps big b r with
  | Some t => 0 <= t <= big /\ in_box b (ray_at r' t) /\ (forall u, 0 <= u < t -> ~ in_box b (ray_at r' u))
  | None => forall u, 0 <= u <= big -> ~ in_box b (ray_at r' u)
  end.
Proof.
  intros He Hb Hn r'. rewrite (box_interp_flush eps big b r He). apply C33_first_hit_partial; try assumption. apply flush_direction, He.
Qed.
Print Assumptions C33_all_directions.

(** The two IntersectionWithAABB functions for rays report a hit exactly when the parameter function does, and return that point. *)
Theorem C33_ray_overloads eps big b r : 0 < eps -> 0 <= big -> nonempty_box b ->
  box_ray eps big b r = match box_interp eps big b r with Some t => Some (ray_at r t) | None => None end /\
  (box_ray_test eps big b r = true <-> exists x, box_ray eps big b r = Some x).
Proof.
  intros He Hb Hn. unfold box_ray, box_ray_test. assert (K := C33_all_directions eps big b r He Hb Hn). cbn zeta in K.
  destruct (box_interp eps big b r) as [t|].
  - destruct K as (A & _). replace (Rltb t 0) with false by (symmetry; apply Rltb_false; lra).
    split; [reflexivity|]. rewrite Rleb_iff. split; [intros _; eauto|lra].
  - split; [reflexivity|]. split; [discriminate|intros (x & E); discriminate].
Qed.
Print Assumptions C33_ray_overloads.

Definition cube : aabb := mkAabb (V3 0 0 0) (V3 1 1 1).
Lemma cube_nonempty : nonempty_box cube.
Proof. exists (V3 0 0 0). unfold in_box; cbn; lra. Qed.
Lemma clear_0 eps : clear_cut eps 0. Proof. left; reflexivity. Qed.
Lemma clear_big eps x : eps <= x -> clear_cut eps x.
Proof. intros H. right. assert (K := Rle_abs x). lra. Qed.

(** A ray along the x axis hits the unit cube in (0, 1/2, 1/2), after the parameter 1. *)
Example C33_example : exists t, box_interp (1/1000) 1000 cube (mkRay (V3 (-1) (1/2) (1/2)) (V3 1 0 0)) = Some t /\ t = 1.
Proof.
  set (r := mkRay _ _).
  assert (K := C33_first_hit_partial (1/1000) 1000 cube r ltac:(lra) ltac:(lra) cube_nonempty).
  assert (C : clear_direction (1/1000) (rdirection r)) by (repeat split; cbn; [apply clear_big; lra|apply clear_0|apply clear_0]).
  specialize (K C). assert (H : in_box cube (ray_at r 1)) by (unfold in_box, ray_at, vadd, vscale; cbn; lra).
  destruct (box_interp _ _ cube r) as [t|].
  - exists t. split; [reflexivity|]. destruct K as (A & B & D).
    assert (1 <= t) by (unfold in_box, ray_at, vadd, vscale in B; cbn in B; lra).
    destruct (Rle_lt_dec t 1) as [L|L]; [lra|]. exfalso. apply (D 1); [lra|exact H].
  - exfalso. apply (K 1); [lra|exact H].
Qed.

(** A direction component smaller than eps counts as zero, however far the ray goes: a ray that hits the box at a finite parameter is
    reported to miss it, and another that passes the box in a distance is reported to hit it. *)
Theorem C33_small_component_refuted eps : 0 < eps <= 1 -> exists big b r u r', 0 <= big /\ nonempty_box b /\
  0 <= u <= big /\ in_box b (ray_at r u) /\ box_interp eps big b r = None /\
  (exists t, box_interp eps big b r' = Some t) /\ (forall v, 0 <= v -> ~ in_box b (ray_at r' v)).
Proof.
  intros He.
  (* rays to a cube far away in x: at u = 4/eps the direction (1, eps/2, 0) has moved by (4/eps, 2, 0) *)
  set (b := mkAabb (V3 (4 / eps) 2 0) (V3 (4 / eps + 1) 3 1)). set (b' := b).
  assert (P : 0 < / eps) by (apply Rinv_0_lt_compat; lra).
  assert (I : 1 <= / eps) by (rewrite <- Rinv_1; apply Rinv_le_contravar; lra).
  set (r := mkRay (V3 0 0 0) (V3 1 (eps / 2) 0)). set (r' := mkRay (V3 0 2 0) (V3 1 (- eps / 2) 0)).
  exists (4 / eps + 4), b, r, (4 / eps), r'.
  assert (Nb : nonempty_box b) by (exists (V3 (4 / eps) 2 0); unfold in_box; cbn; lra).
  assert (Hbig : 0 <= 4 / eps + 4) by lra.
  assert (E2 : 4 / eps * (eps / 2) = 2) by (field; lra).
  split; [exact Hbig|]. split; [exact Nb|]. split; [lra|].
  split. { unfold in_box, ray_at, vadd, vscale; cbn. lra. }
  assert (Ab : Rabs (eps / 2) < eps) by (rewrite Rabs_right; lra).
  assert (Ab' : Rabs (- eps / 2) < eps) by (rewrite Rabs_left; lra).
  assert (A1 : Rabs 1 = 1) by apply Rabs_R1.
  assert (F : flush_ray eps r = mkRay (V3 0 0 0) (V3 1 0 0)).
  { unfold flush_ray, flush; cbn. rewrite A1. replace (Rltb (Rabs (eps / 2)) eps) with true by (symmetry; apply Rltb_iff, Ab).
    destruct (Rltb 1 eps) eqn:Q; [apply Rltb_iff in Q; lra|]. destruct (Rltb (Rabs 0) eps); reflexivity. }
  assert (F' : flush_ray eps r' = mkRay (V3 0 2 0) (V3 1 0 0)).
  { unfold flush_ray, flush; cbn. rewrite A1. replace (Rltb (Rabs (- eps / 2)) eps) with true by (symmetry; apply Rltb_iff, Ab').
    destruct (Rltb 1 eps) eqn:Q; [apply Rltb_iff in Q; lra|]. destruct (Rltb (Rabs 0) eps); reflexivity. }
  split; [|split].
  - assert (K := C33_all_directions eps (4 / eps + 4) b r (proj1 He) Hbig Nb). cbn zeta in K. rewrite F in K.
    destruct (box_interp eps (4 / eps + 4) b r) as [t|]; [|reflexivity]. exfalso. destruct K as (_ & B & _).
    unfold in_box, ray_at, vadd, vscale in B; cbn in B. lra.
  - assert (K := C33_all_directions eps (4 / eps + 4) b r' (proj1 He) Hbig Nb). cbn zeta in K. rewrite F' in K.
    destruct (box_interp eps (4 / eps + 4) b r') as [t|]; [eauto|]. exfalso. apply (K (4 / eps)); [lra|].
    unfold in_box, ray_at, vadd, vscale; cbn. lra.
  - intros v Hv H. unfold in_box, ray_at, vadd, vscale in H; cbn in H. destruct H as (Hx & Hy & _).
    assert (0 < v) by lra. assert (0 < v * (eps / 2)) by (apply Rmult_lt_0_compat; lra). lra.
Qed.
Print Assumptions C33_small_component_refuted.

(** A box whose minimum is above its maximum contains no point, but rays hit it. *)
Theorem C33_empty_box_refuted eps : 0 < eps <= 1 -> exists big b r, 0 <= big /\ clear_direction eps (rdirection r) /\ (forall x, ~ in_box b x) /\
  exists t, box_interp eps big b r = Some t.
Proof.
  intros He. exists 10, (mkAabb (V3 1 1 1) (V3 0 0 0)), (mkRay (V3 0 0 0) (V3 1 1 1)).
  split; [lra|]. split; [repeat split; cbn; apply clear_big; lra|].
  split; [intros x (A & _); cbn in A; lra|]. exists 0.
  unfold box_interp, slabs; cbn [slab_loop so sd slo shi vx vy vz rorigin rdirection bmin bmax].
  replace (Rltb (Rabs 1) eps) with false by (symmetry; apply Rltb_false; rewrite Rabs_R1; lra).
  replace ((1 - 0) * (1 / 1)) with 1 by field. replace ((0 - 0) * (1 / 1)) with 0 by field.
  replace (Rltb 0 1) with true by (symmetry; apply Rltb_iff; lra).
  rewrite !(Rmax_left 0 0) by lra. rewrite (Rmin_right 10 1) by lra. rewrite !(Rmin_left 1 1) by lra.
  replace (Rltb 1 0) with false by (symmetry; apply Rltb_false; lra). reflexivity.
Qed.
Print Assumptions C33_empty_box_refuted.

(** ** C34 *)

Lemma line_ray_at l t : ray_at (line_ray l) t = segment_at l t.
Proof. unfold ray_at, segment_at, line_ray, line_direction. cbn. vring. Qed.

(** The function that returns the point is exact: it reports a hit iff the segment meets the box, and then the first common point.
    (Segments without small components other than zero; nonempty boxes; big >= 1.) *)
Theorem C34_point_overload_partial eps big b l : 0 < eps -> 1 <= big -> nonempty_box b -> clear_direction eps (vsub (lb l) (la l)) ->
  match box_line eps big b l with
  | Some x => exists t, 0 <= t <= 1 /\ x = segment_at l t /\ in_box b x /\ (forall u, 0 <= u < t -> ~ in_box b (segment_at l u))
  | None => forall x, on_segment l x -> ~ in_box b x
  end.
Proof.
  intros He Hb Hn Hd. unfold box_line. assert (K := C33_first_hit_partial eps big b (line_ray l) He ltac:(lra) Hn Hd).
  destruct (box_interp eps big b (line_ray l)) as [t|].
  - destruct K as (A & B & C). replace (Rltb t 0) with false by (symmetry; apply Rltb_false; lra). cbn [orb].
    destruct (Rltb 1 t) eqn:E; [apply Rltb_iff in E|apply Rltb_false in E].
    + intros x (u & Hu & ->) H. apply (C u); [lra|]. rewrite line_ray_at. exact H.
    + exists t. split; [lra|]. change (ray_lerp (line_ray l) t) with (ray_at (line_ray l) t). rewrite !line_ray_at in *.
      split; [reflexivity|]. split; [exact B|]. intros u Hu. rewrite <- line_ray_at. apply C. lra.
  - intros x (u & Hu & ->) H. apply (K u); [lra|]. rewrite line_ray_at. exact H.
Qed.
Print Assumptions C34_point_overload_partial.

(** The function without the point agrees for segments of length one.  It reports every hit of longer segments and no hit the other
    does not report of shorter segments. *)
Theorem C34_overloads_agree_partial eps big b l : 0 < eps -> 0 <= big -> nonempty_box b ->
  (line_length l = 1 -> (box_line_test eps big b l = true <-> exists x, box_line eps big b l = Some x)) /\
  (1 <= line_length l -> (exists x, box_line eps big b l = Some x) -> box_line_test eps big b l = true) /\
  (line_length l <= 1 -> box_line_test eps big b l = true -> exists x, box_line eps big b l = Some x).
Proof.
  intros He Hb Hn. unfold box_line, box_line_test. assert (K := C33_all_directions eps big b (line_ray l) He Hb Hn). cbn zeta in K.
  destruct (box_interp eps big b (line_ray l)) as [t|].
  - destruct K as ((T0 & _) & _). replace (Rltb t 0) with false by (symmetry; apply Rltb_false; lra). cbn [orb].
    assert (A : (if Rltb (line_length l) t then false else true) = true <-> t <= line_length l).
    { destruct (Rltb (line_length l) t) eqn:E; [apply Rltb_iff in E|apply Rltb_false in E]; (split; [|]); try discriminate; try reflexivity; lra. }
    assert (B : (exists x, (if Rltb 1 t then None else Some (ray_lerp (line_ray l) t)) = Some x) <-> t <= 1).
    { destruct (Rltb 1 t) eqn:E; [apply Rltb_iff in E|apply Rltb_false in E]; split; try lra; try (intros (x & X); discriminate); eauto. }
    rewrite A, B. split; [|split]; intros; lra.
  - split; [|split]; intros; [split; [discriminate|intros (x & E); discriminate]| |discriminate].
    match goal with H : exists x, None = Some x |- _ => destruct H as (? & ?); discriminate end.
Qed.
Print Assumptions C34_overloads_agree_partial.

Example C34_example : clear_direction (1/1000) (vsub (V3 2 (1/2) (1/2)) (V3 (-1) (1/2) (1/2))) /\ nonempty_box cube.
Proof.
  split; [|exact cube_nonempty]. repeat split; unfold vsub; cbn; [apply clear_big; lra|left; lra|left; lra].
Qed.

(** The boolean test compares the parameter, which is 1 at the end of the segment, with the length of the segment: a long segment that
    ends before the box is reported, and a short one that reaches into the box is not. *)
Theorem C34_overloads_refuted :
  exists eps big b l l', 0 < eps /\ 1 <= big /\ nonempty_box b /\
  clear_direction eps (vsub (lb l) (la l)) /\ clear_direction eps (vsub (lb l') (la l')) /\
  (* reported although the segment does not meet the box *)
  box_line_test eps big b l = true /\ box_line eps big b l = None /\ (forall x, on_segment l x -> ~ in_box b x) /\
  (* not reported although it does *)
  box_line_test eps big b l' = false /\ (exists x, box_line eps big b l' = Some x /\ on_segment l' x /\ in_box b x).
Proof.
  (* box [4,5]^3-ish: x from 4; l from 0 to (3,..): t = 4/3 <= 3.  l' of length 1/2 from 3.6 to 4.1: t = 0.8 > 1/2 *)
  set (b := mkAabb (V3 4 0 0) (V3 5 1 1)).
  set (l := mkLine (V3 0 0 0) (V3 3 0 0)). set (l' := mkLine (V3 (18/5) 0 0) (V3 (41/10) 0 0)).
  exists (1/1000), 1000, b, l, l'.
  assert (N : nonempty_box b) by (exists (V3 4 0 0); unfold in_box; cbn; lra).
  assert (C : clear_direction (1/1000) (vsub (lb l) (la l))) by (repeat split; unfold vsub; cbn; [apply clear_big; lra|left; lra|left; lra]).
  assert (C' : clear_direction (1/1000) (vsub (lb l') (la l'))) by (repeat split; unfold vsub; cbn; [apply clear_big; lra|left; lra|left; lra]).
  assert (L : line_length l = 3).
  { unfold line_length, len, vsub, dot, l; cbn. replace ((3 - 0) * (3 - 0) + (0 - 0) * (0 - 0) + (0 - 0) * (0 - 0)) with (3 * 3) by ring. apply sqrt_square; lra. }
  assert (L' : line_length l' = 1/2).
  { unfold line_length, len, vsub, dot, l'; cbn.
    replace ((41 / 10 - 18 / 5) * (41 / 10 - 18 / 5) + (0 - 0) * (0 - 0) + (0 - 0) * (0 - 0)) with ((1/2) * (1/2)) by field. apply sqrt_square; lra. }
  assert (T : exists t, box_interp (1/1000) 1000 b (line_ray l) = Some t /\ t = 4/3).
  { assert (K := C33_first_hit_partial (1/1000) 1000 b (line_ray l) ltac:(lra) ltac:(lra) N C).
    destruct (box_interp _ _ b (line_ray l)) as [t|].
    - exists t. split; [reflexivity|]. destruct K as (A & B & D). rewrite line_ray_at in B.
      unfold in_box, segment_at, vadd, vscale in B; cbn in B.
      destruct (Rle_lt_dec t (4/3)) as [M|M]; [lra|]. exfalso. apply (D (4/3)); [lra|]. rewrite line_ray_at.
      unfold in_box, segment_at, vadd, vscale; cbn. lra.
    - exfalso. apply (K (4/3)); [lra|]. rewrite line_ray_at. unfold in_box, segment_at, vadd, vscale; cbn. lra. }
  assert (T' : exists t, box_interp (1/1000) 1000 b (line_ray l') = Some t /\ t = 4/5).
  { assert (K := C33_first_hit_partial (1/1000) 1000 b (line_ray l') ltac:(lra) ltac:(lra) N C').
    destruct (box_interp _ _ b (line_ray l')) as [t|].
    - exists t. split; [reflexivity|]. destruct K as (A & B & D). rewrite line_ray_at in B.
      unfold in_box, segment_at, vadd, vscale in B; cbn in B.
      destruct (Rle_lt_dec t (4/5)) as [M|M]; [lra|]. exfalso. apply (D (4/5)); [lra|]. rewrite line_ray_at.
      unfold in_box, segment_at, vadd, vscale; cbn. lra.
    - exfalso. apply (K (4/5)); [lra|]. rewrite line_ray_at. unfold in_box, segment_at, vadd, vscale; cbn. lra. }
  destruct T as (t & T & Et). destruct T' as (t' & T' & Et'). subst t t'.
  split; [lra|]. split; [lra|]. split; [exact N|]. split; [exact C|]. split; [exact C'|].
  split. { unfold box_line_test. rewrite T, L. replace (Rltb (4/3) 0) with false by (symmetry; apply Rltb_false; lra).
           replace (Rltb 3 (4/3)) with false by (symmetry; apply Rltb_false; lra). reflexivity. }
  split. { unfold box_line. rewrite T. replace (Rltb (4/3) 0) with false by (symmetry; apply Rltb_false; lra).
           replace (Rltb 1 (4/3)) with true by (symmetry; apply Rltb_iff; lra). reflexivity. }
  split. { intros x (u & Hu & ->) H. unfold in_box, vadd, vscale in H; cbn in H. lra. }
  split. { unfold box_line_test. rewrite T', L'. replace (Rltb (4/5) 0) with false by (symmetry; apply Rltb_false; lra).
           replace (Rltb (1/2) (4/5)) with true by (symmetry; apply Rltb_iff; lra). reflexivity. }
  exists (segment_at l' (4/5)). split.
  - unfold box_line. rewrite T'. replace (Rltb (4/5) 0) with false by (symmetry; apply Rltb_false; lra).
    replace (Rltb 1 (4/5)) with false by (symmetry; apply Rltb_false; lra). cbn [orb].
    change (ray_lerp (line_ray l') (4/5)) with (ray_at (line_ray l') (4/5)). rewrite line_ray_at. reflexivity.
  - split; [exists (4/5); split; [lra|reflexivity]|]. unfold in_box, segment_at, vadd, vscale; cbn. lra.
Qed.
Print Assumptions C34_overloads_refuted.
