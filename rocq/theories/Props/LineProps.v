(** Property C45: closest points on segments, closest connections of segments and rays. *)
From Coq Require Import Reals List Bool Lra Psatz.
From Verif Require Import Model.Scalar Model.Vec Model.Plane Model.Coll Spec.PlaneSpec Spec.CollSpec Proofs.VecLemmas Proofs.PlaneLemmas Proofs.LineLemmas.
Local Open Scope R_scope.

Lemma segment_point l t : segment_at l t = vadd (la l) (vscale t (line_direction l)).
Proof. unfold segment_at, line_direction. vring. Qed.
Lemma on_segment_at l t : 0 <= t <= 1 -> on_segment l (segment_at l t).
Proof. intros H. exists t. split; [exact H|reflexivity]. Qed.
Lemma segment_start l : la l = segment_at l 0.
Proof. rewrite segment_point. unfold line_direction. destruct l as [[] []]. cbn. vring. Qed.
Lemma segment_end l : lb l = segment_at l 1.
Proof. rewrite segment_point. unfold line_direction. destruct l as [[] []]. cbn. vring. Qed.

(** ClosestPointOnLine for a segment that is not a single point: its result is the nearest point of the segment, and the distance
    functions return its distance and squared distance. *)
Theorem C45_closest_point_partial l x : la l <> lb l ->
  exists c, closest_on_line l x = Some c /\ nearest (on_segment l) x c /\
  distance_to_line l x = Some (dist c x) /\ distance_sq_to_line l x = Some (dist c x * dist c x) /\
  (forall z, on_segment l z -> dist c x <= dist z x).
Proof.
  intros N. set (u := line_direction l). set (r := vsub (la l) x).
  assert (U : u <> vzero). { intros E. apply N. unfold u, line_direction in E. destruct l as [[] []]; unfold vsub, vzero in E; cbn in *. injection E as ? ? ?. f_equal; lra. }
  assert (P : 0 < dot u u). { assert (K := dot_self_ge u). destruct (Req_dec (dot u u) 0) as [Z|Z]; [apply dot_self_0 in Z; contradiction|lra]. }
  assert (L : 0 < len u) by (apply len_pos; lra). assert (LS := len_sqr u).
  assert (K : exists t, 0 <= t <= 1 /\ closest_on_line l x = Some (segment_at l t) /\ forall t', 0 <= t' <= 1 -> 0 <= (dot u u * t + dot u r) * (t' - t)).
  { unfold closest_on_line. fold u. destruct (Reqb (len u) 0) eqn:E0; [apply Reqb_iff in E0; lra|].
    set (fac := dot (vscale (1 / len u) u) (vsub x (la l))). cbn zeta.
    assert (F : fac * len u = - dot u r).
    { unfold fac, r. rewrite dot_scale_l. replace (dot u (vsub x (la l))) with (- dot u (vsub (la l) x)) by (clear; vring). field. lra. }
    destruct (Rltb fac 0) eqn:E1.
    - apply Rltb_iff in E1. exists 0. split; [lra|]. split; [f_equal; apply segment_start|]. intros t' Ht'.
      replace (dot u u * 0 + dot u r) with (- (fac * len u)) by lra. assert (0 < - (fac * len u)) by nra. apply Rmult_le_pos; lra.
    - apply Rltb_false in E1. destruct (Rltb (len u) fac) eqn:E2.
      + apply Rltb_iff in E2. exists 1. split; [lra|]. split; [f_equal; apply segment_end|]. intros t' Ht'.
        replace (dot u u * 1 + dot u r) with (- (len u * (fac - len u))) by lra. assert (0 < len u * (fac - len u)) by (apply Rmult_lt_0_compat; lra). nra.
      + apply Rltb_false in E2. exists (fac / len u).
        assert (T : fac / len u * len u = fac) by (field; lra).
        split; [split; apply (Rmult_le_reg_r (len u)); lra|]. split.
        * f_equal. rewrite segment_point. fold u. f_equal. clear - L. destruct u; unfold vscale; cbn. f_equal; field; lra.
        * intros t' _. rewrite <- LS. replace (len u * len u * (fac / len u) + dot u r) with 0; [lra|].
          replace (len u * len u * (fac / len u)) with (len u * (fac / len u * len u)) by ring. rewrite T. lra. }
  destruct K as (t & Ht & E & V). exists (segment_at l t). split; [exact E|].
  assert (M : forall z, on_segment l z -> dist (segment_at l t) x <= dist z x).
  { intros z (t' & Ht' & ->). change (vadd (vscale (1 - t') (la l)) (vscale t' (lb l))) with (segment_at l t').
    apply dist_le. assert (Q := quad_min r u vzero t 0 t' 0).
    replace (dot u vzero) with 0 in Q by (clear; vring). replace (dot vzero vzero) with 0 in Q by (clear; vring). replace (dot vzero r) with 0 in Q by (clear; vring).
    assert (Q1 := Q ltac:(replace (dot u u * t - 0 * 0 + dot u r) with (dot u u * t + dot u r) by ring; apply V, Ht') ltac:(lra)). cbn zeta in Q1.
    assert (R : forall y, vsub (segment_at l y) x = vadd r (vsub (vscale y u) (vscale 0 vzero))) by (intros y; unfold r, u; rewrite segment_point; clear; destruct (line_direction l); vring).
    rewrite !R. exact Q1. }
  split; [split; [apply on_segment_at, Ht|exact M]|].
  unfold distance_to_line, distance_sq_to_line. rewrite E. split; [reflexivity|]. split; [|exact M]. f_equal. unfold dist. rewrite len_sqr. reflexivity.
Qed.
Print Assumptions C45_closest_point_partial.
Example C45_closest_example : exists c, closest_on_line (mkLine (V3 0 0 0) (V3 2 0 0)) (V3 5 1 0) = Some c /\ nearest (on_segment (mkLine (V3 0 0 0) (V3 2 0 0))) (V3 5 1 0) c.
Proof.
  destruct (C45_closest_point_partial (mkLine (V3 0 0 0) (V3 2 0 0)) (V3 5 1 0)) as (c & A & B & _); [intros E; apply (f_equal vx) in E; cbn in E; lra|eauto].
Qed.
(** For a segment that is a single point the result is not a number, although its only point is the closest one. *)
Theorem C45_single_point_refuted : exists l x c, nearest (on_segment l) x c /\ closest_on_line l x = None.
Proof.
  exists (mkLine vzero vzero), (V3 1 0 0), vzero. split.
  - split.
    + exists 0. split; [lra|]. cbn [la lb]. vring.
    + intros z (t & _ & ->). right. f_equal. cbn [la lb]. vring.
  - unfold closest_on_line. destruct (Reqb _ 0) eqn:E; [reflexivity|]. apply Reqb_false in E. exfalso. apply E.
    unfold line_direction, len. cbn [la lb]. replace (dot (vsub vzero vzero) (vsub vzero vzero)) with 0 by (clear; vring). apply sqrt_0.
Qed.
Print Assumptions C45_single_point_refuted.

(** ** Two segments *)
Definition point_segment (l : line) : Prop := la l = lb l.
Lemma point_direction l : point_segment l -> line_direction l = vzero.
Proof. intros H. unfold line_direction. rewrite H. clear. vring. Qed.

Lemma shortest_params A B s t : 0 <= s <= 1 -> 0 <= t <= 1 ->
  let u := line_direction A in let v := line_direction B in let r := vsub (la A) (la B) in
  (forall s', 0 <= s' <= 1 -> 0 <= (dot u u * s - dot u v * t + dot u r) * (s' - s)) ->
  (forall t', 0 <= t' <= 1 -> 0 <= (dot v v * t - dot u v * s - dot v r) * (t' - t)) ->
  shortest (on_segment A) (on_segment B) (mkLine (vadd (vscale s u) (la A)) (vadd (vscale t v) (la B))).
Proof.
  intros Hs Ht u v r VS VT.
  assert (EA : forall y, vadd (vscale y u) (la A) = segment_at A y) by (intros y; rewrite segment_point; unfold u; clear; vring).
  assert (EB : forall y, vadd (vscale y v) (la B) = segment_at B y) by (intros y; rewrite segment_point; unfold v; clear; vring).
  split; [cbn; rewrite EA; apply on_segment_at, Hs|]. split; [cbn; rewrite EB; apply on_segment_at, Ht|]. cbn [la lb].
  intros x y (s' & Hs' & ->) (t' & Ht' & ->). change (vadd (vscale (1 - s') (la A)) (vscale s' (lb A))) with (segment_at A s').
  change (vadd (vscale (1 - t') (la B)) (vscale t' (lb B))) with (segment_at B t'). rewrite <- EA, <- EB.
  apply dist_le. assert (Q := quad_min r u v s t s' t' (VS s' Hs') (VT t' Ht')). cbn zeta in Q.
  assert (R : forall p q, vsub (vadd (vscale p u) (la A)) (vadd (vscale q v) (la B)) = vadd r (vsub (vscale p u) (vscale q v))) by (intros p q; unfold r; clear; destruct u, v; vring).
  rewrite !R. exact Q.
Qed.

(** ClosestSegmentBetweenLines returns a shortest connection of the two segments if each is longer than the tolerance (its squared
    length is above eps) or a single point.  For other segments see the two theorems that follow. *)
Theorem C45_closest_segment_partial eps A B : 0 < eps ->
  (eps < len_sq (vsub (lb A) (la A)) \/ la A = lb A) -> (eps < len_sq (vsub (lb B) (la B)) \/ la B = lb B) ->
  shortest (on_segment A) (on_segment B) (closest_between_lines eps A B).
Proof.
  intros He HA HB. unfold closest_between_lines. fold (line_direction A) (line_direction B) in *.
  assert (Z : len_sq vzero = 0) by (unfold len_sq; clear; vring).
  destruct HA as [HA|HA], HB as [HB|HB].
  - replace (Rleb (len_sq (line_direction A)) eps) with false by (symmetry; apply Rleb_false; lra). cbn [andb].
    assert (K := closest_params_spec eps A B He HA HB). destruct (closest_params eps A B) as (s, t). cbn zeta in K.
    destruct K as (S & T & VS & VT). apply shortest_params; assumption.
  - replace (Rleb (len_sq (line_direction A)) eps) with false by (symmetry; apply Rleb_false; lra). cbn [andb].
    assert (LB : len_sq (line_direction B) = 0) by (rewrite (point_direction B HB); exact Z).
    unfold closest_params. replace (Rleb (len_sq (line_direction A)) eps) with false by (symmetry; apply Rleb_false; lra). rewrite LB.
    replace (Rleb 0 eps) with true by (symmetry; apply Rleb_iff; lra).
    set (u := line_direction A) in *. set (r := vsub (la A) (la B)).
    assert (P := point_direction B HB). unfold len_sq in *.
    apply shortest_params; [apply saturate_range|lra| |]; rewrite P; cbn zeta; fold u r.
    + intros s' Hs'. assert (K := saturate_vi (dot u u) (dot u r) ltac:(lra) s' Hs'). cbn zeta in K. unfold len_sq in K.
      replace (dot u vzero) with 0 by (clear; vring). eapply Rle_trans; [exact K|]. right. ring.
    + intros t' _. right. clear. vring.
  - assert (P := point_direction A HA). assert (LA : len_sq (line_direction A) = 0) by (rewrite P; exact Z). rewrite LA. replace (Rleb 0 eps) with true by (symmetry; apply Rleb_iff; lra).
    replace (Rleb (len_sq (line_direction B)) eps) with false by (symmetry; apply Rleb_false; lra). cbn [andb].
    unfold closest_params. rewrite LA. replace (Rleb 0 eps) with true by (symmetry; apply Rleb_iff; lra).
    set (v := line_direction B) in *. set (r := vsub (la A) (la B)). unfold len_sq in *.
    apply shortest_params; [lra|apply saturate_range| |]; rewrite P; cbn zeta; fold v r.
    + intros s' _. right. clear. vring.
    + intros t' Ht'. assert (K := saturate_vi (dot v v) (- dot v r) ltac:(lra) t' Ht'). cbn zeta in K. rewrite Ropp_involutive in K.
      replace (dot vzero v) with 0 by (clear; vring). eapply Rle_trans; [exact K|]. right. ring.
  - assert (PA := point_direction A HA). assert (PB := point_direction B HB). rewrite PA, PB, Z.
    replace (Rleb 0 eps) with true by (symmetry; apply Rleb_iff; lra). cbn [andb].
    assert (S := shortest_params A B 0 0 ltac:(lra) ltac:(lra)). cbn zeta in S. rewrite PA, PB in S.
    assert (Q : mkLine (vadd (vscale 0 vzero) (la A)) (vadd (vscale 0 vzero) (la B)) = mkLine (la A) (la B)) by (clear; destruct A as [[] []], B as [[] []]; vunfold; cbn; f_equal; f_equal; ring).
    rewrite Q in S. apply S; intros; right; unfold dot, vzero; cbn [vx vy vz]; ring.
Qed.
Print Assumptions C45_closest_segment_partial.

(** For all segments: the ends of the result are on the two segments, and no connection is shorter by more than twice the square root
    of eps. *)
Theorem C45_ends_on_segments eps A B : 0 < eps ->
  let l := closest_between_lines eps A B in
  on_segment A (la l) /\ on_segment B (lb l) /\
  forall x y, on_segment A x -> on_segment B y -> dist (la l) (lb l) <= dist x y + 2 * sqrt eps.
Proof.
  intros He l.
  assert (Z : len_sq vzero = 0) by (unfold len_sq; clear; vring).
  set (short C := if Rleb (len_sq (line_direction C)) eps then mkLine (la C) (la C) else C).
  assert (SP : forall C, (eps < len_sq (vsub (lb (short C)) (la (short C))) \/ la (short C) = lb (short C))).
  { intros C. unfold short. destruct (Rleb _ eps) eqn:E; [right; reflexivity|left; apply Rleb_false in E; exact E]. }
  assert (SS : forall C x, on_segment (short C) x -> on_segment C x).
  { intros C x. unfold short. destruct (Rleb _ eps); [|auto]. intros (t & Ht & ->). exists 0. split; [lra|]. cbn [la lb]. clear. destruct C as [[] []]; cbn [la lb]; vring. }
  assert (SD : forall C x, on_segment C x -> exists x', on_segment (short C) x' /\ dist x x' <= sqrt eps).
  { intros C x Hx. unfold short. destruct (Rleb _ eps) eqn:E.
    - apply Rleb_iff in E. exists (la C). split; [exists 0; split; [lra|]; cbn [la lb]; clear; destruct C as [[] []]; cbn [la lb]; vring|].
      destruct Hx as (t & Ht & ->). unfold dist, len. apply sqrt_le_1; [apply dot_self_ge|lra|].
      replace (dot _ _) with (t * t * len_sq (line_direction C)).
      + assert (K : 0 <= len_sq (line_direction C)) by apply dot_self_ge. assert (TT : t * t <= 1) by nra.
        apply (Rmult_le_compat_r _ _ _ K) in TT. lra.
      + unfold len_sq, line_direction. clear. destruct C as [[] []]; cbn [la lb]; vring.
    - exists x. split; [exact Hx|]. unfold dist. replace (vsub x x) with vzero by (clear; vring). unfold len. replace (dot vzero vzero) with 0 by (clear; vring). rewrite sqrt_0. apply sqrt_pos. }
  assert (EQ : l = closest_between_lines eps (short A) (short B)).
  { unfold l, short, closest_between_lines.
    destruct (Rleb (len_sq (line_direction A)) eps) eqn:EA, (Rleb (len_sq (line_direction B)) eps) eqn:EB; cbn [andb la lb].
    - assert (D : forall p, line_direction (mkLine p p) = vzero) by (intros p; apply point_direction; reflexivity). rewrite !D, Z.
      replace (Rleb 0 eps) with true by (symmetry; apply Rleb_iff; lra). reflexivity.
    - assert (D : forall p, line_direction (mkLine p p) = vzero) by (intros p; apply point_direction; reflexivity). rewrite !D, Z, EB.
      replace (Rleb 0 eps) with true by (symmetry; apply Rleb_iff; lra). cbn [andb].
      unfold closest_params. cbn [la lb]. rewrite D, Z, EA. replace (Rleb 0 eps) with true by (symmetry; apply Rleb_iff; lra).
      f_equal. clear. destruct A as [[] []]; cbn [la lb]; vring.
    - assert (D : forall p, line_direction (mkLine p p) = vzero) by (intros p; apply point_direction; reflexivity). rewrite !D, Z, EA. cbn [andb].
      unfold closest_params. cbn [la lb]. rewrite D, Z, EA, EB. replace (Rleb 0 eps) with true by (symmetry; apply Rleb_iff; lra).
      f_equal. clear. destruct B as [[] []]; cbn [la lb]; vring.
    - rewrite EA. cbn [andb]. reflexivity. }
  assert (K := C45_closest_segment_partial eps (short A) (short B) He (SP A) (SP B)). rewrite <- EQ in K. destruct K as (KA & KB & KM).
  split; [apply SS, KA|]. split; [apply SS, KB|]. intros x y Hx Hy.
  destruct (SD A x Hx) as (x' & Hx' & Dx). destruct (SD B y Hy) as (y' & Hy' & Dy). specialize (KM x' y' Hx' Hy').
  assert (T1 := dist_triangle x' x y'). assert (T2 := dist_triangle x y y').
  rewrite (dist_sym x' x) in T1. lra.
Qed.
Print Assumptions C45_ends_on_segments.
Example C45_segment_example : shortest (on_segment (mkLine (V3 0 0 0) (V3 2 0 0))) (on_segment (mkLine (V3 1 (-1) 1) (V3 1 1 1)))
  (closest_between_lines (1/1000) (mkLine (V3 0 0 0) (V3 2 0 0)) (mkLine (V3 1 (-1) 1) (V3 1 1 1))).
Proof. apply C45_closest_segment_partial; [lra|left|left]; unfold len_sq; cbn [la lb]; vunfold; lra. Qed.

(** A segment whose squared length is not above eps counts as its first point: here the distance of two segments on the x axis comes
    out as 2, although it is 2 - eps. *)
Theorem C45_short_segment_refuted eps : 0 < eps <= 1 -> exists A B x y,
  on_segment A x /\ on_segment B y /\ dist x y < dist (la (closest_between_lines eps A B)) (lb (closest_between_lines eps A B)).
Proof.
  intros He. exists (mkLine (V3 0 0 0) (V3 eps 0 0)), (mkLine (V3 2 0 0) (V3 4 0 0)), (V3 eps 0 0), (V3 2 0 0).
  split; [exists 1; split; [lra|]; unfold vadd, vscale; cbn; f_equal; ring|]. split; [exists 0; split; [lra|]; unfold vadd, vscale; cbn; f_equal; ring|].
  unfold closest_between_lines, closest_params, len_sq. unfold line_direction; cbn [la lb].
  replace (dot (vsub (V3 eps 0 0) (V3 0 0 0)) (vsub (V3 eps 0 0) (V3 0 0 0))) with (eps * eps) by (vunfold; ring).
  replace (dot (vsub (V3 4 0 0) (V3 2 0 0)) (vsub (V3 4 0 0) (V3 2 0 0))) with 4 by (vunfold; ring).
  replace (Rleb (eps * eps) eps) with true by (symmetry; apply Rleb_iff; nra).
  replace (Rleb 4 eps) with false by (symmetry; apply Rleb_false; lra). cbn [andb la lb].
  replace (dot (vsub (V3 4 0 0) (V3 2 0 0)) (vsub (V3 0 0 0) (V3 2 0 0))) with (-4) by (vunfold; ring).
  replace (saturate (-4 / 4)) with 0 by (destruct (saturate_cases (-4/4)) as [(_ & E)|[(E & _)|(E & _)]]; [auto|lra|lra]).
  unfold dist, len. rewrite (sqrt_lem_1 _ (2 - eps)), (sqrt_lem_1 _ 2); vunfold; try lra; try ring; nra.
Qed.
Print Assumptions C45_short_segment_refuted.

(** ** Two rays *)

Lemma unit_coeff A B : unit (rdirection A) -> unit (rdirection B) -> forall s t, 
  let u := rdirection A in let v := rdirection B in let r := vsub (rorigin A) (rorigin B) in
  dot u u * s - dot u v * t + dot u r = 0 -> dot v v * t - dot u v * s - dot v r = 0 ->
  shortest (on_line A) (on_line B) (mkLine (ray_lerp A s) (ray_lerp B t)).
Proof.
  intros UA UB s t u v r E F. split; [exists s; reflexivity|]. split; [exists t; reflexivity|]. cbn [la lb].
  intros x y (s' & ->) (t' & ->). apply dist_le.
  assert (Q := quad_min r u v s t s' t'). rewrite E, F in Q. specialize (Q ltac:(lra) ltac:(lra)). cbn zeta in Q.
  assert (R : forall p q, vsub (vadd (rorigin A) (vscale p (rdirection A))) (vadd (rorigin B) (vscale q (rdirection B))) = vadd r (vsub (vscale p u) (vscale q v)))
    by (intros p q; unfold r, u, v; clear; destruct A as [[] []], B as [[] []]; cbn [rorigin rdirection]; vring).
  unfold ray_lerp. rewrite !R. exact Q.
Qed.

(** ClosestSegmentBetweenRays for normalized directions that are not parallel: the result is the shortest connection of the infinite
    lines through the rays.  It is the shortest connection of the rays if its ends are on the rays, which it does not ensure
    (C45_rays_refuted). *)
Theorem C45_rays_partial A B : unit (rdirection A) -> unit (rdirection B) -> cross (rdirection A) (rdirection B) <> vzero ->
  let l := closest_between_rays A B in
  shortest (on_line A) (on_line B) l /\
  (on_ray A (la l) -> on_ray B (lb l) -> shortest (on_ray A) (on_ray B) l).
Proof.
  intros UA UB N l.
  assert (K : shortest (on_line A) (on_line B) l).
  { unfold l, closest_between_rays. set (u := rdirection A). set (v := rdirection B). set (r := vsub (rorigin A) (rorigin B)).
    assert (G := lagrange u v). unfold unit in UA, UB. fold u in UA. fold v in UB. rewrite UA, UB in G.
    assert (D : 1 - dot u v * dot u v <> 0). { intros D. apply N. apply dot_self_0. fold u v. lra. }
    replace (Reqb (1 - dot u v * dot u v) 0) with false by (symmetry; apply Reqb_false; exact D).
    apply unit_coeff; [exact UA|exact UB| |]; cbn zeta; fold u v r; rewrite ?UA, ?UB; field; exact D. }
  split; [exact K|]. intros RA RB. split; [exact RA|]. split; [exact RB|]. intros x y (s & _ & ->) (t & _ & ->). apply K; [exists s|exists t]; reflexivity.
Qed.
Print Assumptions C45_rays_partial.
Example C45_rays_example : let A := mkRay vzero (V3 1 0 0) in let B := mkRay (V3 2 (-1) 1) (V3 0 1 0) in
  shortest (on_line A) (on_line B) (closest_between_rays A B).
Proof. cbn zeta. apply C45_rays_partial; cbn [rdirection]; [unfold unit; vunfold; ring|unfold unit; vunfold; ring|]. intros E; apply (f_equal vz) in E. vunfold. lra. Qed.

(** The ends can lie behind the origins of the rays, and for parallel rays the origins are returned although other points are nearer. *)
Theorem C45_rays_refuted : exists A B C D,
  unit (rdirection A) /\ unit (rdirection B) /\ unit (rdirection C) /\ unit (rdirection D) /\
  ~ on_ray A (la (closest_between_rays A B)) /\
  (let l := closest_between_rays C D in exists x y, on_ray C x /\ on_ray D y /\ dist x y < dist (la l) (lb l)).
Proof.
  exists (mkRay vzero (V3 1 0 0)), (mkRay (V3 (-1) 0 1) (V3 0 1 0)), (mkRay vzero (V3 1 0 0)), (mkRay (V3 2 1 0) (V3 1 0 0)).
  cbn [rdirection]. repeat (split; [unfold unit; vunfold; ring|]). split.
  - unfold closest_between_rays; cbn [rorigin rdirection].
    replace (dot (V3 1 0 0) (V3 0 1 0)) with 0 by (vunfold; ring). replace (1 - 0 * 0) with 1 by ring.
    replace (Reqb 1 0) with false by (symmetry; apply Reqb_false; lra). cbn [la].
    intros (t & Ht & E). apply (f_equal vx) in E. unfold ray_lerp in E. vunfold. cbn [rorigin rdirection vx vy vz] in E. lra.
  - cbn zeta. unfold closest_between_rays; cbn [rorigin rdirection].
    replace (dot (V3 1 0 0) (V3 1 0 0)) with 1 by (vunfold; ring). replace (1 - 1 * 1) with 0 by ring.
    replace (Reqb 0 0) with true by (symmetry; apply Reqb_iff; reflexivity). cbn [la lb].
    exists (V3 2 0 0), (V3 2 1 0). split; [exists 2; split; [lra|]; cbn [rorigin rdirection]; vunfold; apply vec3_ext; cbn [vx vy vz]; ring|]. split; [exists 0; split; [lra|]; cbn [rorigin rdirection]; vunfold; apply vec3_ext; cbn [vx vy vz]; ring|].
    unfold dist, len. apply sqrt_lt_1; vunfold; lra.
Qed.
Print Assumptions C45_rays_refuted.
