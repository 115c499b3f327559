(** Tubes around a curve *)
From Coq Require Import ZArith Reals List Bool Arith Lia Lra.
From Verif Require Import Model.Scalar Model.Vec Model.Aabb Model.Mesh Model.Interp Model.Bezier Model.Transforms Model.MeshGen Spec.MeshGenSpec
  Spec.CurveSpec Proofs.VecLemmas Proofs.MeshGenLoops Proofs.MeshGenResult Proofs.MeshGenInv Proofs.MeshGenTotal Proofs.MeshGenMain Proofs.MeshGenSurface
  Proofs.MeshGenIdeal Proofs.MeshGenWinding Proofs.MeshGenTexture.
From Verif Require Proofs.PlaneLemmas.
Import ListNotations.
Local Open Scope R_scope.

Lemma slanted_nonzero s : slanted s -> s <> vzero.
Proof. intros [H|H] E; apply H; rewrite E; reflexivity. Qed.
Definition first_normal (s : vec3) : vec3 := normalize (cross (normalize s) (cross (V3 0 1 0) (normalize s))).
Lemma unit_slanted s : slanted s -> let t := normalize s in dot t t = 1 /\ slanted t /\ s = vscale (len s) t.
Proof.
  intros H. pose proof (slanted_nonzero s H) as NZ. cbn zeta. assert (L : len s <> 0) by (apply Rgt_not_eq, len_pos; intros E; apply NZ; now apply dot_self_0).
  split; [now apply normalize_dot|]. rewrite normalize_scale by assumption. split.
  - destruct H as [H|H]; [left|right]; cbn; apply Rmult_integral_contrapositive_currified; try assumption; now apply Rinv_neq_0_compat.
  - destruct s as [a b c]. unfold vscale. cbn [vx vy vz]. f_equal; field; assumption.
Qed.
Lemma first_normal_facts s : slanted s -> let t := normalize s in let n := first_normal s in dot n n = 1 /\ dot n t = 0.
Proof.
  intros H. destruct (unit_slanted s H) as (U & S & _). cbn zeta. unfold first_normal. set (t := normalize s) in *.
  assert (E : cross t (cross (V3 0 1 0) t) = V3 (- (vy t * vx t)) (vx t * vx t + vz t * vz t) (- (vy t * vz t))) by (unfold cross; cbn [vx vy vz]; f_equal; ring).
  assert (NZ : cross t (cross (V3 0 1 0) t) <> vzero).
  { rewrite E. intros Z. apply (f_equal vy) in Z. cbn in Z. destruct S as [S|S]; [assert (0 < vx t * vx t) by nra|assert (0 < vz t * vz t) by nra]; nra. }
  split; [now apply normalize_dot|]. rewrite normalize_scale by assumption. rewrite E. unfold dot, vscale. cbn [vx vy vz]. ring.
Qed.
Lemma rotated s a : slanted s -> turned_around s (first_normal s) (rotate_around (first_normal s) (normalize s) a) a.
Proof.
  intros H. destruct (unit_slanted s H) as (U & S & E). destruct (first_normal_facts s H) as (N & P). set (t := normalize s) in *. set (n := first_normal s) in *.
  pose proof (sin2_cos2 a) as Q. unfold Rsqr in Q.
  assert (P' : dot t n = 0) by (rewrite <- P; unfold dot; ring).
  assert (RE : rotate_around n t a = vadd (vscale (cos a) n) (vscale (sin a) (cross t n))).
  { unfold rotate_around. rewrite P'. unfold vadd, vscale. cbn [vx vy vz]. f_equal; ring. }
  rewrite RE. assert (L : dot (cross t n) (cross t n) = 1). { replace (dot (cross t n) (cross t n)) with (dot t t * dot n n - dot t n * dot t n) by (vecs; ring). rewrite U, N, P'. ring. }
  assert (A0 : forall k, dot (cross t n) (vscale k t) = 0) by (intros; unfold dot, cross, vscale; cbn [vx vy vz]; ring).
  assert (A1 : dot n (cross t n) = 0) by (unfold dot, cross; cbn [vx vy vz]; ring).
  repeat split.
  - replace (dot _ _) with (cos a * cos a * dot n n + sin a * sin a * dot (cross t n) (cross t n) + 2 * cos a * sin a * dot n (cross t n)) by (unfold dot, cross, vadd, vscale; cbn [vx vy vz]; ring). rewrite N, L, A1. lra.
  - rewrite E at 1. replace (dot _ _) with (cos a * len s * dot n t + sin a * dot (cross t n) (vscale (len s) t)) by (unfold dot, cross, vadd, vscale; cbn [vx vy vz]; ring). rewrite P, A0. ring.
  - replace (dot _ _) with (cos a * dot n n + sin a * dot n (cross t n)) by (unfold dot, cross, vadd, vscale; cbn [vx vy vz]; ring). rewrite N, A1. ring.
  - rewrite E at 1. replace (dot _ _) with (len s * (cos a * dot n (cross t n) + sin a * dot (cross t n) (cross t n))) by (unfold dot, cross, vadd, vscale; cbn [vx vy vz]; ring). rewrite L, A1. ring.
Qed.

(** The step the generator uses *)
Definition wrapped_step (f : R -> vec3) (U u : nat) : vec3 := vsub (ring_at f U ((u + 1) mod (U - 1))) (ring_at f U u).
Lemma step_closed f U u : closed_curve f -> (3 <= U)%nat -> (u + 1 < U)%nat -> wrapped_step f U u = step_from f U u.
Proof.
  intros C HU Hu. unfold wrapped_step, step_from. f_equal. destruct (Nat.eq_dec (u + 1) (U - 1)) as [E|E].
  - rewrite E, Nat.mod_same by lia. unfold ring_at. rewrite last_ratio by lia. cbn [INR]. replace (0 / INR (U - 1)) with 0 by (unfold Rdiv; ring). exact C.
  - rewrite Nat.mod_small by lia. reflexivity.
Qed.
Lemma step_last f U : closed_curve f -> (3 <= U)%nat -> wrapped_step f U (U - 1) = step_from f U 0.
Proof.
  intros C HU. unfold wrapped_step, step_from. f_equal.
  - f_equal. replace (U - 1 + 1)%nat with (1 + 1 * (U - 1))%nat by lia. rewrite Nat.mod_add by lia. rewrite Nat.mod_small by lia. reflexivity.
  - unfold ring_at. rewrite last_ratio by lia. cbn [INR]. replace (0 / INR (U - 1)) with 0 by (unfold Rdiv; ring). symmetry. exact C.
Qed.
Lemma step_open f U u : (3 <= U)%nat -> (u + 2 < U)%nat -> wrapped_step f U u = step_from f U u.
Proof. intros HU Hu. unfold wrapped_step, step_from. rewrite Nat.mod_small by lia. reflexivity. Qed.

Lemma tube_nth f U V u v w : (u < U)%nat -> (v < V)%nat -> nth_error (tube_verts f U V) (u * V + v) = Some w -> w = f u v.
Proof.
  intros Hu Hv. unfold tube_verts. rewrite (flat_map_nth _ V) by (try lia; intros; rewrite map_length, seq_length; lia). rewrite map_seq_nth by lia.
  intros X. injection X as <-. f_equal; lia.
Qed.
Lemma curve_nth d f m m' u v w : let U := Nat.max 3 (cv_u d) in let V := Nat.max 3 (cv_v d) in valid (DCurve d) -> cv_curve d = Some f -> generate (DCurve d) m = Ok m' -> (u < U)%nat -> (v < V)%nat ->
  ring_vertex_at m m' V u v w -> w = curve_vertex d f U V u v.
Proof.
  cbn zeta. intros W C G Hu Hv X. unfold ring_vertex_at in X. rewrite (generate_result _ _ _ W G), new_vertices_result in X. cbn [pieces] in X. unfold curve_pieces in X. cbn zeta in X. rewrite C in X.
  cbn [flat_map pv] in X. rewrite app_nil_r in X. now apply tube_nth in X.
Qed.

Theorem tube_holds d f m m' u v w0 w : let U := Nat.max 3 (cv_u d) in let V := Nat.max 3 (cv_v d) in
  valid (DCurve d) -> cv_curve d = Some f -> generate (DCurve d) m = Ok m' -> closed_curve f \/ (u + 2 < U)%nat ->
  (u + 1 < U)%nat -> (v < V)%nat -> ring_vertex_at m m' V u 0 w0 -> ring_vertex_at m m' V u v w -> slanted (step_from f U u) ->
  0 < vy (normal w0) /\ vy (cross (step_from f U u) (normal w0)) = 0 /\
  turned_around (step_from f U u) (normal w0) (normal w) (2 * PI * INR v / INR (V - 1)).
Proof.
  cbn zeta. intros W C G CL Hu Hv X0 X SL. apply (curve_nth d f) in X0; try assumption; try lia. apply (curve_nth d f) in X; try assumption; try lia. subst w w0.
  assert (E : wrapped_step f (Nat.max 3 (cv_u d)) u = step_from f (Nat.max 3 (cv_u d)) u). { destruct CL; [apply step_closed|apply step_open]; try assumption; lia. }
  unfold curve_vertex. cbn zeta. cbn [normal]. unfold curve_normal. cbn zeta. unfold curve_tangent. change (vsub (curve_sample f ?U ?a) (curve_sample f ?U ?b)) with (vsub (ring_at f U a) (ring_at f U b)).
  fold (wrapped_step f (Nat.max 3 (cv_u d)) u). rewrite E. set (s := step_from _ _ _) in *.
  fold (first_normal s). replace (INR v / INR (Nat.max 3 (cv_v d) - 1) * pi_2) with (2 * PI * INR v / INR (Nat.max 3 (cv_v d) - 1)) by (unfold pi_2, Rdiv; ring).
  assert (Z : rotate_around (first_normal s) (normalize s) (INR 0 / INR (Nat.max 3 (cv_v d) - 1) * pi_2) = first_normal s).
  { cbn [INR]. replace (0 / INR (Nat.max 3 (cv_v d) - 1) * pi_2) with 0 by (unfold Rdiv; ring). unfold rotate_around. rewrite cos_0, sin_0. destruct (first_normal s) as [a b c]. unfold vadd, vscale. cbn [vx vy vz]. f_equal; ring. }
  rewrite Z. split; [|split; [|now apply rotated]].
  - destruct (unit_slanted s SL) as (U & S & _). unfold first_normal. set (t := normalize s) in *.
    destruct (PlaneLemmas.normalize_as_scale (cross t (cross (V3 0 1 0) t))) as (k & K & ->). unfold vscale, cross. cbn [vx vy vz].
    assert (0 < vx t * vx t + vz t * vz t) by (destruct S; nra). apply Rmult_lt_0_compat; [assumption|]. nra.
  - destruct (unit_slanted s SL) as (U & S & Es). unfold first_normal. set (t := normalize s) in *.
    destruct (PlaneLemmas.normalize_as_scale (cross t (cross (V3 0 1 0) t))) as (k & K & ->). rewrite Es. unfold vscale, cross. cbn [vx vy vz]. ring.
Qed.

(** The last ring of a closed curve is the first one. *)
Theorem seam_holds d f m m' v w0 w : let U := Nat.max 3 (cv_u d) in let V := Nat.max 3 (cv_v d) in
  valid (DCurve d) -> cv_curve d = Some f -> generate (DCurve d) m = Ok m' -> closed_curve f -> cv_modifier d = None -> (v < V)%nat ->
  ring_vertex_at m m' V 0 v w0 -> ring_vertex_at m m' V (U - 1) v w -> position w = position w0 /\ normal w = normal w0.
Proof.
  cbn zeta. intros W C G CL M Hv X0 X. apply (curve_nth d f) in X0; try assumption; try lia. apply (curve_nth d f) in X; try assumption; try lia. subst w w0.
  assert (N : forall y, curve_normal f (Nat.max 3 (cv_u d)) (Nat.max 3 (cv_u d) - 1) y = curve_normal f (Nat.max 3 (cv_u d)) 0 y).
  { intros y. unfold curve_normal, curve_tangent. change (vsub (curve_sample f ?U ?a) (curve_sample f ?U ?b)) with (vsub (ring_at f U a) (ring_at f U b)).
    fold (wrapped_step f (Nat.max 3 (cv_u d)) (Nat.max 3 (cv_u d) - 1)). fold (wrapped_step f (Nat.max 3 (cv_u d)) 0). rewrite step_last, (step_closed f _ 0) by (assumption || lia). reflexivity. }
  unfold curve_vertex. cbn zeta. cbn [normal position]. rewrite M, N. split; [|reflexivity]. f_equal. unfold curve_sample. rewrite last_ratio by lia. cbn [INR].
  replace (0 / INR (Nat.max 3 (cv_u d) - 1)) with 0 by (unfold Rdiv; ring). symmetry. exact CL.
Qed.
(** Where the curve goes straight up or down, the ring collapses. *)
Theorem vertical_holds d f m m' u v w : let U := Nat.max 3 (cv_u d) in let V := Nat.max 3 (cv_v d) in
  valid (DCurve d) -> cv_curve d = Some f -> generate (DCurve d) m = Ok m' -> closed_curve f \/ (u + 2 < U)%nat ->
  (u + 1 < U)%nat -> (v < V)%nat -> ring_vertex_at m m' V u v w -> ~ slanted (step_from f U u) ->
  normal w = vzero /\ position w = ring_at f U u.
Proof.
  cbn zeta. intros W C G CL Hu Hv X SL. apply (curve_nth d f) in X; try assumption; try lia. subst w.
  assert (E : wrapped_step f (Nat.max 3 (cv_u d)) u = step_from f (Nat.max 3 (cv_u d)) u). { destruct CL; [apply step_closed|apply step_open]; try assumption; lia. }
  assert (N : forall y, curve_normal f (Nat.max 3 (cv_u d)) u y = vzero).
  { intros y. unfold curve_normal. cbn zeta. unfold curve_tangent. change (vsub (curve_sample f ?U ?a) (curve_sample f ?U ?b)) with (vsub (ring_at f U a) (ring_at f U b)).
    fold (wrapped_step f (Nat.max 3 (cv_u d)) u). rewrite E. set (s := step_from _ _ _) in *. destruct (PlaneLemmas.normalize_as_scale s) as (k & K & ->).
    assert (SX : vx s = 0) by (destruct (Req_dec (vx s) 0); [assumption|contradict SL; now left]). assert (SZ : vz s = 0) by (destruct (Req_dec (vz s) 0); [assumption|contradict SL; now right]).
    replace (cross (vscale k s) (cross (V3 0 1 0) (vscale k s))) with vzero by (unfold cross, vscale, vzero; cbn [vx vy vz]; rewrite SX, SZ; f_equal; ring).
    rewrite normalize_zero. unfold rotate_around, vzero, vadd, vscale, cross, dot. cbn [vx vy vz]. f_equal; ring. }
  unfold curve_vertex. cbn zeta. cbn [normal position]. rewrite N. split; [reflexivity|]. change (curve_sample f ?U ?a) with (ring_at f U a).
  destruct (ring_at f _ u) as [a b c]. unfold vadd, vscale, vzero. cbn [vx vy vz]. f_equal; ring.
Qed.

(** Torus knots are closed. *)
Lemma turns_around n : sin (INR n * (1 * pi_2)) = 0 /\ cos (INR n * (1 * pi_2)) = 1.
Proof.
  replace (INR n * (1 * pi_2)) with (0 + 2 * INR n * PI) by (unfold pi_2; ring). rewrite sin_period, cos_period, sin_0, cos_0. split; reflexivity.
Qed.
Theorem knot_closed d : closed_curve (knot_curve d).
Proof.
  unfold closed_curve, knot_curve. cbn zeta. destruct (turns_around (kn_loops d)) as (S1 & C1). destruct (turns_around (kn_turns d)) as (S2 & C2). rewrite S1, C1, S2, C2.
  rewrite Rmult_0_l, !Rmult_0_r, sin_0, cos_0. reflexivity.
Qed.

(** ** Open curves: the last but one ring looks back to the start. *)
Definition bent (t : R) : vec3 := V3 (3 * t - 2 * (t * t)) (2 * (t * t) - t) (2 * (t * t) - t).
Definition bent_tube : curve_desc := mkCurve (Some bent) 1 3 3 false None.
Lemma bent_ok : valid (DCurve bent_tube) /\ defined (DCurve bent_tube) /\ (Z.of_nat (vertex_count (DCurve bent_tube)) < 2 ^ 32)%Z.
Proof.
  split; [intros n; cbn [bent_tube segment_counts cv_u cv_v In]; lia|]. split; [cbn; discriminate|]. vm_compute. reflexivity.
Qed.
Lemma bent_step : step_from bent 3 1 = V3 0 1 1.
Proof. unfold step_from, ring_at, bent, vsub. cbn [vx vy vz Nat.add Nat.sub INR]. f_equal; field. Qed.
Theorem open_holds : exists d f, valid (DCurve d) /\ cv_curve d = Some f /\ forall m, exists m' u w, generate (DCurve d) m = Ok m' /\
  (u + 1 < Nat.max 3 (cv_u d))%nat /\ ring_vertex_at m m' (Nat.max 3 (cv_v d)) u 0 w /\ slanted (step_from f (Nat.max 3 (cv_u d)) u) /\ dot (normal w) (step_from f (Nat.max 3 (cv_u d)) u) <> 0.
Proof.
  destruct bent_ok as (W & D & L). exists bent_tube, bent. split; [exact W|]. split; [reflexivity|]. intros m. destruct (succeeds_holds _ m W D L) as [m' G].
  exists m', 1%nat, (curve_vertex bent_tube bent 3 3 1 0). split; [exact G|]. change (Nat.max 3 (cv_u bent_tube)) with 3%nat. change (Nat.max 3 (cv_v bent_tube)) with 3%nat. split; [lia|].
  split; [|rewrite bent_step; split; [right; cbn; lra|]].
  - unfold ring_vertex_at. rewrite (generate_result _ _ _ W G), new_vertices_result. cbn [pieces]. reflexivity.
  - unfold curve_vertex. cbn zeta. cbn [normal]. unfold curve_normal. cbn zeta.
    assert (T : curve_tangent bent 3 1 = V3 (-1) 0 0).
    { unfold curve_tangent. replace (vsub _ _) with (V3 (-1) 0 0). - apply normalize_id. unfold dot. cbn. ring.
      - unfold curve_sample, bent, vsub. cbn [vx vy vz Nat.add Nat.sub Nat.modulo Nat.divmod fst snd INR]. f_equal; field. }
    rewrite T. replace (cross (V3 (-1) 0 0) (cross (V3 0 1 0) (V3 (-1) 0 0))) with (V3 0 1 0) by (unfold cross; cbn [vx vy vz]; f_equal; ring).
    rewrite normalize_id by (unfold dot; cbn; ring). cbn [Nat.sub INR]. replace (0 / (1 + 1) * pi_2) with 0 by field. unfold rotate_around. rewrite cos_0, sin_0.
    unfold dot, vadd, vscale, cross. cbn [vx vy vz]. lra.
Qed.
