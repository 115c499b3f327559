(** * C84: how smooth B-splines are, and that they follow rising control points *)
From Coq Require Import ZArith Reals List Bool Lia Lra.
From Verif Require Import Model.Scalar Model.Vec Model.Spline Spec.SplineSpec Proofs.VecLemmas Proofs.SplineSmooth Props.SplineProps.
Import ListNotations.
Local Open Scope R_scope.

(** With distinct knots a spline of order q + 1 is q times continuously differentiable between its first and its last knot. *)
Theorem C84_smooth : forall l q c f, l <> [] -> distinct_knots l -> coordinate c ->
  (forall t, evaluate (mkSpline l (Z.of_nat (S q))) t = Some (f t)) ->
  times_smooth q (nth 0 (map snd l) 0) (nth (length l - 1) (map snd l) 0) (fun t => c (f t)).
Proof.
  intros l q c f N D C F. apply smooth_ext with (2 := curve_smooth l q c N D C). intros t. cbv beta. rewrite F. reflexivity.
Qed.
Print Assumptions C84_smooth.

(** Of order two or more it never goes back along an axis on which its control points advance. *)
Theorem C84_rising : forall l q c t u v w, l <> [] -> distinct_knots l -> coordinate c -> rising c (map fst l) -> (2 <= q)%nat ->
  nth 0 (map snd l) 0 < t -> t <= u -> in_full_range (mkSpline l (Z.of_nat q)) u ->
  evaluate (mkSpline l (Z.of_nat q)) t = Some v -> evaluate (mkSpline l (Z.of_nat q)) u = Some w -> c v <= c w.
Proof.
  intros l q c t u v w N D C RI Q T TU U V W. destruct q as [|[|q]]; [lia|lia|].
  pose proof (curve_rising l q c N D C RI t u T TU U) as H. rewrite V, W in H. exact H.
Qed.
Print Assumptions C84_rising.

(** A spline of order one has kinks at its control points: it is continuous but not differentiable. *)
Theorem C84_order_one_kink_refuted : exists l f, distinct_knots l /\ (forall t, evaluate (mkSpline l 1) t = Some (f t)) /\
  nth 0 (map snd l) 0 < 1 < nth (length l - 1) (map snd l) 0 /\ forall d, ~ derivable_pt_lim (fun t => vx (f t)) 1 d.
Proof.
  set (l := [(V3 0 0 0, 0); (V3 1 0 0, 1); (V3 0 0 0, 2)]).
  assert (L : sorted_knots l) by (cbn; lra).
  assert (F : forall t, exists v, evaluate (mkSpline l 1) t = Some v).
  { intros t. destruct (C40_convex_combination (mkSpline l 1) t) as (ws & _ & _ & _ & _ & E); [discriminate|exact L|cbn; lia|]. eexists. exact E. }
  exists l, (fun t => match evaluate (mkSpline l 1) t with Some v => v | None => vzero end).
  split; [cbn; lra|]. split; [intros t; destruct (F t) as [v E]; now rewrite E|]. split; [cbn; lra|].
  assert (A : forall t, 0 <= t < 1 -> vx (match evaluate (mkSpline l 1) t with Some v => v | None => vzero end) = t).
  { intros t T. rewrite (C40_order_one_is_polyline l 0 t L) by (cbn; lia || lra). cbn. field. }
  assert (B : forall t, 1 <= t < 2 -> vx (match evaluate (mkSpline l 1) t with Some v => v | None => vzero end) = 2 - t).
  { intros t T. rewrite (C40_order_one_is_polyline l 1 t L) by (cbn; lia || lra). cbn. field. }
  intros d H. destruct (H (1 / 2)) as [[e EP] E]; [lra|]. cbn [pos] in E. set (h := Rmin (e / 2) (1 / 2)).
  assert (HP : 0 < h) by (unfold h; apply Rmin_glb_lt; lra). assert (H1 : h <= 1 / 2) by apply Rmin_r. assert (H2 : h <= e / 2) by apply Rmin_l.
  pose proof (E h ltac:(lra) ltac:(rewrite Rabs_right; lra)) as E1. pose proof (E (- h) ltac:(lra) ltac:(rewrite Rabs_left; lra)) as E2.
  rewrite (B (1 + h)), (B 1) in E1 by lra. rewrite (A (1 + - h)), (B 1) in E2 by lra.
  replace ((2 - (1 + h) - (2 - 1)) / h) with (-1) in E1 by (field; lra). replace ((1 + - h - (2 - 1)) / - h) with 1 in E2 by (field; lra).
  apply Rabs_def2 in E1. apply Rabs_def2 in E2. lra.
Qed.
Print Assumptions C84_order_one_kink_refuted.

(** A cubic curve over six control points that advance along the first axis. *)
Example C84_example : let l := [(V3 0 0 0, 0); (V3 1 2 0, 1); (V3 3 2 0, 2); (V3 4 0 0, 4); (V3 4 1 0, 5); (V3 7 3 0, 8)] in
  distinct_knots l /\ rising vx (map fst l) /\ coordinate vx /\ in_full_range (mkSpline l 3) (7 / 2) /\
  mkSpline l 3 = spline_run spline_new (map (fun a => OpAdd (fst a) (snd a)) l ++ [OpOrder 3]).
Proof.
  cbn zeta. split; [cbn; lra|]. split; [cbn; lra|]. split; [now left|]. split; [|reflexivity].
  split; [change (0 <= 7 / 2)|change (7 / 2 < 4)]; lra.
Qed.
