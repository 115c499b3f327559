(** Property C40: B-splines. *)
From Coq Require Import ZArith Reals List Bool Arith Lia Lra Psatz.
From Verif Require Import Model.Scalar Model.Vec Model.Spline Spec.SplineSpec Proofs.VecLemmas Proofs.SplineLemmas Proofs.SplineEval.
Import ListNotations.
Local Open Scope R_scope.

(** Whatever the history of a spline, its order is never negative and evaluation reads existing control points only. *)
Theorem C40_always_defined : forall os t, (0 <= sorder (spline_run spline_new os))%Z /\ exists p, evaluate (spline_run spline_new os) t = Some p.
Proof. exact always_defined_holds. Qed.
Print Assumptions C40_always_defined.

(** Every control point is the one given for it last, and the order the one asked for last, limited to the number of points at that time (but at least one if less than one was asked for). *)
Theorem C40_history : forall os i, nth_error (spoints (spline_run spline_new os)) i = latest (rev os) i /\ length (spoints (spline_run spline_new os)) = added (rev os) /\
  sorder (spline_run spline_new os) = asked_order (rev os).
Proof. exact history_holds. Qed.
Print Assumptions C40_history.

(** The value is a combination of the control points with non-negative weights, whose sum is never above one, and is one from the first knot up to the order-th knot from the end. *)
Theorem C40_convex_combination : forall s t, spoints s <> [] -> sorted_knots (spoints s) -> (0 <= sorder s)%Z ->
  exists ws, length ws = length (spoints s) /\ Forall (fun w => 0 <= w) ws /\ fold_right Rplus 0 ws <= 1 /\
    (in_full_range s t -> fold_right Rplus 0 ws = 1) /\ evaluate s t = Some (weighted ws (map fst (spoints s))).
Proof. exact convex_combination_holds. Qed.
Print Assumptions C40_convex_combination.

(** There the curve stays in every half-space that contains the control points. *)
Theorem C40_convex_hull : forall s t n d v, spoints s <> [] -> sorted_knots (spoints s) -> (0 <= sorder s)%Z -> in_full_range s t ->
  (forall p x, In (p, x) (spoints s) -> dot n p <= d) -> evaluate s t = Some v -> dot n v <= d.
Proof. exact convex_hull_holds. Qed.
Print Assumptions C40_convex_hull.

(** A control point affects the curve only between the order-th knot before it and the knot after it. *)
Theorem C40_local : forall l1 p p' x l2 q t, sorted_knots (l1 ++ (p, x) :: l2) ->
  t < nth (length l1 - q) (map snd (l1 ++ (p, x) :: l2)) 0 \/ nth 0 (map snd l2) x <= t ->
  evaluate (mkSpline (l1 ++ (p, x) :: l2) (Z.of_nat q)) t = evaluate (mkSpline (l1 ++ (p', x) :: l2) (Z.of_nat q)) t.
Proof. exact local_holds. Qed.
Print Assumptions C40_local.

(** Of order one the curve is the polyline through the control points. *)
Theorem C40_order_one_is_polyline : forall l i t, sorted_knots l -> (S i < length l)%nat ->
  nth i (map snd l) 0 <= t < nth (S i) (map snd l) 0 ->
  evaluate (mkSpline l 1) t = Some (lerp3 (nth i (map fst l) vzero) (nth (S i) (map fst l) vzero)
    ((t - nth i (map snd l) 0) / (nth (S i) (map snd l) 0 - nth i (map snd l) 0))).
Proof. exact order_one_is_polyline_holds. Qed.
Print Assumptions C40_order_one_is_polyline.

(** Before the first knot, and from the last knot on, the value is the origin: the curve never reaches its last control point. *)
Theorem C40_ends_refuted : forall s t, spoints s <> [] -> sorted_knots (spoints s) -> (0 <= sorder s)%Z ->
  t < nth 0 (map snd (spoints s)) 0 \/ nth (length (spoints s) - 1) (map snd (spoints s)) 0 <= t ->
  evaluate s t = Some vzero.
Proof. exact ends_refuted_holds. Qed.
Print Assumptions C40_ends_refuted.

(** Of order two or more the weights do not sum to one near the last knot: two equal control points give another point. *)
Theorem C40_last_spans_refuted :
  evaluate (spline_run spline_new [OpAdd (V3 1 0 0) 0; OpAdd (V3 1 0 0) 1; OpOrder 2]) (1 / 2) = Some (V3 (3 / 4) 0 0).
Proof. exact last_spans_refuted_holds. Qed.
Print Assumptions C40_last_spans_refuted.

(** Setting the order before adding points leaves order 0, whatever is added later. *)
Theorem C40_order_first_refuted : forall order adds, (1 <= order)%Z ->
  sorder (fold_left (fun s a => add_point s (fst a) (snd a)) adds (set_order spline_new order)) = 0%Z.
Proof. exact order_first_refuted_holds. Qed.
Print Assumptions C40_order_first_refuted.

(** A quadratic curve over four control points, as C40_convex_combination, C40_convex_hull and C40_local ask for. *)
Example C40_example : let s := spline_run spline_new [OpAdd (V3 0 0 0) 0; OpAdd (V3 1 2 0) 1; OpAdd (V3 3 2 0) 2; OpAdd (V3 4 0 0) 3; OpOrder 2] in
  spoints s <> [] /\ sorted_knots (spoints s) /\ sorder s = 2%Z /\ in_full_range s (3 / 2).
Proof. cbn zeta. split; [discriminate|]. split; [cbn; lra|]. split; [reflexivity|]. split; [change (0 <= 3 / 2)|change (3 / 2 < 2)]; lra. Qed.
(** A polyline value. *)
Example C40_polyline_example : evaluate (spline_run spline_new [OpAdd (V3 0 0 0) 0; OpAdd (V3 2 4 0) 2; OpAdd (V3 8 0 0) 3]) 1 = Some (V3 1 2 0).
Proof.
  change (spline_run _ _) with (mkSpline [(V3 0 0 0, 0); (V3 2 4 0, 2); (V3 8 0 0, 3)] 1).
  rewrite (C40_order_one_is_polyline _ 0) by (cbn; lra || lia). f_equal. apply vec3_ext; cbn; lra.
Qed.
(** A point that is moved, and an order asked for before the last point is added. *)
Example C40_history_example : latest (rev [OpAdd vzero 0; OpAdd (V3 1 0 0) 1; OpAssign 0 (V3 0 2 0) 0; OpOrder 5; OpAdd vzero 2]) 0 = Some (V3 0 2 0, 0) /\
  asked_order (rev [OpAdd vzero 0; OpAdd (V3 1 0 0) 1; OpAssign 0 (V3 0 2 0) 0; OpOrder 5; OpAdd vzero 2]) = 2%Z.
Proof. split; reflexivity. Qed.
