(** Spline::Evaluate: the proofs of C40. *)
From Coq Require Import ZArith Reals List Bool Arith Lia Lra Psatz.
From Verif Require Import Model.Scalar Model.Vec Model.Spline Spec.SplineSpec Proofs.VecLemmas Proofs.SplineLemmas.
Import ListNotations.
Local Open Scope R_scope.


(** Whatever the history of a spline, its order is never negative and evaluation reads existing control points only. *)
Lemma always_defined_holds : forall os t, (0 <= sorder (spline_run spline_new os))%Z /\ exists p, evaluate (spline_run spline_new os) t = Some p.
Proof.
  intros os t. split.
  - unfold spline_run. assert (H : (0 <= sorder spline_new)%Z) by (cbn; lia). revert H. generalize spline_new. induction os as [|o os IH]; intros s H; cbn [fold_left]; [exact H|].
    apply IH. destruct o; cbn; try exact H. destruct (order <? 1)%Z eqn:E; [lia|]. destruct (_ <? order)%Z; lia.
  - generalize (spline_run spline_new os). intros s. destruct (spoints s) eqn:E.
    + exists vzero. unfold evaluate. rewrite E. reflexivity.
    + eexists. apply evaluate_eq. congruence.
Qed.

(** The value is a combination of the control points with non-negative weights, whose sum is never above one, and is one from the first knot up to the order-th knot from the end. *)
Lemma weights_nonneg s t : spoints s <> [] -> sorted_knots (spoints s) -> forall j m, Forall (fun w => 0 <= w) (weights (spoints s) (Z.to_nat (sorder s)) t j m).
Proof.
  intros N S j m. apply Forall_forall. intros w H. unfold weights in H. apply in_map_iff in H. destruct H as (k & <- & _).
  apply B_support. apply knot_mono; assumption.
Qed.
Lemma range_sum s t : spoints s <> [] -> sorted_knots (spoints s) -> (0 <= sorder s)%Z -> in_full_range s t ->
  fold_right Rplus 0 (weights (spoints s) (Z.to_nat (sorder s)) t (- sorder s) (length (spoints s))) = 1.
Proof.
  intros N S O [H1 H2]. rewrite weights_sum. apply bsum_1; [apply knot_mono; assumption|].
  rewrite Z2Nat.id by exact O. rewrite (knot_low _ (- sorder s + sorder s)) by (try exact N; lia). split; [exact H1|].
  set (n := length (spoints s)) in *. assert (n <> 0)%nat by (unfold n; destruct (spoints s); [congruence|cbn; lia]).
  destruct (Z_le_dec (sorder s) (Z.of_nat n)) as [L|L].
  - destruct (Z.eq_dec (sorder s) 0) as [E|E].
    + rewrite E in *. replace (Z.of_nat n + - 0)%Z with (Z.of_nat n) by lia. replace (- 0 + Z.of_nat n)%Z with (Z.of_nat n) by lia.
      rewrite knot_high by (try exact N; lia). cbn [Z.to_nat] in H2. replace (Nat.min (n - 0) (n - 1)) with (n - 1)%nat in H2 by lia. exact H2.
    + replace (- sorder s + Z.of_nat n)%Z with (Z.of_nat (n - Z.to_nat (sorder s))) by lia. rewrite knot_inside by lia.
      replace (Nat.min (n - Z.to_nat (sorder s)) (n - 1)) with (n - Z.to_nat (sorder s))%nat in H2 by lia. exact H2.
  - rewrite knot_low by (try exact N; lia). replace (Nat.min (n - Z.to_nat (sorder s)) (n - 1)) with 0%nat in H2 by lia. exact H2.
Qed.
Lemma convex_combination_holds : forall s t, spoints s <> [] -> sorted_knots (spoints s) -> (0 <= sorder s)%Z ->
  exists ws, length ws = length (spoints s) /\ Forall (fun w => 0 <= w) ws /\ fold_right Rplus 0 ws <= 1 /\
    (in_full_range s t -> fold_right Rplus 0 ws = 1) /\ evaluate s t = Some (weighted ws (map fst (spoints s))).
Proof.
  intros s t N S O. eexists. split; [|split; [|split; [|split]]].
  5: apply evaluate_eq; exact N.
  - apply weights_length.
  - apply weights_nonneg; assumption.
  - rewrite weights_sum. apply bsum_le_1. apply knot_mono; assumption.
  - intros H. apply range_sum; assumption.
Qed.
(** There the curve stays in every half-space that contains the control points. *)
Lemma convex_hull_holds : forall s t n d v, spoints s <> [] -> sorted_knots (spoints s) -> (0 <= sorder s)%Z -> in_full_range s t ->
  (forall p x, In (p, x) (spoints s) -> dot n p <= d) -> evaluate s t = Some v -> dot n v <= d.
Proof.
  intros s t n d v N S O H Q E. rewrite evaluate_eq in E by exact N. injection E as <-.
  replace d with (d * 1) by ring. rewrite <- (range_sum s t N S O H). apply weighted_dot.
  - rewrite weights_length, map_length. reflexivity.
  - apply weights_nonneg; assumption.
  - apply Forall_forall. intros p P. apply in_map_iff in P. destruct P as ([p' x] & <- & P). apply (Q p' x P).
Qed.

(** A control point affects the curve only between the order-th knot before it and the knot after it. *)
Lemma knot_point l1 l2 p p' x i : knot (l1 ++ (p, x) :: l2) i = knot (l1 ++ (p', x) :: l2) i.
Proof.
  rewrite !knot_nth by (destruct l1; discriminate). rewrite !app_length. cbn [length]. rewrite !map_app. reflexivity.
Qed.
Lemma B_ext X Y : (forall i, X i = Y i) -> forall q i t, B X q i t = B Y q i t.
Proof. intros H. induction q as [|q IH]; intros i t; cbn [B]; rewrite !H; [reflexivity|]. rewrite !IH. reflexivity. Qed.
Lemma seq_by m : forall a b, map (fun k => (a + k)%nat) (seq b m) = seq (a + b) m.
Proof. induction m as [|m IH]; intros a b; cbn [seq map]; [reflexivity|]. f_equal. rewrite IH. f_equal. lia. Qed.
Lemma local_holds : forall l1 p p' x l2 q t, sorted_knots (l1 ++ (p, x) :: l2) ->
  t < nth (length l1 - q) (map snd (l1 ++ (p, x) :: l2)) 0 \/ nth 0 (map snd l2) x <= t ->
  evaluate (mkSpline (l1 ++ (p, x) :: l2) (Z.of_nat q)) t = evaluate (mkSpline (l1 ++ (p', x) :: l2) (Z.of_nat q)) t.
Proof.
  intros l1 p p' x l2 q t S H. set (l := l1 ++ (p, x) :: l2). set (l' := l1 ++ (p', x) :: l2).
  assert (N : l <> []) by (unfold l; destruct l1; discriminate). assert (N' : l' <> []) by (unfold l'; destruct l1; discriminate).
  rewrite !evaluate_eq by assumption. cbn [spoints sorder]. f_equal. rewrite Nat2Z.id.
  assert (E : weights l' q t (- Z.of_nat q) (length l') = weights l q t (- Z.of_nat q) (length l)).
  { unfold l, l'. rewrite !app_length. cbn [length]. unfold weights. apply map_ext. intros k. apply B_ext. intros i. apply knot_point. }
  rewrite E. assert (Wi : B (knot l) q (- Z.of_nat q + Z.of_nat (length l1)) t = 0).
  { apply B_outside; [apply knot_mono; assumption|]. destruct H as [H|H].
    - left. destruct (le_dec q (length l1)) as [Q|Q].
      + replace (- Z.of_nat q + Z.of_nat (length l1))%Z with (Z.of_nat (length l1 - q)) by lia. rewrite knot_inside by (unfold l; rewrite app_length; cbn; lia). exact H.
      + rewrite knot_low by (try exact N; lia). replace (length l1 - q)%nat with 0%nat in H by lia. exact H.
    - right. replace (- Z.of_nat q + Z.of_nat (length l1) + Z.of_nat q + 1)%Z with (Z.of_nat (Datatypes.S (length l1))) by lia.
      destruct l2 as [|[p2 x2] l2].
      + rewrite knot_high by (try exact N; unfold l; rewrite app_length; cbn; lia). unfold l. rewrite app_length, map_app. cbn [length map].
        rewrite app_nth2 by (rewrite map_length; lia). rewrite map_length. replace (length l1 + 1 - 1 - length l1)%nat with 0%nat by lia. exact H.
      + rewrite knot_inside by (unfold l; rewrite app_length; cbn; lia). unfold l. rewrite map_app. rewrite app_nth2 by (rewrite map_length; lia).
        rewrite map_length. replace (Datatypes.S (length l1) - length l1)%nat with 1%nat by lia. exact H. }
  assert (L : weights l q t (- Z.of_nat q) (length l) = weights l q t (- Z.of_nat q) (length l1) ++ weights l q t (- Z.of_nat q + Z.of_nat (length l1)) (length l - length l1)).
  { unfold weights. replace (length l) with (length l1 + (length l - length l1))%nat at 1 by (unfold l; rewrite app_length; lia).
    rewrite seq_app, map_app. f_equal. cbn [Nat.add]. 
    replace (seq (length l1) (length l - length l1)) with (map (fun k => (length l1 + k)%nat) (seq 0 (length l - length l1))).
    - rewrite map_map. apply map_ext. intros k. f_equal. lia.
    - rewrite (seq_by _ (length l1) 0), Nat.add_0_r. reflexivity. }
  rewrite L. assert (Em : exists m, (length l - length l1 = Datatypes.S m)%nat) by (exists (length l2); unfold l; rewrite app_length; cbn; lia). destruct Em as [m Em].
  rewrite Em, weights_S, Wi. unfold l, l'. rewrite !map_app. cbn [map fst]. rewrite !weighted_app by (rewrite weights_length, map_length; reflexivity).
  cbn [weighted]. f_equal. f_equal. apply vec3_ext; cbn; ring.
Qed.

(** Of order one the curve is the polyline through the control points. *)
Lemma B1_weight X t i : mono X -> X i <= t < X (i + 1)%Z -> forall j,
  B X 1 j t = (if (j =? i)%Z then (t - X i) / (X (i + 1)%Z - X i) else 0) + (if (j + 1 =? i)%Z then (X (i + 1)%Z - t) / (X (i + 1)%Z - X i) else 0).
Proof.
  intros M H j. assert (P : forall k, B X 0 k t = if (k =? i)%Z then 1 else 0).
  { intros k. destruct (B_zero_iff X k t) as [[E Q]|[E Q]]; rewrite E; destruct (k =? i)%Z eqn:F; try reflexivity.
    - exfalso. apply Z.eqb_neq in F. destruct (Z_lt_le_dec k i) as [L|L].
      + assert (X (k + 1)%Z <= X i) by (apply M; lia). lra.
      + assert (X (i + 1)%Z <= X k) by (apply M; lia). lra.
    - apply Z.eqb_eq in F. subst k. contradiction. }
  rewrite B_step. unfold W, V. rewrite !P. replace (j + Z.of_nat 0 + 1)%Z with (j + 1)%Z by lia. replace (j + 1 + Z.of_nat 0 + 1)%Z with (j + 1 + 1)%Z by lia.
  assert (G : Rltb 0 (X (i + 1)%Z - X i) = true) by (apply Rltb_iff; lra).
  f_equal.
  - destruct (j =? i)%Z eqn:F; [apply Z.eqb_eq in F; subst j; rewrite G; apply Rmult_1_r|clear G; destruct (Rltb 0 _); [apply Rmult_0_r|reflexivity]].
  - destruct (j + 1 =? i)%Z eqn:F; [apply Z.eqb_eq in F; rewrite F; rewrite G; apply Rmult_1_r|clear G; destruct (Rltb 0 _); [apply Rmult_0_r|reflexivity]].
Qed.
Lemma order_one_is_polyline_holds : forall l i t, sorted_knots l -> (S i < length l)%nat ->
  nth i (map snd l) 0 <= t < nth (S i) (map snd l) 0 ->
  evaluate (mkSpline l 1) t = Some (lerp3 (nth i (map fst l) vzero) (nth (S i) (map fst l) vzero)
    ((t - nth i (map snd l) 0) / (nth (S i) (map snd l) 0 - nth i (map snd l) 0))).
Proof.
  intros l i t S I H. assert (N : l <> []) by (destruct l; [cbn in I; lia|discriminate]).
  rewrite evaluate_eq by exact N. cbn [spoints sorder]. change (Z.to_nat 1) with 1%nat. f_equal.
  assert (M := knot_mono l N S). rewrite <- (knot_inside l i), <- (knot_inside l (Datatypes.S i)) in * by lia.
  replace (Z.of_nat (Datatypes.S i)) with (Z.of_nat i + 1)%Z in * by lia.
  assert (Wt := B1_weight (knot l) t (Z.of_nat i) M H).
  rewrite (weighted_pair _ _ i).
  - rewrite !weights_nth by lia. rewrite !Wt. replace (- (1) + Z.of_nat i =? Z.of_nat i)%Z with false by lia. replace (- (1) + Z.of_nat i + 1 =? Z.of_nat i)%Z with true by lia.
    replace (- (1) + Z.of_nat (Datatypes.S i))%Z with (Z.of_nat i) by lia. rewrite Z.eqb_refl. replace (Z.of_nat i + 1 =? Z.of_nat i)%Z with false by lia.
    apply vec3_ext; cbn; field; lra.
  - rewrite weights_length, map_length. reflexivity.
  - rewrite weights_length. exact I.
  - intros k K1 K2. destruct (lt_dec k (length l)) as [K|K]; [|apply nth_overflow; rewrite weights_length; lia].
    rewrite weights_nth by exact K. rewrite Wt. replace (- (1) + Z.of_nat k =? Z.of_nat i)%Z with false by lia. replace (- (1) + Z.of_nat k + 1 =? Z.of_nat i)%Z with false by lia. ring.
Qed.

(** Before the first knot, and from the last knot on, the value is the origin: the curve never reaches its last control point. *)
Lemma ends_refuted_holds : forall s t, spoints s <> [] -> sorted_knots (spoints s) -> (0 <= sorder s)%Z ->
  t < nth 0 (map snd (spoints s)) 0 \/ nth (length (spoints s) - 1) (map snd (spoints s)) 0 <= t ->
  evaluate s t = Some vzero.
Proof.
  intros s t N S O H. rewrite evaluate_eq by exact N. f_equal. apply weighted_zero. apply Forall_forall. intros w I. unfold weights in I.
  apply in_map_iff in I. destruct I as (k & <- & _). assert (M := knot_mono _ N S). apply B_outside; [exact M|]. destruct H as [H|H].
  - left. rewrite <- (knot_low _ 0) in H by (try exact N; lia).
    set (j := (- sorder s + Z.of_nat k)%Z). destruct (Z_le_dec j 0) as [L|L]; [rewrite (knot_low _ j), <- (knot_low _ 0) by (try exact N; lia); exact H|].
    assert (knot (spoints s) 0 <= knot (spoints s) j) by (apply M; lia). lra.
  - right. rewrite <- (knot_high _ (Z.of_nat (length (spoints s)) - 1)) in H by (try exact N; lia).
    set (j := (- sorder s + Z.of_nat k + Z.of_nat (Z.to_nat (sorder s)) + 1)%Z). destruct (Z_le_dec j (Z.of_nat (length (spoints s)) - 1)) as [L|L].
    + assert (knot (spoints s) j <= knot (spoints s) (Z.of_nat (length (spoints s)) - 1)) by (apply M; lia). lra.
    + rewrite (knot_high _ j) by (try exact N; lia). rewrite (knot_high _ _ N) in H by lia. exact H.
Qed.

(** Of order two or more the weights do not sum to one near the last knot: two equal control points give another point. *)
Lemma last_spans_refuted_holds :
  evaluate (spline_run spline_new [OpAdd (V3 1 0 0) 0; OpAdd (V3 1 0 0) 1; OpOrder 2]) (1 / 2) = Some (V3 (3 / 4) 0 0).
Proof.
  set (l := [(V3 1 0 0, 0); (V3 1 0 0, 1)]). change (spline_run _ _) with (mkSpline l 2). rewrite evaluate_eq by discriminate. f_equal.
  change (weights _ _ _ _ _) with [B (knot l) 2 (-2) (1 / 2); B (knot l) 2 (-1) (1 / 2)]. cbn [B Z.add Z.of_nat Pos.of_succ_nat Pos.succ Z.pos_sub Pos.add Pos.pred_double].
  repeat match goal with |- context [knot l ?z] => let z' := eval vm_compute in (if (z <=? 0)%Z then 0 else 1)%Z in change (knot l z) with (IZR z') end.
  assert (T0 : Rltb 0 (0 - 0) = false) by (apply Rltb_false; lra). assert (T1 : Rltb 0 (1 - 0) = true) by (apply Rltb_iff; lra). assert (T2 : Rltb 0 (1 - 1) = false) by (apply Rltb_false; lra).
  assert (T3 : Rltb (1 / 2) 0 = false) by (apply Rltb_false; lra). assert (T4 : Rltb (1 / 2) 1 = true) by (apply Rltb_iff; lra).
  assert (T5 : Rleb 0 (1 / 2) = true) by (apply Rleb_iff; lra). assert (T6 : Rleb 1 (1 / 2) = false) by (apply Rleb_false; lra).
  rewrite T0, T1, ?T2, ?T3, ?T4, ?T5, ?T6. cbn [andb].
  apply vec3_ext; cbn; lra.
Qed.
(** Setting the order before adding points leaves order 0, whatever is added later. *)
Lemma order_first_refuted_holds : forall order adds, (1 <= order)%Z ->
  sorder (fold_left (fun s a => add_point s (fst a) (snd a)) adds (set_order spline_new order)) = 0%Z.
Proof.
  intros order adds H. assert (E : sorder (set_order spline_new order) = 0%Z) by (cbn; replace (order <? 1)%Z with false by lia; replace (0 <? order)%Z with true by lia; reflexivity).
  revert E. generalize (set_order spline_new order). induction adds as [|a adds IH]; intros s E; cbn [fold_left]; [exact E|]. apply IH. exact E.
Qed.

Lemma assign_length {A} (l : list A) : forall i a, length (assign l i a) = length l.
Proof. induction l; intros [|i] b; cbn; congruence. Qed.
Lemma assign_nth {A} (l : list A) : forall i j a, nth_error (assign l i a) j = if Nat.eqb j i && Nat.ltb j (length l) then Some a else nth_error l j.
Proof.
  induction l as [|b l IH]; intros i j a.
  - cbn [assign length]. destruct (Nat.ltb_spec j 0); [lia|]. now rewrite andb_false_r.
  - destruct i as [|i], j as [|j]; cbn [assign nth_error length]; try reflexivity. rewrite IH. reflexivity.
Qed.
Lemma history_holds : forall os i, nth_error (spoints (spline_run spline_new os)) i = latest (rev os) i /\ length (spoints (spline_run spline_new os)) = added (rev os) /\
  sorder (spline_run spline_new os) = asked_order (rev os).
Proof.
  induction os as [|o os IH] using rev_ind; intros i.
  - cbn. destruct i; repeat split.
  - rewrite rev_app_distr. unfold spline_run in *. rewrite fold_left_app. cbn [fold_left rev app]. set (s := fold_left spline_apply os spline_new) in *.
    destruct (IH i) as (N & L & O). destruct o as [n|p t|j p t]; cbn [spline_apply spoints sorder set_order add_point latest added asked_order].
    + split; [exact N|]. split; [exact L|]. rewrite L. destruct (Z.ltb_spec n 1); [lia|]. destruct (Z.ltb_spec (Z.of_nat (added (rev os))) n); lia.
    + rewrite app_length. cbn [length]. rewrite <- L. split; [|split; [lia|exact O]].
      destruct (Nat.eqb_spec i (length (spoints s))) as [->|E].
      * rewrite nth_error_app2 by lia. now rewrite Nat.sub_diag.
      * destruct (Nat.lt_ge_cases i (length (spoints s))).
        -- rewrite nth_error_app1 by lia. exact N.
        -- rewrite <- N. rewrite (proj2 (nth_error_None _ _)) by (rewrite app_length; cbn; lia). symmetry. apply nth_error_None. lia.
    + rewrite assign_length, assign_nth, <- L. split; [|split; [reflexivity|exact O]]. now rewrite N.
Qed.
