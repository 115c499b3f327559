(** B-splines over a nondecreasing knot function, and their use in Spline::Evaluate. *)
From Coq Require Import ZArith Reals List Bool Arith Lia Lra Psatz.
From Verif Require Import Model.Scalar Model.Vec Model.Spline Spec.SplineSpec Proofs.VecLemmas.
Import ListNotations.
Local Open Scope R_scope.

Section Knots.
Variable X : Z -> R.

Definition mono : Prop := forall i j, (i <= j)%Z -> X i <= X j.

Fixpoint B (q : nat) (i : Z) (t : R) : R :=
  match q with
  | O => if Rleb (X i) t && Rltb t (X (i + 1)) then 1 else 0
  | S q' =>
    (if Rltb 0 (X (i + Z.of_nat q) - X i) then (t - X i) / (X (i + Z.of_nat q) - X i) * B q' i t else 0) +
    (if Rltb 0 (X (i + Z.of_nat q + 1) - X (i + 1)) then (X (i + Z.of_nat q + 1) - t) / (X (i + Z.of_nat q + 1) - X (i + 1)) * B q' (i + 1) t else 0)
  end.
Definition W (q : nat) (i : Z) (t : R) : R :=
  if Rltb 0 (X (i + Z.of_nat q + 1) - X i) then (t - X i) / (X (i + Z.of_nat q + 1) - X i) * B q i t else 0.
Definition V (q : nat) (i : Z) (t : R) : R :=
  if Rltb 0 (X (i + Z.of_nat q + 1) - X i) then (X (i + Z.of_nat q + 1) - t) / (X (i + Z.of_nat q + 1) - X i) * B q i t else 0.

Lemma B_step q i t : B (S q) i t = W q i t + V q (i + 1) t.
Proof.
  cbn [B]. unfold W, V. replace (i + Z.of_nat (S q))%Z with (i + Z.of_nat q + 1)%Z by lia.
  replace (i + Z.of_nat q + 1 + 1)%Z with (i + 1 + Z.of_nat q + 1)%Z by lia. reflexivity.
Qed.
Lemma B_zero_iff i t : (B 0 i t = 1 /\ X i <= t < X (i + 1)) \/ (B 0 i t = 0 /\ ~ (X i <= t < X (i + 1))).
Proof.
  cbn [B]. destruct (Rleb (X i) t) eqn:E1, (Rltb t (X (i + 1))) eqn:E2; cbn [andb];
    try apply Rleb_iff in E1; try apply Rltb_iff in E2; try apply Rleb_false in E1; try apply Rltb_false in E2; [left|right|right|right]; split; (reflexivity || lra).
Qed.

(** Non-negative, with support [X i, X (i+q+1)). *)
Lemma B_support : mono -> forall q i t, 0 <= B q i t /\ (B q i t <> 0 -> X i <= t < X (i + Z.of_nat q + 1)).
Proof.
  intros M. induction q as [|q IH]; intros i t.
  - destruct (B_zero_iff i t) as [[E H]|[E H]]; rewrite E; split; try lra; intros K; try congruence.
    replace (i + Z.of_nat 0 + 1)%Z with (i + 1)%Z by lia. exact H.
  - rewrite B_step. destruct (IH i t) as [N1 S1]. destruct (IH (i + 1)%Z t) as [N2 S2].
    assert (M1 : X (i + Z.of_nat q + 1) <= X (i + Z.of_nat (S q) + 1)) by (apply M; lia).
    assert (M2 : X i <= X (i + 1)) by (apply M; lia). unfold W, V in *.
    replace (i + Z.of_nat (S q) + 1)%Z with (i + 1 + Z.of_nat q + 1)%Z in * by lia.
    assert (P : forall a d b lo hi, 0 <= b -> (b <> 0 -> lo <= a <= hi) -> d = hi - lo ->
       0 <= (if Rltb 0 d then (a - lo) / d * b else 0) /\ 0 <= (if Rltb 0 d then (hi - a) / d * b else 0)).
    { intros a d b lo hi Nb Sb D. destruct (Rltb 0 d) eqn:E; [apply Rltb_iff in E|lra]. destruct (Req_dec b 0) as [->|Z]; [lra|]. specialize (Sb Z).
      split; apply Rmult_le_pos; try exact Nb; apply Rmult_le_pos; try lra; left; apply Rinv_0_lt_compat; exact E. }
    destruct (P t (X (i + Z.of_nat q + 1) - X i) (B q i t) (X i) (X (i + Z.of_nat q + 1)) N1 ltac:(intros Z; specialize (S1 Z); lra) eq_refl) as [P1 _].
    destruct (P t (X (i + 1 + Z.of_nat q + 1) - X (i + 1)) (B q (i + 1) t) (X (i + 1)) (X (i + 1 + Z.of_nat q + 1)) N2 ltac:(intros Z; specialize (S2 Z); lra) eq_refl) as [_ P2].
    split; [lra|]. intros Z. destruct (Req_dec (B q i t) 0) as [E1|E1]; [|specialize (S1 E1); lra].
    destruct (Req_dec (B q (i + 1) t) 0) as [E2|E2]; [|specialize (S2 E2); lra].
    exfalso. apply Z. rewrite E1, E2. destruct (Rltb 0 _), (Rltb 0 _); lra.
Qed.
Lemma B_outside q i t : mono -> (t < X i \/ X (i + Z.of_nat q + 1) <= t) -> B q i t = 0.
Proof. intros M H. destruct (B_support M q i t) as [_ S]. destruct (Req_dec (B q i t) 0) as [E|E]; [exact E|]. specialize (S E). lra. Qed.
Lemma W_V q i t : mono -> W q i t + V q i t = B q i t.
Proof.
  intros M. unfold W, V. destruct (Rltb 0 _) eqn:E; [apply Rltb_iff in E; field; lra|apply Rltb_false in E].
  rewrite B_outside; [lra|exact M|lra].
Qed.
Lemma W_V_pos q i t : mono -> 0 <= W q i t /\ 0 <= V q i t.
Proof.
  intros M. destruct (B_support M q i t) as [N S]. unfold W, V. destruct (Rltb 0 _) eqn:E; [apply Rltb_iff in E|lra].
  destruct (Req_dec (B q i t) 0) as [->|Z]; [lra|]. specialize (S Z).
  split; apply Rmult_le_pos; try exact N; apply Rmult_le_pos; try lra; left; apply Rinv_0_lt_compat; exact E.
Qed.

(** Sum of the basis functions a, ..., a+m-1. *)
Fixpoint bsum (q : nat) (a : Z) (m : nat) (t : R) : R := match m with O => 0 | S m' => B q a t + bsum q (a + 1) m' t end.
Lemma bsum_last q m : forall a t, bsum q a (S m) t = bsum q a m t + B q (a + Z.of_nat m) t.
Proof.
  induction m as [|m IH]; intros a t.
  - cbn [bsum]. replace (a + Z.of_nat 0)%Z with a by lia. ring.
  - change (bsum q a (S (S m)) t) with (B q a t + bsum q (a + 1) (S m) t). rewrite IH. cbn [bsum].
    replace (a + 1 + Z.of_nat m)%Z with (a + Z.of_nat (S m))%Z by lia. ring.
Qed.
Lemma telescope q t : mono -> forall m a, bsum (S q) a (S m) t = W q a t + bsum q (a + 1) m t + V q (a + Z.of_nat m + 1) t.
Proof.
  intros M. induction m as [|m IH]; intros a.
  - cbn [bsum]. rewrite B_step. replace (a + Z.of_nat 0 + 1)%Z with (a + 1)%Z by lia. ring.
  - rewrite bsum_last, IH, B_step, bsum_last. rewrite <- (W_V q (a + 1 + Z.of_nat m) t M).
    replace (a + Z.of_nat (S m) + 1)%Z with (a + Z.of_nat m + 1 + 1)%Z by lia. replace (a + Z.of_nat (S m))%Z with (a + Z.of_nat m + 1)%Z by lia.
    replace (a + 1 + Z.of_nat m)%Z with (a + Z.of_nat m + 1)%Z by lia. ring.
Qed.
Lemma bsum_nonneg q t : mono -> forall m a, 0 <= bsum q a m t.
Proof. intros M. induction m as [|m IH]; intros a; cbn [bsum]; [lra|]. destruct (B_support M q a t) as [N _]. specialize (IH (a + 1)%Z). lra. Qed.
Lemma bsum_0 t : mono -> forall m a, (bsum 0 a m t = 1 /\ X a <= t < X (a + Z.of_nat m)) \/ (bsum 0 a m t = 0 /\ ~ (X a <= t < X (a + Z.of_nat m))).
Proof.
  intros M. induction m as [|m IH]; intros a; cbn [bsum].
  - right. replace (a + Z.of_nat 0)%Z with a by lia. lra.
  - assert (M1 : X (a + 1) <= X (a + Z.of_nat (S m))) by (apply M; lia). assert (M2 : X a <= X (a + 1)) by (apply M; lia).
    destruct (IH (a + 1)%Z) as [[E1 H1]|[E1 H1]]; replace (a + 1 + Z.of_nat m)%Z with (a + Z.of_nat (S m))%Z in H1 by lia;
    destruct (B_zero_iff a t) as [[E2 H2]|[E2 H2]]; rewrite E1, E2; [lra|left; lra|left; lra|right; lra].
Qed.
Lemma bsum_le_1 t : mono -> forall q m a, bsum q a m t <= 1.
Proof.
  intros M. induction q as [|q IH]; intros m a.
  - destruct (bsum_0 t M m a) as [[-> _]|[-> _]]; lra.
  - destruct m as [|m]; [cbn; lra|]. rewrite telescope by exact M. specialize (IH (S (S m)) a). rewrite bsum_last in IH. cbn [bsum] in IH.
    rewrite <- (W_V q a t M), <- (W_V q (a + Z.of_nat (S m)) t M) in IH. replace (a + Z.of_nat (S m))%Z with (a + Z.of_nat m + 1)%Z in IH by lia.
    destruct (W_V_pos q a t M), (W_V_pos q (a + Z.of_nat m + 1) t M). lra.
Qed.
Lemma bsum_1 t : mono -> forall q m a, X (a + Z.of_nat q) <= t < X (a + Z.of_nat m) -> bsum q a m t = 1.
Proof.
  intros M. induction q as [|q IH]; intros m a H.
  - replace (a + Z.of_nat 0)%Z with a in H by lia. destruct (bsum_0 t M m a) as [[E _]|[_ N]]; [exact E|contradiction].
  - destruct m as [|m].
    { assert (X (a + Z.of_nat 0) <= X (a + Z.of_nat (S q))) by (apply M; lia). lra. }
    rewrite telescope by exact M. rewrite IH.
    + unfold W, V. rewrite (B_outside q a), (B_outside q (a + Z.of_nat m + 1)).
      * destruct (Rltb 0 _), (Rltb 0 _); lra.
      * exact M.
      * left. replace (a + Z.of_nat m + 1)%Z with (a + Z.of_nat (S m))%Z by lia. lra.
      * exact M.
      * right. replace (a + Z.of_nat q + 1)%Z with (a + Z.of_nat (S q))%Z by lia. lra.
    + replace (a + 1 + Z.of_nat q)%Z with (a + Z.of_nat (S q))%Z by lia. replace (a + 1 + Z.of_nat m)%Z with (a + Z.of_nat (S m))%Z by lia. exact H.
Qed.
End Knots.

(** The clamped knots of a list of control points. *)
Definition knot (l : list (vec3 * R)) (i : Z) : R := match interval l i with Some x => x | None => 0 end.
Lemma idx_lt n i : (0 < n)%nat -> (idx n i < n)%nat.
Proof. intros H. unfold idx. destruct (i <? 0)%Z eqn:E1; [lia|]. destruct (Z.of_nat n <=? i)%Z eqn:E2; lia. Qed.
Lemma idx_mono n i j : (i <= j)%Z -> (idx n i <= idx n j)%nat.
Proof.
  intros H. unfold idx. destruct (i <? 0)%Z eqn:E1; [lia|]. replace (j <? 0)%Z with false by lia.
  destruct (Z.of_nat n <=? i)%Z eqn:E2; [replace (Z.of_nat n <=? j)%Z with true by lia; lia|]. destruct (Z.of_nat n <=? j)%Z; lia.
Qed.
Lemma interval_knot l i : l <> [] -> interval l i = Some (knot l i).
Proof.
  intros H. unfold knot, interval. assert (L : (0 < length l)%nat) by (destruct l; [congruence|cbn; lia]).
  destruct (nth_error l (idx (length l) i)) as [a|] eqn:E; [reflexivity|]. apply nth_error_None in E. assert (Q := idx_lt (length l) i L). lia.
Qed.
Lemma knot_nth l i : l <> [] -> knot l i = nth (idx (length l) i) (map snd l) 0.
Proof.
  intros H. unfold knot, interval. assert (L : (0 < length l)%nat) by (destruct l; [congruence|cbn; lia]).
  destruct (nth_error l (idx (length l) i)) as [a|] eqn:E.
  - cbn [option_map]. apply map_nth_error with (f := snd) in E. symmetry. apply nth_error_nth. exact E.
  - apply nth_error_None in E. assert (Q := idx_lt (length l) i L). lia.
Qed.
Lemma sorted_nth : forall l i j, sorted_knots l -> (i <= j < length l)%nat -> nth i (map snd l) 0 <= nth j (map snd l) 0.
Proof.
  assert (K : forall l a i, sorted_knots (a :: l) -> (i < length l)%nat -> snd a <= nth i (map snd l) 0).
  { induction l as [|b l IH]; intros a i H I; [cbn in I; lia|]. destruct H as [H1 H2]. destruct i as [|i]; [exact H1|].
    cbn [map nth]. apply Rle_trans with (1 := H1). apply IH; [exact H2|cbn in I; lia]. }
  induction l as [|a l IH]; intros i j H I; [cbn in I; lia|]. destruct i as [|i], j as [|j]; cbn [map nth]; try lra; try lia.
  - apply K; [exact H|cbn in I; lia].
  - apply IH; [exact (proj2 H)|cbn in I; lia].
Qed.
Lemma knot_mono l : l <> [] -> sorted_knots l -> mono (knot l).
Proof.
  intros N H i j I. rewrite !knot_nth by exact N. apply sorted_nth; [exact H|]. split; [apply idx_mono; exact I|].
  apply idx_lt. destruct l; [congruence|cbn; lia].
Qed.
Lemma basis_B l t : l <> [] -> forall q i, basis l q i t = Some (B (knot l) q i t).
Proof.
  intros N. induction q as [|q IH]; intros i; cbn [basis]; rewrite !(interval_knot l _ N); cbn [obind]; [reflexivity|].
  rewrite ?(interval_knot l _ N); cbn [obind]. rewrite !IH. cbn [option_map]. cbn [B].
  destruct (Rltb 0 _), (Rltb 0 _); reflexivity.
Qed.

(** Evaluate as a weighted sum. *)
Definition weights (l : list (vec3 * R)) (q : nat) (t : R) (j : Z) (m : nat) : list R := map (fun k => B (knot l) q (j + Z.of_nat k) t) (seq 0 m).
Lemma weights_S l q t j m : weights l q t j (S m) = B (knot l) q j t :: weights l q t (j + 1) m.
Proof.
  unfold weights. cbn [seq map]. f_equal; [f_equal; lia|]. rewrite <- seq_shift, map_map. apply map_ext. intros k. f_equal. lia.
Qed.
Lemma evaluate_weighted l q t : l <> [] -> forall rest j r, evaluate_from l q t rest j r = Some (vadd r (weighted (weights l q t j (length rest)) (map fst rest))).
Proof.
  intros N. induction rest as [|[p x] rest IH]; intros j r; cbn [evaluate_from].
  - f_equal. cbn. apply vec3_ext; cbn; ring.
  - rewrite basis_B by exact N. cbn [obind]. rewrite IH. cbn [length map fst]. rewrite weights_S. cbn [weighted]. f_equal.
    apply vec3_ext; cbn; ring.
Qed.
Lemma vadd_zero v : vadd vzero v = v.
Proof. apply vec3_ext; cbn; ring. Qed.
Lemma evaluate_eq s t : spoints s <> [] ->
  evaluate s t = Some (weighted (weights (spoints s) (Z.to_nat (sorder s)) t (- sorder s) (length (spoints s))) (map fst (spoints s))).
Proof. intros N. unfold evaluate. rewrite evaluate_weighted by exact N. rewrite vadd_zero. reflexivity. Qed.
Lemma weights_sum l q t : forall m j, fold_right Rplus 0 (weights l q t j m) = bsum (knot l) q j m t.
Proof. induction m as [|m IH]; intros j; [reflexivity|]. rewrite weights_S. cbn [fold_right bsum]. rewrite IH. reflexivity. Qed.
Lemma weights_length l q t j m : length (weights l q t j m) = m.
Proof. unfold weights. rewrite map_length, seq_length. reflexivity. Qed.
Lemma weights_nth l q t j m i : (i < m)%nat -> nth i (weights l q t j m) 0 = B (knot l) q (j + Z.of_nat i) t.
Proof.
  intros H. unfold weights. rewrite nth_indep with (d' := B (knot l) q (j + Z.of_nat 0) t) by (rewrite map_length, seq_length; exact H).
  rewrite (map_nth (fun k => B (knot l) q (j + Z.of_nat k) t)). rewrite seq_nth by exact H. reflexivity.
Qed.
Lemma weighted_zero : forall ws ps, Forall (fun w => w = 0) ws -> weighted ws ps = vzero.
Proof.
  induction ws as [|w ws IH]; intros [|p ps] H; try reflexivity. inversion H; subst. cbn [weighted]. rewrite IH by assumption. apply vec3_ext; cbn; ring.
Qed.
(** A sum with a single pair of weights. *)
Lemma weighted_pair : forall ws ps i, length ws = length ps -> (S i < length ws)%nat ->
  (forall k, k <> i -> k <> S i -> nth k ws 0 = 0) ->
  weighted ws ps = vadd (vscale (nth i ws 0) (nth i ps vzero)) (vscale (nth (S i) ws 0) (nth (S i) ps vzero)).
Proof.
  induction ws as [|w ws IH]; intros [|p ps] i L I H; cbn [length] in *; try lia. destruct i as [|i].
  - destruct ws as [|w1 ws], ps as [|p1 ps]; cbn [length] in *; try lia. cbn [weighted nth]. rewrite weighted_zero; [apply vec3_ext; cbn; ring|].
    apply Forall_forall. intros x X. apply In_nth with (d := 0) in X. destruct X as (k & K & <-). apply (H (S (S k))); lia.
  - cbn [weighted]. rewrite (IH ps i) by (try lia; intros k K1 K2; apply (H (S k)); lia). cbn [nth].
    assert (W0 := H 0%nat ltac:(lia) ltac:(lia)). cbn [nth] in W0. rewrite W0. apply vec3_ext; cbn; ring.
Qed.
(** A sum over a prefix and a suffix, for locality. *)
Lemma weighted_app : forall ws ps ws' ps', length ws = length ps -> weighted (ws ++ ws') (ps ++ ps') = vadd (weighted ws ps) (weighted ws' ps').
Proof.
  induction ws as [|w ws IH]; intros [|p ps] ws' ps' L; cbn [length] in L; try lia; cbn [app weighted]; [rewrite vadd_zero; reflexivity|].
  rewrite IH by lia. apply vec3_ext; cbn; ring.
Qed.
Lemma weighted_dot : forall ws ps n d, length ws = length ps -> Forall (fun w => 0 <= w) ws -> Forall (fun p => dot n p <= d) ps ->
  dot n (weighted ws ps) <= d * fold_right Rplus 0 ws.
Proof.
  induction ws as [|w ws IH]; intros [|p ps] n d L P Q; cbn [length] in L; try lia; cbn [weighted fold_right].
  - unfold dot; cbn; lra.
  - inversion P; inversion Q; subst. assert (I := IH ps n d ltac:(lia) ltac:(assumption) ltac:(assumption)).
    assert (w * dot n p <= w * d) by (apply Rmult_le_compat_l; assumption).
    replace (dot n (vadd (vscale w p) (weighted ws ps))) with (w * dot n p + dot n (weighted ws ps)) by (unfold dot; cbn; ring). lra.
Qed.

(** The knots at the ends. *)
Lemma knot_inside l i : (i < length l)%nat -> knot l (Z.of_nat i) = nth i (map snd l) 0.
Proof.
  intros H. rewrite knot_nth by (destruct l; [cbn in H; lia|congruence]). f_equal. unfold idx.
  replace (Z.of_nat i <? 0)%Z with false by lia. replace (Z.of_nat (length l) <=? Z.of_nat i)%Z with false by lia. lia.
Qed.
Lemma knot_low l i : l <> [] -> (i <= 0)%Z -> knot l i = nth 0 (map snd l) 0.
Proof.
  intros N H. rewrite knot_nth by exact N. f_equal. unfold idx. assert (length l <> 0%nat) by (destruct l; [congruence|cbn; lia]).
  destruct (i <? 0)%Z eqn:E; [reflexivity|]. replace (Z.of_nat (length l) <=? i)%Z with false by lia. lia.
Qed.
Lemma knot_high l i : l <> [] -> (Z.of_nat (length l) - 1 <= i)%Z -> knot l i = nth (length l - 1) (map snd l) 0.
Proof.
  intros N H. rewrite knot_nth by exact N. f_equal. unfold idx. assert (length l <> 0%nat) by (destruct l; [congruence|cbn; lia]).
  replace (i <? 0)%Z with false by lia. destruct (Z.of_nat (length l) <=? i)%Z eqn:E; lia.
Qed.
