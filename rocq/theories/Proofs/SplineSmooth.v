(** B-splines of order q with distinct knots are q - 1 times continuously differentiable. *)
From Coq Require Import ZifyBool ZArith Reals List Bool Arith Lia Lra Psatz.
From Coquelicot Require Import Coquelicot.
From Verif Require Import Model.Scalar Model.Vec Model.Spline Spec.SplineSpec Proofs.VecLemmas Proofs.SplineLemmas Proofs.SplineEval.
Import ListNotations.
Local Open Scope R_scope.

(** ** Functions with a gap *)
Lemma cont_eps f x : continuity_pt f x -> forall eps, 0 < eps -> exists d, 0 < d /\ forall y, Rabs (y - x) < d -> Rabs (f y - f x) < eps.
Proof.
  intros C eps E. destruct (C eps E) as (d & D & H). exists d. split; [exact D|]. intros y Y.
  destruct (Req_dec y x) as [->|N]; [replace (f x - f x) with 0 by ring; now rewrite Rabs_R0|].
  apply (H y). split; [|exact Y]. split; [exact I|]. intros K. apply N. now symmetry.
Qed.
Lemma eps_cont f x : (forall eps, 0 < eps -> exists d, 0 < d /\ forall y, Rabs (y - x) < d -> Rabs (f y - f x) < eps) -> continuity_pt f x.
Proof. intros H eps E. destruct (H eps E) as (d & D & K). exists d. split; [exact D|]. intros y [_ Y]. exact (K y Y). Qed.
(** The derivative at a point where it is only known around the point *)
Lemma derivative_fills f g x d : 0 < d -> (forall y, Rabs (y - x) < d -> continuity_pt f y) -> (forall y, Rabs (y - x) < d -> y <> x -> derivable_pt_lim f y (g y)) ->
  continuity_pt g x -> derivable_pt_lim f x (g x).
Proof.
  intros D CF DF CG eps E. destruct (cont_eps g x CG eps E) as (e & PE & H). assert (PM : 0 < Rmin d e) by (apply Rmin_glb_lt; assumption).
  exists (mkposreal _ PM). intros h N L. cbn [pos] in L. pose proof (Rmin_l d e). pose proof (Rmin_r d e).
  destruct (MVT_gen f x (x + h) g) as (c & C & V).
  - intros y Y. apply is_derive_Reals, DF.
    + unfold Rmin, Rmax in Y. destruct (Rle_dec x (x + h)); apply Rabs_def1; apply Rabs_def2 in L; lra.
    + unfold Rmin, Rmax in Y. destruct (Rle_dec x (x + h)); lra.
  - intros y Y. apply CF. unfold Rmin, Rmax in Y. destruct (Rle_dec x (x + h)); apply Rabs_def1; apply Rabs_def2 in L; lra.
  - rewrite V. replace (g c * (x + h - x) / h) with (g c) by (field; exact N). apply H.
    unfold Rmin, Rmax in C. destruct (Rle_dec x (x + h)); apply Rabs_def1; apply Rabs_def2 in L; lra.
Qed.

Section Smooth.
Variable X : Z -> R.
Hypothesis M : mono X.
Variables a b : R.
(** Between a and b the knots are distinct and isolated. *)
Hypothesis simple : forall i, X i < X (i + 1)%Z \/ X (i + 1)%Z <= a \/ b <= X i.
Hypothesis isolated : forall t, exists d, 0 < d /\ forall i, X i = t \/ d <= Rabs (X i - t).
Notation BX := (B X).

Definition dx (q : nat) (i : Z) : R := X (i + Z.of_nat q + 1)%Z - X i.
Definition K (q : nat) (i : Z) (t : R) : R := BX q i t / dx q i.
Lemma dx_zero q i t : dx q i <= 0 -> BX q i t = 0.
Proof. intros H. apply B_outside; [exact M|]. unfold dx in H. lra. Qed.
Lemma B_rec q i t : BX (S q) i t = (t - X i) * K q i t + (X (i + Z.of_nat q + 2)%Z - t) * K q (i + 1) t.
Proof.
  rewrite B_step. unfold W, V, K, dx. replace (i + 1 + Z.of_nat q + 1)%Z with (i + Z.of_nat q + 2)%Z by lia. f_equal.
  - destruct (Rltb 0 _) eqn:E; [apply Rltb_iff in E; field; lra|apply Rltb_false in E]. rewrite dx_zero by (unfold dx; lra). unfold Rdiv. ring.
  - destruct (Rltb 0 _) eqn:E; [apply Rltb_iff in E; field; lra|apply Rltb_false in E]. rewrite dx_zero; [unfold Rdiv; ring|].
    unfold dx. replace (i + 1 + Z.of_nat q + 1)%Z with (i + Z.of_nat q + 2)%Z by lia. lra.
Qed.

(** The slope of a basis function *)
Definition slope (q : nat) (i : Z) (t : R) : R := match q with O => 0 | S q' => INR q * (K q' i t - K q' (i + 1) t) end.
Lemma slope_left q i t : dx (S q) i <> 0 -> (t - X i) * (K q i t - K q (i + 1) t) / dx (S q) i = K (S q) i t - K q (i + 1) t.
Proof.
  intros N. unfold K at 3. rewrite B_rec. replace (X (i + Z.of_nat q + 2)%Z) with (X i + dx (S q) i) by (unfold dx; replace (i + Z.of_nat (S q) + 1)%Z with (i + Z.of_nat q + 2)%Z by lia; ring).
  field. exact N.
Qed.
Lemma slope_right q i t : dx (S q) i <> 0 -> (X (i + Z.of_nat q + 2)%Z - t) * (K q i t - K q (i + 1) t) / dx (S q) i = K q i t - K (S q) i t.
Proof.
  intros N. unfold K at 4. rewrite B_rec. replace (X (i + Z.of_nat q + 2)%Z) with (X i + dx (S q) i) by (unfold dx; replace (i + Z.of_nat (S q) + 1)%Z with (i + Z.of_nat q + 2)%Z by lia; ring).
  field. exact N.
Qed.
Lemma K_zero q i t : BX q i t = 0 -> K q i t = 0.
Proof. intros E. unfold K. rewrite E. unfold Rdiv. ring. Qed.
Lemma slope_step q i t : (t - X i) * (slope q i t / dx q i) + (X (i + Z.of_nat q + 2)%Z - t) * (slope q (i + 1) t / dx q (i + 1)) = INR q * (K q i t - K q (i + 1) t).
Proof.
  destruct q as [|q]; [cbn [slope INR]; unfold Rdiv; ring|]. unfold slope. set (n := INR (S q)).
  assert (L : (t - X i) * (n * (K q i t - K q (i + 1) t) / dx (S q) i) = n * (K (S q) i t - K q (i + 1) t)).
  { destruct (Rle_dec (dx (S q) i) 0) as [Z|Z].
    - assert (E0 : X (i + Z.of_nat (S q) + 1)%Z <= X i) by (unfold dx in Z; lra).
      assert (E1 : forall j, (i <= j <= i + Z.of_nat q + 2)%Z -> X j = X i) by (intros j J; apply Rle_antisym; [apply Rle_trans with (2 := E0)|]; apply M; lia).
      rewrite (K_zero q i), (K_zero q (i + 1)), (K_zero (S q) i); [unfold Rdiv; ring| | |]; apply B_outside; try exact M; rewrite ?(E1 (i + 1)%Z), ?(E1 (i + Z.of_nat q + 1)%Z), ?(E1 (i + 1 + Z.of_nat q + 1)%Z), ?(E1 (i + Z.of_nat (S q) + 1)%Z) by lia; lra.
    - rewrite <- slope_left by lra. field. lra. }
  assert (Rr : (X (i + Z.of_nat (S q) + 2)%Z - t) * (n * (K q (i + 1) t - K q (i + 1 + 1) t) / dx (S q) (i + 1)) = n * (K q (i + 1) t - K (S q) (i + 1) t)).
  { destruct (Rle_dec (dx (S q) (i + 1)) 0) as [Z|Z].
    - assert (E0 : X (i + 1 + Z.of_nat (S q) + 1)%Z <= X (i + 1)%Z) by (unfold dx in Z; lra).
      assert (E1 : forall j, (i + 1 <= j <= i + Z.of_nat q + 3)%Z -> X j = X (i + 1)%Z) by (intros j J; apply Rle_antisym; [apply Rle_trans with (2 := E0)|]; apply M; lia).
      rewrite (K_zero q (i + 1)), (K_zero q (i + 1 + 1)), (K_zero (S q) (i + 1)); [unfold Rdiv; ring| | |]; apply B_outside; try exact M;
        rewrite ?(E1 (i + 1 + 1)%Z), ?(E1 (i + 1 + Z.of_nat q + 1)%Z), ?(E1 (i + 1 + 1 + Z.of_nat q + 1)%Z), ?(E1 (i + 1 + Z.of_nat (S q) + 1)%Z) by lia; lra.
    - rewrite <- slope_right by lra. replace (i + 1 + Z.of_nat q + 2)%Z with (i + Z.of_nat (S q) + 2)%Z by lia. field. lra. }
  rewrite L, Rr. ring.
Qed.

(** Away from knots *)
Lemma B_derive_free q : forall i t, (forall j, X j <> t) -> is_derive (BX q i) t (slope q i t).
Proof.
  induction q as [|q IH]; intros i t F.
  - cbn [slope]. destruct (isolated t) as (d & D & S). apply is_derive_Reals. intros eps E. exists (mkposreal d D). intros h N L. cbn [pos] in L.
    assert (Q : BX 0 i (t + h) = BX 0 i t).
    { cbn [B]. assert (A : forall j, Rleb (X j) (t + h) = Rleb (X j) t /\ Rltb (t + h) (X j) = Rltb t (X j)).
      { intros j. pose proof (F j) as Fj. destruct (S j) as [K|K]; [contradiction|]. apply Rabs_def2 in L.
        assert (C : X j < t /\ X j < t + h \/ t < X j /\ t + h < X j) by (unfold Rabs in K; destruct (Rcase_abs (X j - t)); lra).
        unfold Rleb, Rltb. destruct (Rle_dec (X j) (t + h)), (Rle_dec (X j) t), (Rlt_dec (t + h) (X j)), (Rlt_dec t (X j)); split; try reflexivity; lra. }
      destruct (A i) as [-> _]. destruct (A (i + 1)%Z) as [_ ->]. reflexivity. }
    rewrite Q. replace ((BX 0 i t - BX 0 i t) / h - 0) with 0 by (field; exact N). now rewrite Rabs_R0.
  - apply is_derive_ext with (fun t => (t - X i) * (BX q i t / dx q i) + (X (i + Z.of_nat q + 2)%Z - t) * (BX q (i + 1) t / dx q (i + 1))).
    + intros u. symmetry. apply B_rec.
    + assert (D1 := IH i t F). assert (D2 := IH (i + 1)%Z t F).
      auto_derive.
      * split; [now exists (slope q i t)|]. split; [now exists (slope q (i + 1) t)|exact I].
      * change (fun x => BX q i x) with (BX q i). change (fun x => BX q (i + 1) x) with (BX q (i + 1)). rewrite (is_derive_unique _ _ _ D1), (is_derive_unique _ _ _ D2).
        pose proof (slope_step q i t) as E. transitivity (INR q * (K q i t - K q (i + 1) t) + (K q i t - K q (i + 1) t)); [rewrite <- E; unfold K, Rdiv; ring|].
        change (slope (S q) i t) with (INR (S q) * (K q i t - K q (i + 1) t)). rewrite S_INR. ring.
Qed.

(** Continuity: order one is a difference of ramps *)
Definition ramp (i : Z) (t : R) : R := W X 0 i t + (if Rleb (X (i + 1)%Z) t then 1 else 0).
Lemma B_ramps i t : BX 1 i t = ramp i t - ramp (i + 1) t.
Proof.
  rewrite B_step. pose proof (W_V X 0 (i + 1) t M) as E. unfold ramp. assert (BX 0 (i + 1) t = (if Rleb (X (i + 1)%Z) t then 1 else 0) - (if Rleb (X (i + 1 + 1)%Z) t then 1 else 0)); [|lra].
  pose proof (M (i + 1)%Z (i + 1 + 1)%Z ltac:(lia)). cbn [B]. unfold Rleb, Rltb. destruct (Rle_dec (X (i + 1)%Z) t), (Rle_dec (X (i + 1 + 1)%Z) t), (Rlt_dec t (X (i + 1 + 1)%Z)); cbn [andb]; lra.
Qed.
Lemma clamp_cont (x w : R) t : continuity_pt (fun t => Rmax 0 (Rmin 1 ((t - x) * w))) t.
Proof.
  apply eps_cont. intros eps E. exists (eps / (Rabs w + 1)). pose proof (Rabs_pos w) as P. split; [apply Rdiv_lt_0_compat; lra|]. intros y Y.
  assert (L : Rabs (Rmax 0 (Rmin 1 ((y - x) * w)) - Rmax 0 (Rmin 1 ((t - x) * w))) <= Rabs ((y - t) * w)).
  { replace ((y - t) * w) with ((y - x) * w - (t - x) * w) by ring. set (u := (y - x) * w). set (v := (t - x) * w). unfold Rmax, Rmin, Rabs.
    destruct (Rle_dec 1 u), (Rle_dec 1 v); repeat destruct Rle_dec; repeat destruct Rcase_abs; lra. }
  apply Rle_lt_trans with (1 := L). rewrite Rabs_mult. apply Rle_lt_trans with (Rabs (y - t) * (Rabs w + 1)).
  - apply Rmult_le_compat_l; [apply Rabs_pos|lra].
  - apply Rmult_lt_reg_r with (/ (Rabs w + 1)); [apply Rinv_0_lt_compat; lra|]. rewrite Rmult_assoc, Rinv_r, Rmult_1_r by lra. exact Y.
Qed.
Lemma local_cont f g t : a < t < b -> (forall u, a < u < b -> f u = g u) -> continuity_pt g t -> continuity_pt f t.
Proof.
  intros T E C. apply eps_cont. intros eps P. destruct (cont_eps g t C eps P) as (d & D & H). exists (Rmin d (Rmin (t - a) (b - t))).
  split; [repeat apply Rmin_glb_lt; lra|]. intros y Y. pose proof (Rmin_l d (Rmin (t - a) (b - t))). pose proof (Rmin_r d (Rmin (t - a) (b - t))).
  pose proof (Rmin_l (t - a) (b - t)). pose proof (Rmin_r (t - a) (b - t)). rewrite !E; [apply H; lra|exact T|]. apply Rabs_def2 in Y. lra.
Qed.
Lemma ramp_cont i t : a < t < b -> continuity_pt (ramp i) t.
Proof.
  intros T. pose proof (M i (i + 1)%Z ltac:(lia)) as MI. destruct (Rlt_dec (X i) (X (i + 1)%Z)) as [L|L].
  - apply (local_cont _ (fun t => Rmax 0 (Rmin 1 ((t - X i) * / (X (i + 1)%Z - X i))))); [exact T| |apply clamp_cont].
    intros u U. unfold ramp, W. replace (i + Z.of_nat 0 + 1)%Z with (i + 1)%Z by lia. cbn [B]. unfold Rltb at 1. destruct (Rlt_dec 0 (X (i + 1)%Z - X i)) as [_|N]; [|lra].
    set (w := / (X (i + 1)%Z - X i)). assert (PW : 0 < w) by (apply Rinv_0_lt_compat; lra). assert (EW : (X (i + 1)%Z - X i) * w = 1) by (apply Rinv_r; lra). fold w. unfold Rdiv. fold w.
    unfold Rleb, Rltb, Rmax, Rmin. destruct (Rle_dec (X i) u), (Rlt_dec u (X (i + 1)%Z)), (Rle_dec (X (i + 1)%Z) u); cbn [andb]; try lra;
      destruct (Rle_dec 1 ((u - X i) * w)); try destruct (Rle_dec 0 ((u - X i) * w)); try destruct (Rle_dec 0 1); try lra; nra.
  - assert (E : X i = X (i + 1)%Z) by lra. destruct (simple i) as [S|[S|S]]; [lra| |].
    + apply (local_cont _ (fun _ => 1)); [exact T| |apply continuity_pt_const; intros x y; reflexivity]. intros u U. unfold ramp, W. replace (i + Z.of_nat 0 + 1)%Z with (i + 1)%Z by lia.
      rewrite <- E. unfold Rltb, Rleb. destruct (Rlt_dec 0 (X i - X i)); [lra|]. destruct (Rle_dec (X i) u); lra.
    + apply (local_cont _ (fun _ => 0)); [exact T| |apply continuity_pt_const; intros x y; reflexivity]. intros u U. unfold ramp, W. replace (i + Z.of_nat 0 + 1)%Z with (i + 1)%Z by lia.
      rewrite <- E. unfold Rltb, Rleb. destruct (Rlt_dec 0 (X i - X i)); [lra|]. destruct (Rle_dec (X i) u); lra.
Qed.
Lemma B_cont q : forall i t, a < t < b -> continuity_pt (BX (S q) i) t.
Proof.
  induction q as [|q IH]; intros i t T.
  - apply (local_cont _ (fun t => ramp i t - ramp (i + 1) t)); [exact T|intros; apply B_ramps|]. apply continuity_pt_minus; now apply ramp_cont.
  - apply (local_cont _ (fun t => (t - X i) * (BX (S q) i t * / dx (S q) i) + (X (i + Z.of_nat (S q) + 2)%Z - t) * (BX (S q) (i + 1) t * / dx (S q) (i + 1)))); [exact T|intros; apply B_rec|].
    apply continuity_pt_plus; apply continuity_pt_mult.
    + apply continuity_pt_minus; [apply derivable_continuous_pt, derivable_pt_id|apply continuity_pt_const; intros x y; reflexivity].
    + apply continuity_pt_mult; [now apply IH|apply continuity_pt_const; intros x y; reflexivity].
    + apply continuity_pt_minus; [apply continuity_pt_const; intros x y; reflexivity|apply derivable_continuous_pt, derivable_pt_id].
    + apply continuity_pt_mult; [now apply IH|apply continuity_pt_const; intros x y; reflexivity].
Qed.
Lemma K_cont q i t : a < t < b -> continuity_pt (K (S q) i) t.
Proof. intros T. apply continuity_pt_mult; [now apply B_cont|apply continuity_pt_const; intros x y; reflexivity]. Qed.
Lemma slope_cont q i t : a < t < b -> continuity_pt (slope (S (S q)) i) t.
Proof.
  intros T. apply continuity_pt_mult; [apply continuity_pt_const; intros x y; reflexivity|]. apply continuity_pt_minus; now apply K_cont.
Qed.
Lemma B_derive q i t : a < t < b -> derivable_pt_lim (BX (S (S q)) i) t (slope (S (S q)) i t).
Proof.
  intros T. destruct (isolated t) as (d & D & S). set (e := Rmin d (Rmin (t - a) (b - t))). assert (PE : 0 < e) by (repeat apply Rmin_glb_lt; lra).
  assert (E1 : e <= d) by apply Rmin_l. assert (E2 : e <= t - a) by (apply Rle_trans with (Rmin (t - a) (b - t)); [apply Rmin_r|apply Rmin_l]).
  assert (E3 : e <= b - t) by (apply Rle_trans with (Rmin (t - a) (b - t)); apply Rmin_r).
  apply (derivative_fills _ _ t e PE).
  - intros y Y. apply B_cont. apply Rabs_def2 in Y. lra.
  - intros y Y N. apply is_derive_Reals, B_derive_free. intros j J. destruct (S j) as [Q|Q]; [congruence|]. rewrite J in Q. lra.
  - now apply slope_cont.
Qed.

(** Times smooth *)
Lemma smooth_ext k f g : (forall t, f t = g t) -> times_smooth k a b f -> times_smooth k a b g.
Proof.
  revert f g. destruct k; intros f g E; cbn [times_smooth].
  - intros H t T. apply (local_cont _ f); [exact T|intros; now rewrite E|now apply H].
  - intros (f' & D & H). exists f'. split; [|exact H]. intros t T. apply is_derive_Reals. apply is_derive_ext with f; [exact E|]. apply is_derive_Reals. now apply D.
Qed.
Lemma smooth_combine k : forall f g c d, times_smooth k a b f -> times_smooth k a b g -> times_smooth k a b (fun t => c * f t + d * g t).
Proof.
  induction k as [|k IH]; intros f g c d F G; cbn [times_smooth] in *.
  - intros t T. apply continuity_pt_plus; (apply continuity_pt_mult; [apply continuity_pt_const; intros x y; reflexivity|auto]).
  - destruct F as (f' & DF & F), G as (g' & DG & G). exists (fun t => c * f' t + d * g' t). split; [|now apply IH]. intros t T.
    apply (derivable_pt_lim_plus (fun t => c * f t) (fun t => d * g t)).
    + apply (derivable_pt_lim_scal f c). now apply DF.
    + apply (derivable_pt_lim_scal g d). now apply DG.
Qed.
Lemma B_smooth q : forall i, times_smooth q a b (BX (S q) i).
Proof.
  induction q as [|q IH]; intros i; cbn [times_smooth].
  - intros t T. now apply B_cont.
  - exists (slope (S (S q)) i). split; [intros t T; now apply B_derive|].
    apply smooth_ext with (fun t => INR (S (S q)) / dx (S q) i * BX (S q) i t + (- INR (S (S q)) / dx (S q) (i + 1)) * BX (S q) (i + 1) t).
    + intros t. unfold slope, K, Rdiv. ring.
    + apply smooth_combine; apply IH.
Qed.
Lemma smooth_zero k : times_smooth k a b (fun _ => 0).
Proof.
  induction k as [|k IH]; cbn [times_smooth]; [intros; apply continuity_pt_const; intros x y; reflexivity|]. exists (fun _ => 0). split; [intros; apply derivable_pt_lim_const|exact IH].
Qed.
End Smooth.

(** ** The knots of a list *)
Lemma distinct_sorted l : distinct_knots l -> sorted_knots l.
Proof. induction l as [|p r IH]; cbn; [trivial|]. intros [H1 H2]. split; [destruct r; [trivial|lra]|now apply IH]. Qed.
Lemma distinct_nth : forall l i, distinct_knots l -> (S i < length l)%nat -> nth i (map snd l) 0 < nth (S i) (map snd l) 0.
Proof.
  induction l as [|p r IH]; intros i H I; [cbn in I; lia|]. destruct H as [H1 H2]. destruct i as [|i].
  - destruct r as [|p' r]; [cbn in I; lia|exact H1].
  - cbn [map nth]. apply IH; [exact H2|cbn in I; lia].
Qed.
Definition first_knot (l : list (vec3 * R)) : R := nth 0 (map snd l) 0.
Definition last_knot (l : list (vec3 * R)) : R := nth (length l - 1) (map snd l) 0.
Lemma knots_simple l : l <> [] -> distinct_knots l -> forall i, knot l i < knot l (i + 1) \/ knot l (i + 1) <= first_knot l \/ last_knot l <= knot l i.
Proof.
  intros N D i. rewrite !knot_nth by exact N. assert (L : (0 < length l)%nat) by (destruct l; [congruence|cbn; lia]). unfold idx, first_knot, last_knot.
  destruct (i <? 0)%Z eqn:E1.
  - right; left. destruct (i + 1 <? 0)%Z eqn:E2; [lra|]. replace (i + 1)%Z with 0%Z by lia. replace (Z.of_nat (length l) <=? 0)%Z with false by lia. cbn. lra.
  - destruct (Z.of_nat (length l) <=? i)%Z eqn:E2; [right; right; lra|]. replace (i + 1 <? 0)%Z with false by lia.
    destruct (Z.of_nat (length l) <=? i + 1)%Z eqn:E3; [right; right; replace (Z.to_nat i) with (length l - 1)%nat by lia; lra|].
    left. replace (Z.to_nat (i + 1)) with (S (Z.to_nat i)) by lia. apply distinct_nth; [exact D|lia].
Qed.
Lemma list_isolated (l : list R) t : exists d, 0 < d /\ forall x, In x l -> x = t \/ d <= Rabs (x - t).
Proof.
  induction l as [|y r IH]; [exists 1; split; [lra|intros x []]|]. destruct IH as (d & D & H). destruct (Req_dec y t) as [E|E].
  - exists d. split; [exact D|]. intros x [<-|I]; [now left|now apply H].
  - exists (Rmin d (Rabs (y - t))). split; [apply Rmin_glb_lt; [exact D|apply Rabs_pos_lt; lra]|]. intros x [<-|I]; [right; apply Rmin_r|].
    destruct (H x I) as [K|K]; [now left|right]. apply Rle_trans with (2 := K). apply Rmin_l.
Qed.
Lemma knots_isolated l t : l <> [] -> exists d, 0 < d /\ forall i, knot l i = t \/ d <= Rabs (knot l i - t).
Proof.
  intros N. destruct (list_isolated (map snd l) t) as (d & D & H). exists d. split; [exact D|]. intros i. apply H. rewrite knot_nth by exact N. apply nth_In.
  rewrite map_length. apply idx_lt. destruct l; [congruence|cbn; lia].
Qed.

Lemma coordinate_weighted c ws ps : coordinate c -> c (weighted ws ps) = fold_right Rplus 0 (map (fun x => fst x * c (snd x)) (combine ws ps)).
Proof. intros C. revert ps. induction ws as [|w ws IH]; intros [|p ps]; try (destruct C as [->|[->| ->]]; reflexivity). cbn [weighted combine map fold_right fst snd]. rewrite <- IH. destruct C as [->|[->| ->]]; reflexivity. Qed.
Lemma value_weighted s t : spoints s <> [] -> value (evaluate s t) = weighted (weights (spoints s) (Z.to_nat (sorder s)) t (- sorder s) (length (spoints s))) (map fst (spoints s)).
Proof. intros N. now rewrite evaluate_eq by exact N. Qed.

Lemma curve_smooth l q c : l <> [] -> distinct_knots l -> coordinate c ->
  times_smooth q (first_knot l) (last_knot l) (fun t => c (value (evaluate (mkSpline l (Z.of_nat (S q))) t))).
Proof.
  intros N D C. pose proof (knot_mono l N (distinct_sorted l D)) as M.
  apply smooth_ext with (fun t => fold_right Rplus 0 (map (fun x => fst x * c (snd x)) (combine (weights l (S q) t (- Z.of_nat (S q)) (length (map fst l))) (map fst l)))).
  - intros t. rewrite value_weighted by exact N. cbn [spoints sorder]. rewrite Nat2Z.id, map_length. symmetry. now apply coordinate_weighted.
  - generalize (- Z.of_nat (S q))%Z. generalize (map fst l). intros ps. induction ps as [|p ps IH]; intros j.
    + apply smooth_ext with (fun _ => 0); [intros; reflexivity|apply smooth_zero].
    + apply smooth_ext with (fun t => c p * B (knot l) (S q) j t + 1 * fold_right Rplus 0 (map (fun x => fst x * c (snd x)) (combine (weights l (S q) t (j + 1) (length ps)) ps))).
      * intros t. cbn [length]. rewrite weights_S. cbn [combine map fold_right fst snd]. ring.
      * apply smooth_combine; [|apply IH]. apply B_smooth; [exact M|now apply knots_simple|intros; now apply knots_isolated].
Qed.

(** ** Velocity *)
Fixpoint comb (w : Z -> R) (c : vec3 -> R) (j : Z) (ps : list vec3) : R := match ps with [] => 0 | p :: r => w j * c p + comb w c (j + 1) r end.
Lemma comb_value l q c t : l <> [] -> coordinate c -> c (value (evaluate (mkSpline l (Z.of_nat q)) t)) = comb (fun i => B (knot l) q i t) c (- Z.of_nat q) (map fst l).
Proof.
  intros N C. rewrite value_weighted by exact N. cbn [spoints sorder]. rewrite Nat2Z.id, coordinate_weighted by exact C. rewrite <- (map_length fst l).
  generalize (- Z.of_nat q)%Z. induction (map fst l) as [|p ps IH]; intros j; [reflexivity|]. cbn [length]. rewrite weights_S. cbn [combine map fold_right fst snd comb]. now rewrite IH.
Qed.
Lemma comb_derive (f f' : Z -> R -> R) c t : (forall i, derivable_pt_lim (f i) t (f' i t)) -> forall ps j, derivable_pt_lim (fun t => comb (fun i => f i t) c j ps) t (comb (fun i => f' i t) c j ps).
Proof.
  intros D. induction ps as [|p ps IH]; intros j; cbn [comb]; [apply derivable_pt_lim_const|].
  apply (derivable_pt_lim_plus (fun t => f j t * c p)); [|apply IH]. replace (f' j t * c p) with (f' j t * c p + f j t * 0) by ring.
  apply (derivable_pt_lim_mult (f j) (fun _ => c p)); [apply D|apply derivable_pt_lim_const].
Qed.
Lemma comb_rising (k : Z -> R) c : (forall i, 0 <= k i) -> forall ps p j, rising c (p :: ps) -> k (j + Z.of_nat (length (p :: ps)))%Z = 0 ->
  k j * c p <= comb (fun i => k i - k (i + 1)%Z) c j (p :: ps).
Proof.
  intros P. induction ps as [|p' ps IH]; intros p j H Z.
  - cbn [comb]. cbn [length] in Z. replace (j + Z.of_nat 1)%Z with (j + 1)%Z in Z by lia. rewrite Z. lra.
  - destruct H as [H1 H2]. specialize (IH p' (j + 1)%Z H2). cbn [comb]. cbn [comb] in IH. cbn [length] in *.
    replace (j + Z.of_nat (S (S (length ps))))%Z with (j + 1 + Z.of_nat (S (length ps)))%Z in Z by lia. specialize (IH Z). specialize (P (j + 1)%Z). nra.
Qed.
Lemma comb_scale s w c : forall ps j, comb (fun i => s * w i) c j ps = s * comb w c j ps.
Proof. induction ps as [|p ps IH]; intros j; cbn [comb]; [ring|]. rewrite IH. ring. Qed.

Lemma curve_rising l q c : l <> [] -> distinct_knots l -> coordinate c -> rising c (map fst l) -> let s := mkSpline l (Z.of_nat (S (S q))) in
  forall t u, first_knot l < t -> t <= u -> in_full_range s u -> c (value (evaluate s t)) <= c (value (evaluate s u)).
Proof.
  intros N D C RI s t u T TU [_ U]. unfold s in U. cbn [spoints sorder] in U. rewrite Nat2Z.id in U.
  pose proof (knot_mono l N (distinct_sorted l D)) as M. set (X := knot l) in *. assert (LP : (0 < length l)%nat) by (destruct l; [congruence|cbn; lia]).
  set (e := nth (Nat.min (length l - S (S q)) (length l - 1)) (map snd l) 0) in *.
  assert (EB : e <= last_knot l) by (unfold e, last_knot; apply sorted_nth; [now apply distinct_sorted|lia]).
  assert (EX : e <= X (Z.of_nat (length l) - Z.of_nat (S (S q)))%Z).
  { unfold X. rewrite knot_nth by exact N. unfold e. apply sorted_nth; [now apply distinct_sorted|]. split; [|now apply idx_lt]. unfold idx.
    destruct (Z.of_nat (length l) - Z.of_nat (S (S q)) <? 0)%Z eqn:E1; [apply Z.ltb_lt in E1; rewrite Nat.min_l by lia; lia|apply Z.ltb_ge in E1]. replace (Z.of_nat (length l) <=? Z.of_nat (length l) - Z.of_nat (S (S q)))%Z with false by lia. apply Nat.le_trans with (1 := Nat.le_min_l _ _). lia. }
  pose (f := fun t => comb (fun i => B X (S (S q)) i t) c (- Z.of_nat (S (S q))) (map fst l)).
  pose (f' := fun t => comb (fun i => slope X (S (S q)) i t) c (- Z.of_nat (S (S q))) (map fst l)).
  assert (DF : forall y, first_knot l < y < last_knot l -> derivable_pt_lim f y (f' y)).
  { intros y Y. apply (comb_derive (fun i => B X (S (S q)) i) (fun i => slope X (S (S q)) i)). intros i. apply (B_derive X M (first_knot l) (last_knot l)); [now apply knots_simple|intros; now apply knots_isolated|exact Y]. }
  assert (PF : forall y, first_knot l < y -> y < e -> 0 <= f' y).
  { intros y Y1 Y2. unfold f'. cbn [slope]. rewrite comb_scale. apply Rmult_le_pos; [apply pos_INR|].
    assert (KP : forall i, 0 <= K X (S q) i y).
    { intros i. unfold K. destruct (B_support X M (S q) i y) as [NB SB]. destruct (Req_dec (B X (S q) i y) 0) as [->|Z]; [unfold Rdiv; lra|]. specialize (SB Z).
      apply Rmult_le_pos; [exact NB|]. apply Rlt_le, Rinv_0_lt_compat. unfold dx. lra. }
    destruct (map fst l) as [|p ps] eqn:EM; [destruct l; [congruence|discriminate]|].
    assert (LE : length (p :: ps) = length l) by (rewrite <- EM; apply map_length).
    assert (Z0 : K X (S q) (- Z.of_nat (S (S q))) y = 0).
    { apply K_zero. apply B_outside; [exact M|right]. unfold X. rewrite knot_nth by exact N. apply Rlt_le. apply Rle_lt_trans with (2 := Y1). unfold first_knot, idx.
      destruct (- Z.of_nat (S (S q)) + Z.of_nat (S q) + 1 <? 0)%Z eqn:E1; [lra|]. replace (- Z.of_nat (S (S q)) + Z.of_nat (S q) + 1)%Z with 0%Z by lia. replace (Z.of_nat (length l) <=? 0)%Z with false by lia. cbn. lra. }
    assert (ZN : K X (S q) (- Z.of_nat (S (S q)) + Z.of_nat (length (p :: ps))) y = 0).
    { apply K_zero. apply B_outside; [exact M|left]. rewrite LE. replace (- Z.of_nat (S (S q)) + Z.of_nat (length l))%Z with (Z.of_nat (length l) - Z.of_nat (S (S q)))%Z by lia. lra. }
    pose proof (comb_rising (fun i => K X (S q) i y) c KP ps p (- Z.of_nat (S (S q)))%Z RI ZN) as H. cbv beta in H. rewrite Z0 in H. lra. }
  unfold s. rewrite !comb_value by assumption. fold X. change (f t <= f u).
  destruct (Req_dec t u) as [->|NE]; [lra|]. destruct (MVT_gen f t u f') as (x & Xr & E).
  - intros y Y. rewrite Rmin_left, Rmax_right in Y by lra. apply is_derive_Reals, DF. lra.
  - intros y Y. rewrite Rmin_left, Rmax_right in Y by lra. apply derivable_continuous_pt. exists (f' y). apply DF. lra.
  - rewrite Rmin_left, Rmax_right in Xr by lra. assert (0 <= f' x) by (apply PF; lra). nra.
Qed.
