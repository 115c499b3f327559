(** B-splines in double precision follow the exact ones. *)
From Coq Require Import ZArith Reals List Bool Arith Lia Lra Psatz.
From Flocq Require Import Core IEEE754.BinarySingleNaN.
From Verif Require Import Model.Scalar Model.Vec Model.BoxFloat Model.PlaneFloat Model.Spline Model.BezierFloat Model.BSplineFloat.
From Verif Require Import Spec.FloatSpec Spec.SplineSpec Spec.UniformSplineFloatSpec Spec.BSplineFloatSpec.
From Verif Require Import Proofs.VecLemmas Proofs.PlaneFloatLemmas Proofs.SplineFloat Proofs.BoxRayFloatLemmas Proofs.ClipFloatLemmas Proofs.FrustumFloatLemmas Proofs.MeshFloatLemmas Proofs.SplineLemmas.
From Verif Require Import Proofs.UniformSplineEval Proofs.UniformSplineFloatLemmas Proofs.UniformSplineFloatEval Proofs.BSplineFloatLemmas.
Import ListNotations.
Local Open Scope R_scope.

Definition fknot (l : list (fvec * b64)) (i : Z) : b64 := match finterval l i with Some x => x | None => b64_0 end.
Lemma finterval_knot l i : l <> [] -> finterval l i = Some (fknot l i).
Proof.
  intros H. unfold fknot, finterval. assert (L : (0 < length l)%nat) by (destruct l; [congruence|cbn; lia]).
  destruct (nth_error l (idx (length l) i)) as [a|] eqn:E; [reflexivity|]. apply nth_error_None in E. assert (Q := idx_lt (length l) i L). lia.
Qed.
Lemma fknot_in l i : l <> [] -> In (fknot l i) (map snd l).
Proof.
  intros H. assert (K := finterval_knot l i H). unfold finterval in K. destruct (nth_error l (idx (length l) i)) as [a|] eqn:E; [|discriminate]. cbn [option_map] in K. injection K as K. rewrite <- K.
  apply in_map. apply nth_error_In with (1 := E).
Qed.
Lemma fknot_exact l i : l <> [] -> B2R (fknot l i) = knot (exact_points l) i.
Proof.
  intros H. assert (K := finterval_knot l i H). unfold finterval in K. destruct (nth_error l (idx (length l) i)) as [a|] eqn:E; [|discriminate]. cbn [option_map] in K. injection K as K. rewrite <- K.
  unfold knot, interval, exact_points. rewrite map_length. rewrite (map_nth_error _ _ _ E). reflexivity.
Qed.
Lemma fknot_map l l' i : map snd l = map snd l' -> fknot l i = fknot l' i.
Proof.
  intros H. unfold fknot, finterval. assert (L : length l = length l') by (rewrite <- (map_length snd l), H; apply map_length). rewrite L.
  assert (K : forall m : list (fvec * b64), forall n, option_map snd (nth_error m n) = nth_error (map snd m) n).
  { intros m n. destruct (nth_error m n) as [a|] eqn:E; [symmetry; apply map_nth_error; exact E|]. symmetry. apply nth_error_None. rewrite map_length. apply nth_error_None. exact E. }
  rewrite !K, H. reflexivity.
Qed.
Lemma fbasis_FB l t : l <> [] -> forall q i, fbasis l q i t = Some (FB (fknot l) t q i).
Proof.
  intros N. induction q as [|q IH]; intros i; cbn [fbasis]; rewrite !(finterval_knot l _ N); cbn [obind]; [reflexivity|].
  rewrite ?(finterval_knot l _ N); cbn [obind]. rewrite !IH. cbn [option_map FB]. unfold fterm. destruct (Bltb _ _), (Bltb _ _); reflexivity.
Qed.
Lemma FB_ext X X' t : (forall i, X i = X' i) -> forall q i, FB X t q i = FB X' t q i.
Proof. intros H. induction q as [|q IH]; intros i; cbn [FB]; rewrite ?H, ?IH; reflexivity. Qed.

(** the sum in one coordinate, for weights [w] *)
Fixpoint facc (w : Z -> b64) (ps : list b64) (j : Z) (a : b64) : b64 :=
  match ps with [] => a | p :: ps' => facc w ps' (j + 1) (b64_add a (b64_mul p (w j))) end.
Fixpoint eacc (w : Z -> R) (ps : list R) (j : Z) : R := match ps with [] => 0 | p :: ps' => w j * p + eacc w ps' (j + 1) end.
Lemma fevaluate_sum l q t f c : l <> [] -> coordinates f c -> forall rest j r,
  exists v, fevaluate_from l q t rest j r = Some v /\ f v = facc (FB (fknot l) t q) (map (fun a => f (fst a)) rest) j (f r).
Proof.
  intros N C. induction rest as [|[p x] rest IH]; intros j r; cbn [fevaluate_from map facc].
  - exists r. split; reflexivity.
  - rewrite fbasis_FB by exact N. cbn [obind fst]. destruct (IH (j + 1)%Z (fplus r (fweigh p (FB (fknot l) t q j)))) as (v & E & V). exists v. split; [exact E|]. rewrite V. f_equal.
    destruct C as [[-> _]|[[-> _]|[-> _]]]; reflexivity.
Qed.
Lemma fevaluate_coords l q t : l <> [] -> exists v, fevaluate l q t = Some v /\
  forall f c, coordinates f c -> f v = facc (FB (fknot l) t q) (map (fun a => f (fst a)) l) (- Z.of_nat q) b64_0.
Proof.
  intros N. unfold fevaluate. set (z := FV b64_0 b64_0 b64_0). destruct (fevaluate_sum l q t fx vx N ltac:(left; auto) l (- Z.of_nat q)%Z z) as (v & E & _). exists v. split; [exact E|].
  intros f c C. destruct (fevaluate_sum l q t f c N C l (- Z.of_nat q)%Z z) as (v' & E' & V'). rewrite E in E'. injection E' as <-. rewrite V'. f_equal. destruct C as [[-> _]|[[-> _]|[-> _]]]; reflexivity.
Qed.
Lemma weighted_coord l q t c : coordinate c -> forall (rest : list (vec3 * R)) j, c (weighted (weights l q t j (length rest)) (map fst rest)) = eacc (fun i => B (knot l) q i t) (map (fun a => c (fst a)) rest) j.
Proof.
  intros C. induction rest as [|[p x] rest IH]; intros j; cbn [length map fst eacc].
  - unfold weights. cbn [seq map weighted]. apply coord_zero. exact C.
  - rewrite weights_S. cbn [weighted]. rewrite coord_add, coord_scale by exact C. now rewrite IH.
Qed.
Lemma eacc_ext w w' : (forall i, w i = w' i) -> forall ps j, eacc w ps j = eacc w' ps j.
Proof. intros H. induction ps as [|p ps IH]; intros j; cbn [eacc]; [reflexivity|]. now rewrite H, IH. Qed.

Section Sum.
Variable M : R.
Hypothesis HM : bpow radix2 (-900) <= M <= bpow radix2 1000.
Variable w : Z -> b64.
Variable W0 : Z -> R.
Variable d sl : R.
Hypothesis Hd : 0 <= d <= / 1000.
Hypothesis Hsl : 0 <= sl <= / 1000000 * u.
Hypothesis Hw : forall j, is_finite (w j) = true /\ 0 <= W0 j /\ Rabs (B2R (w j) - W0 j) <= d * W0 j + sl.
Fixpoint wsum (n : nat) (j : Z) : R := match n with O => 0 | S n' => W0 j + wsum n' (j + 1) end.
Lemma wsum_pos n : forall j, 0 <= wsum n j.
Proof. induction n as [|n IH]; intros j; cbn [wsum]; [lra|]. specialize (IH (j + 1)%Z). destruct (Hw j) as (_ & P & _). lra. Qed.
Lemma facc_near : forall ps j a A S0 k, Forall (fun p => is_finite p = true /\ Rabs (B2R p) <= M) ps -> is_finite a = true -> 0 <= S0 -> Rabs A <= M * S0 ->
  S0 + wsum (length ps) j <= 1 -> 0 <= k -> (k + INR (length ps)) * u <= / 1000 -> Rabs (B2R a - A) <= (d + 2 * u) * (M * S0) + 2 * k * (u * M) ->
  is_finite (facc w ps j a) = true /\
  Rabs (B2R (facc w ps j a) - (A + eacc W0 (map (fun p : b64 => B2R p) ps) j)) <= (d + 2 * u) * (M * (S0 + wsum (length ps) j)) + 2 * (k + INR (length ps)) * (u * M).
Proof.
  induction ps as [|p ps IH]; intros j a A S0 k Hp Fa PS HA HS Hk Hku E.
  - cbn [facc map eacc length wsum INR]. rewrite !Rplus_0_r. split; assumption.
  - cbn [facc map eacc length wsum]. cbn [length wsum] in HS. cbn [length] in Hku. inversion Hp as [|? ? [Fp Bp] Hp' E1]; subst. destruct (Hw j) as (Fw & Pw & Ew). assert (PM := M_pos M HM). assert (Q := unit_pos M HM). assert (T := eta_unit M HM). assert (U := v_small). assert (Up : 0 < u) by apply bpow_gt_0.
    assert (Pn := wsum_pos (length ps) (j + 1)). rewrite S_INR in *. set (v := W0 j) in *. set (n := INR (length ps)) in *. assert (Nn : 0 <= n) by apply pos_INR.
    set (P := B2R p * v). assert (HP : Rabs P <= M * v) by (unfold P; rewrite Rabs_mult, (Rabs_pos_eq v) by exact Pw; apply Rmult_le_compat_r; assumption).
    assert (D1 : Rabs (B2R p * B2R (w j) - P) <= M * (d * v + sl)).
    { unfold P. replace (B2R p * B2R (w j) - B2R p * v) with (B2R p * (B2R (w j) - v)) by ring. rewrite Rabs_mult. apply Rmult_le_compat; auto using Rabs_pos. }
    assert (Pd : M * (d * v) <= / 1000 * (M * v)) by (replace (M * (d * v)) with (d * (M * v)) by ring; apply Rmult_le_compat_r; [apply Rmult_le_pos; lra|lra]).
    assert (Ps : M * sl <= / 1000000 * (u * M)) by (replace (/ 1000000 * (u * M)) with (M * (/ 1000000 * u)) by ring; apply Rmult_le_compat_l; lra).
    assert (Mv : 0 <= M * v <= M) by (split; [apply Rmult_le_pos; lra|]; rewrite <- (Rmult_1_r M) at 2; apply Rmult_le_compat_l; lra).
    assert (uM : u * M <= / 1000000 * M) by (apply Rmult_le_compat_r; lra).
    assert (B1 : Rabs (B2R p * B2R (w j)) <= (1 + / 100) * (M * v) + / 100 * M).
    { apply Rabs_le_inv in HP, D1. apply Rabs_le. lra. }
    assert (Big : 2 * M <= bpow radix2 1001) by (change 1001%Z with (1000 + 1)%Z; rewrite bpow_plus; change (bpow radix2 1) with 2; lra).
    destruct (mul_fin p (w j) 1001 Fp Fw ltac:(lia) ltac:(lra)) as [F1 V1].
    assert (B1' : Rabs (B2R p * B2R (w j)) <= (1 + / 1000) * (M * v) + M * sl).
    { apply Rabs_le_inv in HP, D1. apply Rabs_le. lra. }
    assert (R1 := rnd_error _ _ B1'). rewrite <- V1 in R1.
    assert (D2 : Rabs (B2R (b64_mul p (w j)) - P) <= (d + (1 + / 1000) * u) * (M * v) + / 100 * (u * M)).
    { assert (X1 : u * (M * sl) <= / 1000 * (u * M)). { apply Rle_trans with (u * M * sl); [right; ring|]. rewrite (Rmult_comm (/ 1000)). apply Rmult_le_compat_l; lra. }
      apply Rabs_le_inv in D1. apply Rabs_le. lra. }
    set (b := b64_mul p (w j)) in *.
    assert (D3 : Rabs (B2R a + B2R b - (A + P)) <= (d + 2 * u) * (M * S0) + 2 * k * (u * M) + (d + (1 + / 1000) * u) * (M * v) + / 100 * (u * M)).
    { replace (B2R a + B2R b - (A + P)) with ((B2R a - A) + (B2R b - P)) by ring. apply Rle_trans with (1 := Rabs_triang _ _). lra. }
    assert (MS : 0 <= M * S0) by (apply Rmult_le_pos; lra). assert (MSv : M * S0 + M * v <= M). { rewrite <- Rmult_plus_distr_l. rewrite <- (Rmult_1_r M) at 2. apply Rmult_le_compat_l; lra. }
    assert (Kk : 2 * k * (u * M) <= / 500 * M). { replace (2 * k * (u * M)) with (2 * (k * u) * M) by ring. apply Rmult_le_compat_r; [lra|]. assert (0 <= (n + 1) * u) by (apply Rmult_le_pos; lra). lra. }
    assert (B2 : Rabs (B2R a + B2R b) <= (1 + / 100) * M).
    { assert ((d + 2 * u) * (M * S0) <= / 500 * (M * S0)) by (apply Rmult_le_compat_r; lra). assert ((d + (1 + / 1000) * u) * (M * v) <= / 500 * (M * v)) by (apply Rmult_le_compat_r; lra).
      apply Rabs_le_inv in D3, HA, HP. apply Rabs_le. lra. }
    destruct (add_fin a b 1001 Fa F1 ltac:(lia) ltac:(lra)) as [F2 V2]. assert (R2 := rnd_error _ _ B2). rewrite <- V2 in R2.
    assert (D4 : Rabs (B2R (b64_add a b) - (A + P)) <= (d + 2 * u) * (M * (S0 + v)) + 2 * (k + 1) * (u * M)).
    { apply Rabs_le_inv in D3. assert (0 <= u * (M * v)) by (apply Rmult_le_pos; lra). apply Rabs_le. lra. }
    destruct (IH (j + 1)%Z (b64_add a b) (A + P) (S0 + v) (k + 1) Hp' F2 ltac:(lra)) as [F3 E3]; [|lra|lra|fold n; lra|exact D4|].
    + rewrite Rmult_plus_distr_l. apply Rle_trans with (1 := Rabs_triang _ _). lra.
    + split; [exact F3|]. replace (A + (v * B2R p + eacc W0 (map (fun p : b64 => B2R p) ps) (j + 1))) with (A + P + eacc W0 (map (fun p : b64 => B2R p) ps) (j + 1)) by (unfold P; ring).
      apply Rle_trans with (1 := E3). fold n. right. ring.
Qed.
Lemma facc_nonneg : forall ps j a, Forall (fun p => 0 <= B2R p) ps -> (forall i, 0 <= B2R (w i)) -> 0 <= B2R a -> 0 <= B2R (facc w ps j a).
Proof.
  assert (Q : forall x y : b64, 0 <= B2R x -> 0 <= B2R y -> 0 <= B2R (b64_mul x y)).
  { intros x y Hx Hy. assert (C := Bmult_correct 53 1024 b64_prec_gt_0 b64_prec_lt_emax mode_NE x y). fold (b64_mul x y) in C. change (SpecFloat.fexp 53 1024) with f64 in C. cbn [round_mode] in C.
    destruct (Rlt_bool _ _); [rewrite (proj1 C); apply rnd_at_least; [apply generic_format_0|apply Rmult_le_pos; assumption]|].
    destruct (b64_mul x y) as [s|s| |s m e H]; cbn; try lra. exfalso. discriminate C. }
  assert (Q2 : forall x y : b64, 0 <= B2R x -> 0 <= B2R y -> 0 <= B2R (b64_add x y)).
  { intros x y Hx Hy. destruct (is_finite x) eqn:Fx; [destruct (is_finite y) eqn:Fy|].
    - assert (C := Bplus_correct 53 1024 b64_prec_gt_0 b64_prec_lt_emax mode_NE x y Fx Fy). fold (b64_add x y) in C. change (SpecFloat.fexp 53 1024) with f64 in C. cbn [round_mode] in C.
      destruct (Rlt_bool _ _); [rewrite (proj1 C); apply rnd_at_least; [apply generic_format_0|lra]|].
      destruct (b64_add x y) as [s|s| |s m e H]; cbn; try lra. exfalso. destruct C as [C _]. discriminate C.
    - destruct x as [?|?| |? ? ? ?], y as [?|?| |? ? ? ?]; try discriminate; cbn; lra.
    - destruct x as [sx|sx| |? ? ? ?], y as [sy|sy| |? ? ? ?]; try discriminate; cbn; try (destruct (Bool.eqb sx sy)); cbn; lra. }
  induction ps as [|p ps IH]; intros j a Hp Hw' Ha; cbn [facc]; [exact Ha|]. inversion Hp; subst. apply IH; auto.
Qed.
End Sum.

Notation alike := same_number.
Lemma alike_value a b : alike a b -> B2R a = B2R b.
Proof. intros [->|[[s ->] [s' ->]]]; reflexivity. Qed.
Lemma alike_add a a' w w' : alike a a' -> alike w w' -> alike (b64_add a w) (b64_add a' w').
Proof.
  assert (Z : forall s s', exists r, b64_add (B754_zero s) (B754_zero s') = B754_zero r) by (intros [] []; eexists; reflexivity).
  intros [->|[[s ->] [s' ->]]] [->|[[r ->] [r' ->]]].
  - left; reflexivity.
  - destruct a' as [s|s| |s m e H]; [right; split; apply Z|left; reflexivity|left; reflexivity|left; reflexivity].
  - destruct w' as [r|r| |r m e H]; [right; split; apply Z|left; reflexivity|left; reflexivity|left; reflexivity].
  - right. split; apply Z.
Qed.
Lemma zero_value (w : b64) : is_finite w = true -> B2R w = 0 -> exists s, w = B754_zero s.
Proof.
  intros F V. destruct w as [s|s| |s m e H]; try discriminate; [exists s; reflexivity|]. exfalso. cbn in V. apply eq_0_F2R in V. cbn in V. destruct s; discriminate.
Qed.
Lemma zero_product (p w : b64) : is_finite p = true -> is_finite w = true -> B2R w = 0 -> exists s, b64_mul p w = B754_zero s.
Proof. intros Fp Fw V. destruct (zero_value w Fw V) as [s ->]. destruct p as [r|r| |r m e H]; try discriminate; eexists; reflexivity. Qed.
Lemma facc_alike w : forall ps ps' j a a', alike a a' -> Forall2 (fun _ _ => True) ps ps' -> (forall k p p', nth_error ps k = Some p -> nth_error ps' k = Some p' -> p = p' \/
  (is_finite p = true /\ is_finite p' = true /\ is_finite (w (j + Z.of_nat k)%Z) = true /\ B2R (w (j + Z.of_nat k)%Z) = 0)) -> alike (facc w ps j a) (facc w ps' j a').
Proof.
  induction ps as [|p ps IH]; intros ps' j a a' A L H; inversion L as [|? p' ? ps2 _ L' E1 E2]; subst; cbn [facc]; [exact A|]. apply IH; [|exact L'|].
  - apply alike_add; [exact A|]. destruct (H 0%nat p p' eq_refl eq_refl) as [->|(F & F' & Fw & Z)]; [left; reflexivity|]. rewrite Z.add_0_r in Fw, Z.
    right. split; apply zero_product; assumption.
  - intros k q q' Q Q'. replace (j + 1 + Z.of_nat k)%Z with (j + Z.of_nat (S k))%Z by lia. apply H; assumption.
Qed.

(** The results. *)
Lemma B_ext X X' t : (forall i, X i = X' i) -> forall q i, B X q i t = B X' q i t.
Proof. intros H. induction q as [|q IH]; intros i; cbn [B]; rewrite ?H, ?IH; reflexivity. Qed.
Lemma wsum_bsum X q t : forall n j, wsum (fun i => B X q i t) n j = bsum X q j n t.
Proof. induction n as [|n IH]; intros j; cbn [wsum bsum]; [reflexivity|]. now rewrite IH. Qed.
Lemma exact_points_some l : l <> [] -> exact_points l <> [].
Proof. intros N H. apply N. destruct l; [reflexivity|discriminate]. Qed.
Section Results.
Variables (l : list (fvec * b64)) (q : nat) (t : b64).
Hypothesis N : l <> [].
Hypothesis Sorted : sorted_knots (exact_points l).
Hypothesis Mod : Forall moderate (map snd l).
Hypothesis Sep : well_separated l.
Hypothesis Hq : (q <= 100)%nat.
Hypothesis Ht : moderate t.
Let points_some : exact_points l <> [] := exact_points_some l N.
Lemma knots_mid i : mid (fknot l i).
Proof. rewrite Forall_forall in Mod. apply Mod. apply fknot_in. exact N. Qed.
Lemma knots_mono : mono (fun i => B2R (fknot l i)).
Proof. intros i j I. rewrite !fknot_exact by exact N. apply knot_mono; [exact points_some|exact Sorted|exact I]. Qed.
Lemma knots_gap i j : B2R (fknot l i) = B2R (fknot l j) \/ bpow radix2 (-500) <= Rabs (B2R (fknot l i) - B2R (fknot l j)).
Proof. apply Sep; apply fknot_in; exact N. Qed.
Lemma weight_near i : is_finite (FB (fknot l) t q i) = true /\ 0 <= B2R (FB (fknot l) t q i) /\
  Rabs (B2R (FB (fknot l) t q i) - B (knot (exact_points l)) q i (B2R t)) <= 6 * INR q * u * B (knot (exact_points l)) q i (B2R t) + slip q /\
  (B2R t < knot (exact_points l) i \/ knot (exact_points l) (i + Z.of_nat q + 1) <= B2R t -> B2R (FB (fknot l) t q i) = 0).
Proof.
  rewrite <- !(fknot_exact l) by exact N. rewrite <- (B_ext (fun i => B2R (fknot l i)) (knot (exact_points l))) by (intros k; apply fknot_exact; exact N).
  apply (FB_near (fknot l) t knots_mid Ht knots_mono knots_gap q Hq i).
Qed.
Lemma bspline_near_holds M : usual_size M -> (Z.of_nat (length l) <= 2 ^ 20)%Z -> Forall (point_within M) (map fst l) ->
  exists p r, fevaluate l q t = Some p /\ evaluate (mkSpline (exact_points l) (Z.of_nat q)) (B2R t) = Some r /\
    at_most_off ((6 * INR q + 2 * INR (length l) + 2) * unit_of M) p r.
Proof.
  intros HM Hn Hp. destruct (fevaluate_coords l q t N) as (p & E & V). exists p. eexists. split; [exact E|]. split; [apply evaluate_eq; exact points_some|]. cbn [spoints sorder].
  apply off_coords. intros f c C. rewrite (V f c C). rewrite Nat2Z.id. rewrite (weighted_coord (exact_points l) q (B2R t) c (coordinates_coordinate f c C) (exact_points l)).
  assert (U := v_small). assert (Up : 0 < u) by apply bpow_gt_0. assert (PM := M_pos M HM). assert (QM := unit_pos M HM).
  set (w0 := fun i => B (knot (exact_points l)) q i (B2R t)).
  assert (Q1 : INR q <= 100) by (rewrite INR_IZR_INZ; apply IZR_le; lia). assert (Q0 := pos_INR q).
  assert (Dq : 0 <= 6 * INR q * u <= / 1000). { split; [apply Rmult_le_pos; lra|]. apply Rle_trans with (600 * u); [apply Rmult_le_compat_r; lra|lra]. }
  assert (Sq : 0 <= slip q <= / 1000000 * u) by (split; [apply bpow_ge_0|apply slip_small; exact Hq]).
  assert (Hw : forall j, is_finite (FB (fknot l) t q j) = true /\ 0 <= w0 j /\ Rabs (B2R (FB (fknot l) t q j) - w0 j) <= 6 * INR q * u * w0 j + slip q).
  { intros j. destruct (weight_near j) as (F & _ & D & _). split; [exact F|]. split; [|exact D]. apply B_support. apply knot_mono; [exact points_some|exact Sorted]. }
  assert (L : length (map (fun a : fvec * b64 => f (fst a)) l) = length l) by apply map_length.
  assert (W1 : wsum w0 (length l) (- Z.of_nat q) <= 1). { unfold w0. rewrite wsum_bsum. apply bsum_le_1. apply knot_mono; [exact points_some|exact Sorted]. }
  assert (Nn : INR (length l) <= 1048576) by (rewrite INR_IZR_INZ; apply IZR_le; lia).
  assert (Nu : INR (length l) * u <= / 1000). { apply Rle_trans with (1048576 * u); [apply Rmult_le_compat_r; lra|]. change u with (/ 9007199254740992). lra. }
  assert (Z : is_finite b64_0 = true) by reflexivity.
  destruct (facc_near M HM (FB (fknot l) t q) w0 (6 * INR q * u) (slip q) Dq Sq Hw (map (fun a => f (fst a)) l) (- Z.of_nat q)%Z b64_0 0 0 0) as [F D].
  - rewrite Forall_map. rewrite Forall_map in Hp. eapply Forall_impl; [|exact Hp]. intros a Ha. exact (within_coords M (fst a) f c C Ha).
  - reflexivity.
  - lra.
  - rewrite Rabs_R0. lra.
  - rewrite map_length. lra.
  - lra.
  - rewrite map_length. lra.
  - change (B2R b64_0) with 0. rewrite Rminus_0_r, Rabs_R0. lra.
  - split; [exact F|]. rewrite !map_length in D. rewrite !Rplus_0_l in D.
    assert (EE : map (fun p : b64 => B2R p) (map (fun a : fvec * b64 => f (fst a)) l) = map (fun a => c (fst a)) (exact_points l)).
    { unfold exact_points. rewrite !map_map. apply map_ext. intros a. cbn [fst]. symmetry. apply coordinates_exact. exact C. }
    rewrite EE in D. apply Rle_trans with (1 := D). unfold unit_of. change (bpow radix2 (-53)) with u.
    assert (Wp := wsum_pos (FB (fknot l) t q) w0 (6 * INR q * u) (slip q) Hw (length l) (- Z.of_nat q)%Z).
    apply Rle_trans with ((6 * INR q * u + 2 * u) * (M * 1) + 2 * INR (length l) * (u * M)); [|right; ring].
    apply Rplus_le_compat_r. apply Rmult_le_compat_l; [lra|]. apply Rmult_le_compat_l; lra.
Qed.
Lemma bspline_octant_holds : Forall in_octant (map fst l) -> exists p, fevaluate l q t = Some p /\ in_octant p.
Proof.
  intros Hp. destruct (fevaluate_coords l q t N) as (p & E & V). exists p. split; [exact E|].
  assert (K : forall f c, coordinates f c -> 0 <= B2R (f p)).
  { intros f c C. rewrite (V f c C). apply facc_nonneg; [|intros i; apply weight_near|cbn; lra].
    rewrite Forall_map. rewrite Forall_map in Hp. eapply Forall_impl; [|exact Hp]. intros a (X & Y & Z). destruct C as [[-> _]|[[-> _]|[-> _]]]; assumption. }
  split; [apply (K fx vx)|split; [apply (K fy vy)|apply (K fz vz)]]; unfold coordinates; auto.
Qed.
Lemma bspline_alike_holds l' : map snd l' = map snd l ->
  (forall k a a', nth_error l k = Some a -> nth_error l' k = Some a' -> fst a = fst a' \/ (finite_point (fst a) /\ finite_point (fst a') /\
     (B2R t < knot (exact_points l) (Z.of_nat k - Z.of_nat q) \/ knot (exact_points l) (Z.of_nat k + 1) <= B2R t))) ->
  exists p p', fevaluate l q t = Some p /\ fevaluate l' q t = Some p' /\ same_point p p'.
Proof.
  intros Hs H. assert (Ln : length l' = length l) by (rewrite <- (map_length snd l'), Hs; apply map_length).
  assert (N' : l' <> []) by (intros ->; destruct l; [congruence|discriminate]).
  destruct (fevaluate_coords l q t N) as (p & E & V). destruct (fevaluate_coords l' q t N') as (p' & E' & V'). exists p, p'. split; [exact E|]. split; [exact E'|].
  assert (K : forall f c, coordinates f c -> alike (f p) (f p')).
  { intros f c C. rewrite (V f c C), (V' f c C).
    assert (W' : forall ps j a, facc (FB (fknot l') t q) ps j a = facc (FB (fknot l) t q) ps j a).
    { induction ps as [|b ps IH]; intros j a; cbn [facc]; [reflexivity|]. rewrite IH. now rewrite (FB_ext (fknot l') (fknot l)) by (intros i; apply fknot_map; exact Hs). }
    rewrite W'. apply facc_alike; [left; reflexivity| |].
    - clear - Ln. revert l' Ln. induction l as [|a m IH]; intros [|a' m'] L; try discriminate; cbn [map]; constructor; [exact I|]. apply IH. cbn in L. lia.
    - intros k x x' X X'. assert (X0 := X). assert (X0' := X'). rewrite nth_error_map in X0, X0'.
      destruct (nth_error l k) as [a|] eqn:A; [|discriminate]. destruct (nth_error l' k) as [a'|] eqn:A'; [|discriminate]. cbn in X0, X0'. injection X0 as <-. injection X0' as <-.
      destruct (H k a a' A A') as [Q|(F & F' & Q)]; [left; now rewrite Q|]. right.
      destruct F as (F1 & F2 & F3), F' as (F1' & F2' & F3'). split; [destruct C as [[-> _]|[[-> _]|[-> _]]]; assumption|]. split; [destruct C as [[-> _]|[[-> _]|[-> _]]]; assumption|].
      destruct (weight_near (- Z.of_nat q + Z.of_nat k)%Z) as (Fw & _ & _ & Zw). split; [exact Fw|]. apply Zw.
      replace (- Z.of_nat q + Z.of_nat k)%Z with (Z.of_nat k - Z.of_nat q)%Z by lia. replace (Z.of_nat k - Z.of_nat q + Z.of_nat q + 1)%Z with (Z.of_nat k + 1)%Z by lia. exact Q. }
  split; [apply (K fx vx)|split; [apply (K fy vy)|apply (K fz vz)]]; unfold coordinates; auto.
Qed.
Lemma facc_zero w : forall ps j a, (exists s, a = B754_zero s) -> Forall (fun p => is_finite p = true) ps -> (forall k, (k < length ps)%nat -> is_finite (w (j + Z.of_nat k)%Z) = true /\ B2R (w (j + Z.of_nat k)%Z) = 0) ->
  exists s, facc w ps j a = B754_zero s.
Proof.
  induction ps as [|p ps IH]; intros j a A F H; cbn [facc]; [exact A|]. inversion F; subst. apply IH; [|assumption|].
  - destruct (H 0%nat ltac:(cbn; lia)) as [Fw Zw]. rewrite Z.add_0_r in Fw, Zw. destruct (zero_product p (w j)) as [s ->]; try assumption. destruct A as [[] ->], s; eexists; reflexivity.
  - intros k K. replace (j + 1 + Z.of_nat k)%Z with (j + Z.of_nat (S k))%Z by lia. apply H. cbn. lia.
Qed.
Lemma bspline_outside_holds : Forall finite_point (map fst l) -> B2R t < nth 0 (map snd (exact_points l)) 0 \/ nth (length l - 1) (map snd (exact_points l)) 0 <= B2R t ->
  exists p, fevaluate l q t = Some p /\ at_most_off 0 p vzero.
Proof.
  intros Hp H. destruct (fevaluate_coords l q t N) as (p & E & V). exists p. split; [exact E|]. apply off_coords. intros f c C. rewrite (V f c C).
  assert (Len : length (exact_points l) = length l) by apply map_length. assert (L0 : (0 < length l)%nat) by (destruct l; [congruence|cbn; lia]).
  destruct (facc_zero (FB (fknot l) t q) (map (fun a => f (fst a)) l) (- Z.of_nat q)%Z b64_0) as [s ->].
  - exists false. reflexivity.
  - rewrite Forall_map. rewrite Forall_map in Hp. eapply Forall_impl; [|exact Hp]. intros a (F1 & F2 & F3). destruct C as [[-> _]|[[-> _]|[-> _]]]; assumption.
  - intros k K. destruct (weight_near (- Z.of_nat q + Z.of_nat k)%Z) as (Fw & _ & _ & Zw). split; [exact Fw|]. apply Zw.
    rewrite !knot_nth by exact points_some. rewrite Len. destruct H as [H|H].
    + left. apply Rlt_le_trans with (1 := H). apply sorted_nth; [exact Sorted|]. rewrite Len. assert (Q := idx_lt (length l) (- Z.of_nat q + Z.of_nat k) L0). lia.
    + right. apply Rle_trans with (2 := H). apply sorted_nth; [exact Sorted|]. rewrite Len. assert (Q := idx_lt (length l) (- Z.of_nat q + Z.of_nat k + Z.of_nat q + 1) L0). lia.
  - split; [reflexivity|]. destruct C as [[_ ->]|[[_ ->]|[_ ->]]]; cbn; rewrite Rminus_0_r, Rabs_R0; lra.
Qed.
End Results.
Lemma idx_end' n : (idx (n + 1) (Z.of_nat n + 1) >= n)%nat.
Proof. unfold idx. destruct (Z.ltb_spec (Z.of_nat n + 1) 0); [lia|]. match goal with |- context [(?a <=? ?b)%Z] => destruct (Z.leb_spec a b) end; lia. Qed.
Lemma idx_end n : (idx (n + 1) (Z.of_nat n + 1) - n)%nat = 0%nat.
Proof. unfold idx. destruct (Z.ltb_spec (Z.of_nat n + 1) 0); [lia|]. match goal with |- context [(?a <=? ?b)%Z] => destruct (Z.leb_spec a b) end; lia. Qed.
Lemma idx_next' n m : (idx (n + S (S m)) (Z.of_nat n + 1) >= n)%nat.
Proof. unfold idx. destruct (Z.ltb_spec (Z.of_nat n + 1) 0); [lia|]. match goal with |- context [(?a <=? ?b)%Z] => destruct (Z.leb_spec a b) end; lia. Qed.
Lemma idx_next n m : (idx (n + S (S m)) (Z.of_nat n + 1) - n)%nat = 1%nat.
Proof. unfold idx. destruct (Z.ltb_spec (Z.of_nat n + 1) 0); [lia|]. match goal with |- context [(?a <=? ?b)%Z] => destruct (Z.leb_spec a b) end; lia. Qed.
Lemma bspline_local_holds l1 p p' x l2 q t : sorted_knots (exact_points (l1 ++ (p, x) :: l2)) -> Forall moderate (map snd (l1 ++ (p, x) :: l2)) -> well_separated (l1 ++ (p, x) :: l2) ->
  (q <= 100)%nat -> moderate t -> finite_point p -> finite_point p' ->
  B2R t < nth (length l1 - q) (map snd (exact_points (l1 ++ (p, x) :: l2))) 0 \/ nth 0 (map snd (exact_points l2)) (B2R x) <= B2R t ->
  exists r r', fevaluate (l1 ++ (p, x) :: l2) q t = Some r /\ fevaluate (l1 ++ (p', x) :: l2) q t = Some r' /\ same_point r r'.
Proof.
  intros S0 Mo Se Hq Ht Fp Fp' H. set (l := l1 ++ (p, x) :: l2) in *. assert (N : l <> []) by (unfold l; destruct l1; discriminate).
  assert (Len : length (exact_points l) = length l) by apply map_length.
  assert (Ll : length l = (length l1 + S (length l2))%nat) by (unfold l; rewrite app_length; reflexivity).
  apply bspline_alike_holds; try assumption.
  - unfold l. rewrite !map_app. reflexivity.
  - intros k a a' A A'. destruct (Nat.lt_total k (length l1)) as [K|[K|K]].
    + left. unfold l in A. rewrite nth_error_app1 in A, A' by exact K. congruence.
    + right. subst k. unfold l in A. rewrite nth_error_app2 in A, A' by lia. rewrite Nat.sub_diag in A, A'. cbn in A, A'. injection A as <-. injection A' as <-. split; [exact Fp|]. split; [exact Fp'|].
      rewrite !knot_nth by (apply exact_points_some; exact N). rewrite Len. destruct H as [H|H]; [left|right].
      * replace (idx (length l) (Z.of_nat (length l1) - Z.of_nat q)) with (length l1 - q)%nat; [exact H|]. unfold idx. destruct (_ <? 0)%Z eqn:E1; [lia|]. destruct (_ <=? _)%Z eqn:E2; lia.
      * apply Rle_trans with (2 := H). right. unfold l, exact_points. rewrite !map_app. cbn [map snd]. destruct l2 as [|b l2'].
        -- rewrite app_nth2; rewrite !map_length, app_length; [exact (f_equal (fun n => nth n [B2R x] 0) (idx_end (length l1)))|exact (idx_end' (length l1))].
        -- rewrite app_nth2; rewrite !map_length, app_length; [exact (f_equal (fun n => nth n (B2R x :: map snd (map (fun a => (exact_vec (fst a), B2R (snd a))) (b :: l2'))) 0) (idx_next (length l1) (length l2')))|exact (idx_next' (length l1) (length l2'))].
    + left. unfold l in A. rewrite nth_error_app2 in A, A' by lia. destruct (k - length l1)%nat as [|n] eqn:En; [lia|]. cbn in A, A'. congruence.
Qed.
