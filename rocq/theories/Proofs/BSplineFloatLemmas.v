(** Rounding errors of the weights of B-splines. *)
From Coq Require Import ZArith Reals List Bool Arith Lia Lra Psatz.
From Flocq Require Import Core IEEE754.BinarySingleNaN.
From Verif Require Import Model.Scalar Model.Vec Model.BoxFloat Model.PlaneFloat Model.Spline Model.BSplineFloat.
From Verif Require Import Proofs.VecLemmas Proofs.PlaneFloatLemmas Proofs.SplineFloat Proofs.BoxRayFloatLemmas Proofs.ClipFloatLemmas Proofs.FrustumFloatLemmas Proofs.MeshFloatLemmas Proofs.SplineLemmas.
Import ListNotations.
Local Open Scope R_scope.

(** numbers up to 2^500 *)
Definition mid (x : b64) : Prop := is_finite x = true /\ Rabs (B2R x) <= bpow radix2 500.
Lemma mid_sub x y : mid x -> mid y -> is_finite (b64_sub x y) = true /\ B2R (b64_sub x y) = rnd (B2R x - B2R y) /\ Rabs (B2R (b64_sub x y)) <= bpow radix2 501 /\
  Rabs (B2R (b64_sub x y) - (B2R x - B2R y)) <= u * Rabs (B2R x - B2R y).
Proof.
  intros [Fx Bx] [Fy By]. assert (K : Rabs (B2R x - B2R y) <= bpow radix2 501).
  { change 501%Z with (500 + 1)%Z. rewrite bpow_plus. change (bpow radix2 1) with 2. apply Rabs_le_inv in Bx, By. apply Rabs_le. lra. }
  destruct (sub_fin x y 501 Fx Fy ltac:(lia) K) as [F V]. split; [exact F|]. split; [exact V|]. rewrite V. split; [apply rnd_bound; [lia|exact K]|].
  exact (sum_relative (B2R x) (- B2R y) (generic_format_B2R _ _ x) (generic_format_opp _ _ _ (generic_format_B2R _ _ y))).
Qed.

(** one of the two terms of a weight: (a - b) / (c - d) times the weight [w] of the level below *)
Definition fterm (a b c d w : b64) : b64 := if Bltb b64_0 (b64_sub c d) then b64_mul (b64_div (b64_sub a b) (b64_sub c d)) w else b64_0.
Definition term (a b c d w : R) : R := if Rltb 0 (c - d) then (a - b) / (c - d) * w else 0.
Lemma fterm_zero a b c d w : mid a -> mid b -> mid c -> mid d -> (B2R c = B2R d \/ bpow radix2 (-500) <= Rabs (B2R c - B2R d)) -> is_finite w = true -> B2R w = 0 ->
  is_finite (fterm a b c d w) = true /\ B2R (fterm a b c d w) = 0.
Proof.
  intros Ha Hb Hc Hd G Fw Zw. unfold fterm. destruct (Bltb b64_0 (b64_sub c d)) eqn:L; [|split; reflexivity]. rewrite sub_positive in L by (apply Hc || apply Hd).
  apply blt in L; [|apply Hd|apply Hc]. destruct G as [G|G]; [lra|]. rewrite Rabs_pos_eq in G by lra.
  destruct (mid_sub a b Ha Hb) as (Fn & _ & Bn & _). destruct (mid_sub c d Hc Hd) as (Fd & Vd & _ & _).
  assert (D : bpow radix2 (-500) <= B2R (b64_sub c d)). { rewrite Vd. apply rnd_at_least; [apply generic_format_FLT_bpow; [reflexivity|lia]|exact G]. }
  assert (P := bpow_gt_0 radix2 (-500)).
  assert (K : Rabs (B2R (b64_sub a b) / B2R (b64_sub c d)) <= bpow radix2 1001).
  { unfold Rdiv. rewrite Rabs_mult. rewrite (Rabs_pos_eq (/ _)) by (left; apply Rinv_0_lt_compat; lra). change 1001%Z with (501 + 500)%Z. rewrite bpow_plus.
    apply Rmult_le_compat; [apply Rabs_pos|left; apply Rinv_0_lt_compat; lra|exact Bn|]. change (bpow radix2 500) with (bpow radix2 (- (-500))). rewrite bpow_opp. apply Rinv_le_contravar; lra. }
  destruct (div_fin (b64_sub a b) (b64_sub c d) 1001 Fn ltac:(lra) ltac:(lia) K) as [Fq _].
  destruct (mul_fin _ w 0 Fq Fw ltac:(lia)) as [F V]; [rewrite Zw, Rmult_0_r, Rabs_R0; apply bpow_ge_0|]. split; [exact F|]. rewrite V, Zw, Rmult_0_r. apply round_0. apply valid_rnd_N.
Qed.
Lemma fterm_near a b c d w W0 dl al : mid a -> mid b -> mid c -> mid d -> bpow radix2 (-500) <= B2R c - B2R d -> 0 <= B2R a - B2R b <= B2R c - B2R d ->
  is_finite w = true -> 0 <= B2R w -> 0 <= W0 <= 1 -> 0 <= dl <= / 1000 -> 0 <= al <= / 1000 -> Rabs (B2R w - W0) <= dl * W0 + al ->
  is_finite (fterm a b c d w) = true /\ 0 <= B2R (fterm a b c d w) /\
  Rabs (B2R (fterm a b c d w) - term (B2R a) (B2R b) (B2R c) (B2R d) W0) <= (dl + (4 + / 10) * u) * term (B2R a) (B2R b) (B2R c) (B2R d) W0 + (1 + / 100) * al + 4 * eta.
Proof.
  intros Ha Hb Hc Hd G N Fw Pw HW Hdl Hal E. assert (P := bpow_gt_0 radix2 (-500)). unfold fterm, term.
  replace (Bltb b64_0 (b64_sub c d)) with true by (symmetry; rewrite sub_positive by (apply Hc || apply Hd); apply blt; [apply Hd|apply Hc|lra]).
  replace (Rltb 0 (B2R c - B2R d)) with true by (symmetry; apply Rltb_iff; lra).
  destruct (mid_sub a b Ha Hb) as (Fn & Vn & Bn & En). destruct (mid_sub c d Hc Hd) as (Fd & Vd & _ & Ed).
  set (n := B2R a - B2R b) in *. set (m := B2R c - B2R d) in *. set (n' := B2R (b64_sub a b)) in *. set (m' := B2R (b64_sub c d)) in *.
  rewrite (Rabs_pos_eq n) in En by lra. rewrite (Rabs_pos_eq m) in Ed by lra. assert (U := v_small). assert (T := eta_small).
  assert (Pm : 0 < m') by (apply Rabs_le_inv in Ed; nra). assert (Pn : 0 <= n'). { rewrite Vn. apply rnd_at_least; [apply generic_format_0|lra]. }
  assert (Le : n' <= m') by (rewrite Vn, Vd; apply round_le; auto with typeclass_instances; lra).
  assert (Q1 : 0 <= n' / m' <= 1).
  { split; [apply Rmult_le_pos; [exact Pn|left; apply Rinv_0_lt_compat; exact Pm]|]. apply Rmult_le_reg_r with m'; [exact Pm|]. unfold Rdiv. rewrite Rmult_assoc, Rinv_l by lra. lra. }
  destruct (div_fin (b64_sub a b) (b64_sub c d) 0 Fn ltac:(fold m'; lra) ltac:(lia)) as [Fq Vq]; [fold n' m'; change (bpow radix2 0) with 1; rewrite Rabs_pos_eq; lra|]. fold n' m' in Vq.
  set (q' := B2R (b64_div (b64_sub a b) (b64_sub c d))) in *. set (q := n / m).
  assert (Qq : 0 <= q <= 1).
  { unfold q. split; [apply Rmult_le_pos; [lra|left; apply Rinv_0_lt_compat; lra]|]. apply Rmult_le_reg_r with m; [lra|]. unfold Rdiv. rewrite Rmult_assoc, Rinv_l by lra. lra. }
  assert (Qq' : 0 <= q' <= 1). { rewrite Vq. split; [apply rnd_at_least; [apply generic_format_0|lra]|apply rnd_at_most; [exact format_1|lra]]. }
  assert (D1 : Rabs (n' / m' - q) <= (2 + / 100) * u * q).
  { assert (X1 : n' / m' - q = ((n' - n) * m - n * (m' - m)) / (m' * m)) by (unfold q; field; lra). rewrite X1.
    unfold Rdiv. rewrite Rabs_mult. rewrite (Rabs_pos_eq (/ _)) by (left; apply Rinv_0_lt_compat; nra).
    apply Rmult_le_reg_r with (m' * m); [nra|]. rewrite Rmult_assoc, Rinv_l, Rmult_1_r by nra.
    apply Rle_trans with (2 * u * n * m).
    - apply Rabs_le_inv in En, Ed. assert (A1 : - (u * n) * m <= (n' - n) * m <= u * n * m) by (split; apply Rmult_le_compat_r; lra).
      assert (A2 : n * (- (u * m)) <= n * (m' - m) <= n * (u * m)) by (split; apply Rmult_le_compat_l; lra). apply Rabs_le. lra.
    - replace ((2 + / 100) * u * q * (m' * m)) with ((2 + / 100) * u * n * m') by (unfold q; field; lra). apply Rabs_le_inv in Ed.
      assert (A3 : (1 - u) * m <= m') by lra. assert (A4 : 2 * m <= (2 + / 100) * m') by nra. assert (0 <= u * n) by nra. nra. }
  assert (D2 : Rabs (q' - q) <= (3 + / 50) * u * q + eta).
  { rewrite Vq. assert (R0 := rnd_error (n' / m') (n' / m') ltac:(rewrite Rabs_pos_eq; lra)). apply Rabs_le_inv in D1. apply Rabs_le.
    assert (u * (n' / m') <= u * (q + / 100 * q)); [apply Rmult_le_compat_l; [lra|]; nra|]. assert (0 <= u * q) by nra. nra. }
  assert (D3 : Rabs (q' * B2R w - q * W0) <= (dl + (3 + / 30) * u) * (q * W0) + al + (2 + / 100) * eta).
  { replace (q' * B2R w - q * W0) with (q' * (B2R w - W0) + (q' - q) * W0) by ring. apply Rle_trans with (1 := Rabs_triang _ _). rewrite !Rabs_mult.
    rewrite (Rabs_pos_eq q'), (Rabs_pos_eq W0) by lra.
    assert (A1 : q' * Rabs (B2R w - W0) <= q' * (dl * W0) + al). { apply Rle_trans with (q' * (dl * W0 + al)); [apply Rmult_le_compat_l; lra|]. nra. }
    assert (A2 : Rabs (q' - q) * W0 <= (3 + / 50) * u * (q * W0) + eta). { apply Rle_trans with (((3 + / 50) * u * q + eta) * W0); [apply Rmult_le_compat_r; lra|]. nra. }
    assert (A3 : q' * (dl * W0) <= dl * (q * W0) + / 1000 * ((3 + / 50) * u * (q * W0)) + eta).
    { assert (A4 : q' <= q + (3 + / 50) * u * q + eta) by (apply Rabs_le_inv in D2; lra). assert (A5 : 0 <= dl * W0 <= / 1000) by nra.
      apply Rle_trans with ((q + (3 + / 50) * u * q + eta) * (dl * W0)); [apply Rmult_le_compat_r; lra|].
      assert (A6 : (3 + / 50) * u * q * (dl * W0) <= / 1000 * ((3 + / 50) * u * (q * W0))).
      { replace ((3 + / 50) * u * q * (dl * W0)) with (dl * ((3 + / 50) * u * (q * W0))) by ring. apply Rmult_le_compat_r; [|lra]. assert (0 <= q * W0) by nra. nra. }
      assert (A7 : eta * (dl * W0) <= eta) by nra. nra. }
    assert (0 <= q * W0) by nra. assert (0 <= u * (q * W0)) by nra. lra. }
  assert (Z0 : 0 <= q * W0 <= 1) by nra.
  assert (B1 : Rabs (q' * B2R w) <= q * W0 + / 50 * (q * W0) + al + (2 + / 100) * eta).
  { apply Rabs_le_inv in D3. assert ((dl + (3 + / 30) * u) * (q * W0) <= / 50 * (q * W0)) by (apply Rmult_le_compat_r; lra). apply Rabs_le. split; [|lra].
    assert (0 <= q' * B2R w) by (apply Rmult_le_pos; lra). lra. }
  assert (B2 : Rabs (q' * B2R w) <= bpow radix2 1) by (change (bpow radix2 1) with 2; lra).
  destruct (mul_fin (b64_div (b64_sub a b) (b64_sub c d)) w 1 Fq Fw ltac:(lia) B2) as [F V]. fold q' in V. split; [exact F|]. rewrite V. split.
  - apply rnd_at_least; [apply generic_format_0|]. apply Rmult_le_pos; lra.
  - assert (R0 := rnd_error _ _ B1). apply Rabs_le_inv in D3. fold q.
    assert (X1 : u * (q * W0 + / 50 * (q * W0) + al + (2 + / 100) * eta) <= (1 + / 50) * (u * (q * W0)) + / 1000 * al + / 1000 * eta) by nra.
    assert (0 <= u * (q * W0)) by nra. apply Rabs_le. lra.
Qed.

Section Knots.
Variable X : Z -> b64.
Variable t : b64.
Hypothesis HX : forall i, mid (X i).
Hypothesis Ht : mid t.
Let x (i : Z) : R := B2R (X i).
Hypothesis Mono : mono x.
Hypothesis Gap : forall i j, x i = x j \/ bpow radix2 (-500) <= Rabs (x i - x j).

Fixpoint FB (q : nat) (i : Z) : b64 :=
  match q with
  | O => if Bleb (X i) t && Bltb t (X (i + 1)) then b64_of_Z 1 else b64_0
  | S q' => b64_add (fterm t (X i) (X (i + Z.of_nat q)) (X i) (FB q' i)) (fterm (X (i + Z.of_nat q + 1)) t (X (i + Z.of_nat q + 1)) (X (i + 1)) (FB q' (i + 1)))
  end.
Lemma FB_0 i : is_finite (FB 0 i) = true /\ B2R (FB 0 i) = B x 0 i (B2R t).
Proof.
  destruct (b64_int 1 ltac:(lia)) as [V1 F1]. cbn [FB B].
  assert (E1 : Bleb (X i) t = Rleb (x i) (B2R t)).
  { rewrite (Bleb_correct 53 1024 _ _ (proj1 (HX i)) (proj1 Ht)). fold (x i). destruct (Rle_bool_spec (x i) (B2R t)); symmetry; [apply Rleb_iff|apply Rleb_false]; assumption. }
  assert (E2 : Bltb t (X (i + 1)) = Rltb (B2R t) (x (i + 1))).
  { destruct (Bltb t (X (i + 1))) eqn:K; symmetry; [apply Rltb_iff; apply (blt t (X (i + 1))); [apply Ht|apply HX|exact K]|apply Rltb_false; apply (blt_false t (X (i + 1))); [apply Ht|apply HX|exact K]]. }
  rewrite E1, E2. destruct (Rleb (x i) (B2R t) && Rltb (B2R t) (x (i + 1))); split; assumption || reflexivity.
Qed.
Definition slip (q : nat) : R := bpow radix2 (2 * Z.of_nat q + 3 - 1075).
Lemma slip_S q : slip (S q) = 4 * slip q.
Proof. unfold slip. replace (2 * Z.of_nat (S q) + 3 - 1075)%Z with (2 + (2 * Z.of_nat q + 3 - 1075))%Z by lia. rewrite bpow_plus. reflexivity. Qed.
Lemma slip_eta q : 8 * eta <= slip q.
Proof. unfold slip. change 8 with (bpow radix2 3). rewrite <- bpow_plus. apply bpow_le. lia. Qed.
Lemma slip_small q : (q <= 100)%nat -> slip q <= / 1000000 * u.
Proof.
  intros H. unfold slip. apply Rle_trans with (bpow radix2 (-20) * u); [rewrite <- bpow_plus; apply bpow_le; lia|]. apply Rmult_le_compat_r; [apply bpow_ge_0|]. change (bpow radix2 (-20)) with (/ 1048576). lra.
Qed.

Lemma FB_near q : (q <= 100)%nat -> forall i, is_finite (FB q i) = true /\ 0 <= B2R (FB q i) /\ Rabs (B2R (FB q i) - B x q i (B2R t)) <= 6 * INR q * u * B x q i (B2R t) + slip q /\
  (B2R t < x i \/ x (i + Z.of_nat q + 1) <= B2R t -> B2R (FB q i) = 0).
Proof.
  induction q as [|q IH]; intros Hq i.
  - destruct (FB_0 i) as [F V]. split; [exact F|]. rewrite V. destruct (B_support x Mono 0 i (B2R t)) as [P _]. split; [exact P|]. split.
    + replace (B x 0 i (B2R t) - B x 0 i (B2R t)) with 0 by ring. rewrite Rabs_R0. assert (0 < slip 0) by apply bpow_gt_0. cbn [INR]. lra.
    + intros H. apply B_outside; assumption.
  - specialize (IH ltac:(lia)). destruct (IH i) as (F1 & P1 & E1 & Z1). destruct (IH (i + 1)%Z) as (F2 & P2 & E2 & Z2).
    assert (U := v_small). assert (T := eta_small). assert (S0 := slip_small q ltac:(lia)). assert (S1 := slip_eta q).
    assert (Dq : 0 <= 6 * INR q * u <= / 1000). { assert (Q1 : INR q <= 100) by (rewrite INR_IZR_INZ; apply IZR_le; lia). assert (Q0 := pos_INR q). nra. }
    assert (N1 := proj1 (B_support x Mono q i (B2R t))). assert (N2 := proj1 (B_support x Mono q (i + 1) (B2R t))).
    assert (L : forall j, B x q j (B2R t) <= 1). { intros j. assert (K := bsum_le_1 x (B2R t) Mono q 1 j). cbn [bsum] in K. lra. }
    set (d := 6 * INR q * u) in *. set (r1 := fterm t (X i) (X (i + Z.of_nat (S q))) (X i) (FB q i)). set (r2 := fterm (X (i + Z.of_nat (S q) + 1)) t (X (i + Z.of_nat (S q) + 1)) (X (i + 1)) (FB q (i + 1))).
    assert (WV := W_V_pos x q i (B2R t) Mono). assert (WV' := W_V_pos x q (i + 1) (B2R t) Mono).
    assert (K1 : is_finite r1 = true /\ 0 <= B2R r1 /\ Rabs (B2R r1 - W x q i (B2R t)) <= (d + (4 + / 10) * u) * W x q i (B2R t) + (1 + / 100) * slip q + 4 * eta /\
      (B2R t < x i \/ x (i + Z.of_nat q + 1) <= B2R t -> B2R r1 = 0)).
    { unfold r1. replace (i + Z.of_nat (S q))%Z with (i + Z.of_nat q + 1)%Z by lia.
      destruct (Rlt_le_dec (B2R t) (x i)) as [O|O]; [|destruct (Rle_lt_dec (x (i + Z.of_nat q + 1)) (B2R t)) as [O'|O']].
      1,2: (assert (Z := Z1 ltac:(lra)); destruct (fterm_zero t (X i) (X (i + Z.of_nat q + 1)) (X i) (FB q i) Ht (HX _) (HX _) (HX _) (Gap _ _) F1 Z) as [F V]; split; [exact F|]; rewrite V; split; [lra|];
        assert (B0 : B x q i (B2R t) = 0) by (apply B_outside; [exact Mono|lra]); split; [|intros _; reflexivity]; assert (W0 : W x q i (B2R t) = 0) by (unfold W; rewrite B0; destruct (Rltb _ _); ring);
        rewrite W0; replace (0 - 0) with 0 by ring; rewrite Rabs_R0; lra).
      destruct (Gap (i + Z.of_nat q + 1) i) as [G|G]; [unfold x in *; lra|]. rewrite Rabs_pos_eq in G by lra.
      destruct (fterm_near t (X i) (X (i + Z.of_nat q + 1)) (X i) (FB q i) (B x q i (B2R t)) d (slip q) Ht (HX _) (HX _) (HX _) G ltac:(unfold x in *; lra) F1 P1 (conj N1 (L i)) Dq ltac:(lra) E1) as (F & P & E).
      split; [exact F|]. split; [exact P|]. split; [exact E|]. intros; lra. }
    assert (K2 : is_finite r2 = true /\ 0 <= B2R r2 /\ Rabs (B2R r2 - V x q (i + 1) (B2R t)) <= (d + (4 + / 10) * u) * V x q (i + 1) (B2R t) + (1 + / 100) * slip q + 4 * eta /\
      (B2R t < x (i + 1) \/ x (i + 1 + Z.of_nat q + 1) <= B2R t -> B2R r2 = 0)).
    { unfold r2. replace (i + Z.of_nat (S q) + 1)%Z with (i + 1 + Z.of_nat q + 1)%Z by lia.
      destruct (Rlt_le_dec (B2R t) (x (i + 1))) as [O|O]; [|destruct (Rle_lt_dec (x (i + 1 + Z.of_nat q + 1)) (B2R t)) as [O'|O']].
      1,2: (assert (Z := Z2 ltac:(lra)); destruct (fterm_zero (X (i + 1 + Z.of_nat q + 1)) t (X (i + 1 + Z.of_nat q + 1)) (X (i + 1)) (FB q (i + 1)) (HX _) Ht (HX _) (HX _) (Gap _ _) F2 Z) as [F V]; split; [exact F|]; rewrite V; split; [lra|];
        assert (B0 : B x q (i + 1) (B2R t) = 0) by (apply B_outside; [exact Mono|lra]); split; [|intros _; reflexivity]; assert (W0 : SplineLemmas.V x q (i + 1) (B2R t) = 0) by (unfold SplineLemmas.V; rewrite B0; destruct (Rltb _ _); ring);
        rewrite W0; replace (0 - 0) with 0 by ring; rewrite Rabs_R0; lra).
      destruct (Gap (i + 1 + Z.of_nat q + 1) (i + 1)) as [G|G]; [unfold x in *; lra|]. rewrite Rabs_pos_eq in G by lra.
      destruct (fterm_near (X (i + 1 + Z.of_nat q + 1)) t (X (i + 1 + Z.of_nat q + 1)) (X (i + 1)) (FB q (i + 1)) (B x q (i + 1) (B2R t)) d (slip q) (HX _) Ht (HX _) (HX _) G ltac:(unfold x in *; lra) F2 P2 (conj N2 (L _)) Dq ltac:(lra) E2) as (F & P & E).
      split; [exact F|]. split; [exact P|]. split; [exact E|]. intros; lra. }
    destruct K1 as (G1 & Q1 & D1 & Y1). destruct K2 as (G2 & Q2 & D2 & Y2). change (FB (S q) i) with (b64_add r1 r2). rewrite (B_step x q i (B2R t)).
    assert (Le1 := L i). assert (Le2 := L (i + 1)%Z). assert (A1 := W_V x q i (B2R t) Mono). assert (A2 := W_V x q (i + 1) (B2R t) Mono).
    set (w := W x q i (B2R t)) in *. set (v := V x q (i + 1) (B2R t)) in *. assert (Pw : 0 <= w) by apply WV. assert (Pv : 0 <= v) by apply WV'.
    assert (D3 : Rabs (B2R r1 + B2R r2 - (w + v)) <= (d + (4 + / 10) * u) * (w + v) + (2 + / 50) * slip q + 8 * eta).
    { replace (B2R r1 + B2R r2 - (w + v)) with ((B2R r1 - w) + (B2R r2 - v)) by ring. apply Rle_trans with (1 := Rabs_triang _ _). lra. }
    assert (Bd : B2R r1 + B2R r2 <= (1 + / 100) * (w + v) + 3 * slip q + 8 * eta).
    { apply Rabs_le_inv in D3. assert ((d + (4 + / 10) * u) * (w + v) <= / 100 * (w + v)) by (apply Rmult_le_compat_r; lra). lra. }
    assert (Wv : w + v <= 2) by lra.
    destruct (add_fin r1 r2 2 G1 G2 ltac:(lia)) as [F V]; [change (bpow radix2 2) with 4; rewrite Rabs_pos_eq; lra|]. split; [exact F|]. rewrite V. split; [|split].
    + apply rnd_at_least; [apply generic_format_0|lra].
    + assert (R0 := rnd_error (B2R r1 + B2R r2) _ ltac:(rewrite Rabs_pos_eq by lra; exact Bd)). rewrite slip_S, S_INR.
      replace (6 * (INR q + 1) * u) with (d + 6 * u) by (unfold d; ring). apply Rabs_le_inv in D3.
      assert (X1 : u * ((1 + / 100) * (w + v) + 3 * slip q + 8 * eta) <= (1 + / 100) * (u * (w + v)) + / 1000 * slip q + / 1000 * eta).
      { assert (u * slip q <= / 1000000 * slip q) by (apply Rmult_le_compat_r; lra). assert (u * eta <= / 1000000 * eta) by (apply Rmult_le_compat_r; lra). lra. }
      assert (0 <= u * (w + v)) by (apply Rmult_le_pos; lra). apply Rabs_le. lra.
    + intros O. assert (M1 : x i <= x (i + 1)) by (apply Mono; lia). assert (M2 : x (i + Z.of_nat q + 1) <= x (i + Z.of_nat (S q) + 1)) by (apply Mono; lia).
      rewrite Y1 by lra. rewrite Y2 by (replace (i + 1 + Z.of_nat q + 1)%Z with (i + Z.of_nat (S q) + 1)%Z by lia; lra). rewrite Rplus_0_l. apply round_0. apply valid_rnd_N.
Qed.
End Knots.
