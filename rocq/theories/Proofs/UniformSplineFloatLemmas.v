(** Rounding errors of uniform splines. *)
From Coq Require Import ZArith Reals List Bool Arith Lia Lra Psatz.
From Flocq Require Import Core IEEE754.BinarySingleNaN.
From Verif Require Import Model.Scalar Model.Vec Model.BoxFloat Model.PlaneFloat Model.BoxRayFloat Model.UniformSpline Model.UniformSplineFloat Model.MeshFloat.
From Verif Require Import Proofs.PlaneFloatLemmas Proofs.SplineFloat Proofs.BoxRayFloatLemmas Proofs.ClipFloatLemmas Proofs.MeshFloatLemmas Proofs.UniformSplineLemmas.
Import ListNotations.
Local Open Scope R_scope.

(** [f] is at most [E] rounding units of [M] away from [x], which is at most [B] times [M] *)
Definition near (M : R) (f : b64) (x B E : R) : Prop := is_finite f = true /\ Rabs x <= B * M /\ Rabs (B2R f - x) <= E * (u * M).

Section Near.
Variable M : R.
Hypothesis HM : bpow radix2 (-900) <= M <= bpow radix2 1000.
Lemma M_pos : 0 < M.
Proof. apply Rlt_le_trans with (2 := proj1 HM). apply bpow_gt_0. Qed.
Lemma unit_pos : 0 < u * M.
Proof. apply Rmult_lt_0_compat; [apply bpow_gt_0|apply M_pos]. Qed.
Lemma eta_unit : eta <= / 1000 * (u * M).
Proof.
  apply Rle_trans with (/ 1000 * (u * bpow radix2 (-900))).
  - rewrite <- bpow_plus. apply Rle_trans with (bpow radix2 (-10) * bpow radix2 (-53 + -900)); [rewrite <- bpow_plus; apply bpow_le; lia|].
    apply Rmult_le_compat_r; [apply bpow_ge_0|]. change (bpow radix2 (-10)) with (/ 1024). lra.
  - apply Rmult_le_compat_l; [lra|]. apply Rmult_le_compat_l; [apply bpow_ge_0|apply HM].
Qed.
Lemma near_magnitude z x B E : Rabs x <= B * M -> Rabs (z - x) <= E * (u * M) -> 0 <= B <= 100 -> 0 <= E <= 1000 -> Rabs z <= (B + / 1000) * M /\ Rabs z <= bpow radix2 1010.
Proof.
  intros Hx Hz HB HE. assert (P := M_pos). assert (U := v_small).
  assert (K : Rabs z <= (B + / 1000) * M).
  { replace z with (x + (z - x)) by ring. apply Rle_trans with (1 := Rabs_triang _ _).
    assert (E * (u * M) <= / 1000 * M); [|lra]. rewrite <- Rmult_assoc. apply Rmult_le_compat_r; [lra|]. nra. }
  split; [exact K|]. apply Rle_trans with (1 := K). apply Rle_trans with (1024 * bpow radix2 1000).
  - apply Rmult_le_compat; lra.
  - change 1024 with (bpow radix2 10). rewrite <- bpow_plus. apply bpow_le. lia.
Qed.
Lemma near_round z x B E : Rabs x <= B * M -> Rabs (z - x) <= E * (u * M) -> 0 <= B <= 100 -> 0 <= E <= 1000 -> Rabs (rnd z - x) <= (E + B + / 100) * (u * M).
Proof.
  intros Hx Hz HB HE. assert (P := M_pos). assert (Q := unit_pos). destruct (near_magnitude z x B E Hx Hz HB HE) as [K _].
  assert (R0 := rnd_error z _ K). assert (T := eta_unit). apply Rabs_le. apply Rabs_le_inv in Hz. nra.
Qed.

Lemma near_add f x B E g y C F D G : near M f x B E -> near M g y C F -> Rabs (x + y) <= D * M -> 0 <= E + F <= 1000 -> 0 <= D <= 100 ->
  E + F + D + / 100 <= G -> near M (b64_add f g) (x + y) D G.
Proof.
  intros (Ff & Bf & Ef) (Fg & Bg & Eg) HD HE HD' HG.
  assert (Z : Rabs (B2R f + B2R g - (x + y)) <= (E + F) * (u * M)).
  { replace (B2R f + B2R g - (x + y)) with ((B2R f - x) + (B2R g - y)) by ring. apply Rle_trans with (1 := Rabs_triang _ _). lra. }
  destruct (near_magnitude _ _ _ _ HD Z HD' HE) as [_ K]. destruct (add_fin f g 1010 Ff Fg ltac:(lia) K) as [F0 V].
  split; [exact F0|]. split; [exact HD|]. rewrite V. apply Rle_trans with (1 := near_round _ _ _ _ HD Z HD' HE). apply Rmult_le_compat_r; [left; apply unit_pos|exact HG].
Qed.
Lemma near_sub f x B E g y C F D G : near M f x B E -> near M g y C F -> Rabs (x - y) <= D * M -> 0 <= E + F <= 1000 -> 0 <= D <= 100 ->
  E + F + D + / 100 <= G -> near M (b64_sub f g) (x - y) D G.
Proof.
  intros (Ff & Bf & Ef) (Fg & Bg & Eg) HD HE HD' HG.
  assert (Z : Rabs (B2R f - B2R g - (x - y)) <= (E + F) * (u * M)).
  { replace (B2R f - B2R g - (x - y)) with ((B2R f - x) - (B2R g - y)) by ring. apply Rle_trans with (Rabs (B2R f - x) + Rabs (B2R g - y)).
    - unfold Rminus at 1. apply Rle_trans with (1 := Rabs_triang _ _). rewrite Rabs_Ropp. lra.
    - lra. }
  destruct (near_magnitude _ _ _ _ HD Z HD' HE) as [_ K]. destruct (sub_fin f g 1010 Ff Fg ltac:(lia) K) as [F0 V].
  split; [exact F0|]. split; [exact HD|]. rewrite V. apply Rle_trans with (1 := near_round _ _ _ _ HD Z HD' HE). apply Rmult_le_compat_r; [left; apply unit_pos|exact HG].
Qed.
(** [f] is a number without unit *)
Lemma near_product f x B E g y C F D : near 1 f x B E -> near M g y C F -> Rabs (x * y) <= D * M -> 0 <= B -> 0 <= E <= 10 -> 0 <= C -> 0 <= F <= 1000 ->
  B * F + C * E <= 900 -> 0 <= D <= 100 -> Rabs (B2R f * B2R g) <= bpow radix2 1010 /\ Rabs (rnd (B2R f * B2R g) - x * y) <= (B * F + C * E + D + / 50) * (u * M).
Proof.
  intros (Ff & Bf & Ef) (Fg & Bg & Eg) HD HB HE HC HF HS HD'. assert (P := M_pos). assert (Q := unit_pos). assert (U := v_small).
  rewrite Rmult_1_r in Bf, Ef.
  assert (Z : Rabs (B2R f * B2R g - x * y) <= (B * F + C * E + / 100) * (u * M)).
  { replace (B2R f * B2R g - x * y) with (x * (B2R g - y) + ((B2R f - x) * y + (B2R f - x) * (B2R g - y))) by ring.
    apply Rle_trans with (1 := Rabs_triang _ _). rewrite Rabs_mult.
    assert (H1 : Rabs x * Rabs (B2R g - y) <= B * (F * (u * M))) by (apply Rmult_le_compat; auto using Rabs_pos).
    assert (H2 : Rabs ((B2R f - x) * y + (B2R f - x) * (B2R g - y)) <= E * u * (C * M) + E * u * (F * (u * M))).
    { apply Rle_trans with (1 := Rabs_triang _ _). rewrite !Rabs_mult. apply Rplus_le_compat; apply Rmult_le_compat; auto using Rabs_pos. }
    assert (H3 : E * u * (F * (u * M)) <= / 100 * (u * M)).
    { replace (E * u * (F * (u * M))) with (E * F * u * (u * M)) by ring. apply Rmult_le_compat_r; [lra|]. assert (EF : 0 <= E * F <= 10000) by nra. nra. }
    lra. }
  assert (S0 : 0 <= B * F + C * E + / 100 <= 1000) by nra.
  destruct (near_magnitude _ _ _ _ HD Z HD' S0) as [_ K]. split; [exact K|].
  apply Rle_trans with (1 := near_round _ _ _ _ HD Z HD' S0). apply Rmult_le_compat_r; [lra|]. lra.
Qed.
Lemma near_mul f x B E g y C F D G : near 1 f x B E -> near M g y C F -> Rabs (x * y) <= D * M -> 0 <= B -> 0 <= E <= 10 -> 0 <= C -> 0 <= F <= 1000 ->
  B * F + C * E <= 900 -> 0 <= D <= 100 -> B * F + C * E + D + / 50 <= G -> near M (b64_mul f g) (x * y) D G.
Proof.
  intros Hf Hg HD HB HE HC HF HS HD' HG. destruct (near_product f x B E g y C F D Hf Hg HD HB HE HC HF HS HD') as [K Z].
  destruct (mul_fin f g 1010 (proj1 Hf) (proj1 Hg) ltac:(lia) K) as [F0 V]. split; [exact F0|]. split; [exact HD|]. rewrite V. apply Rle_trans with (1 := Z).
  apply Rmult_le_compat_r; [left; apply unit_pos|exact HG].
Qed.
Lemma near_mulr f x B E g y C F D G : near M g y C F -> near 1 f x B E -> Rabs (x * y) <= D * M -> 0 <= B -> 0 <= E <= 10 -> 0 <= C -> 0 <= F <= 1000 ->
  B * F + C * E <= 900 -> 0 <= D <= 100 -> B * F + C * E + D + / 50 <= G -> near M (b64_mul g f) (x * y) D G.
Proof.
  intros Hg Hf HD HB HE HC HF HS HD' HG. destruct (near_product f x B E g y C F D Hf Hg HD HB HE HC HF HS HD') as [K Z]. rewrite Rmult_comm in K.
  destruct (mul_fin g f 1010 (proj1 Hg) (proj1 Hf) ltac:(lia) K) as [F0 V]. split; [exact F0|]. split; [exact HD|]. rewrite V. rewrite (Rmult_comm (B2R g)). apply Rle_trans with (1 := Z).
  apply Rmult_le_compat_r; [left; apply unit_pos|exact HG].
Qed.
Lemma near_weaken f x B E B' E' : near M f x B E -> B <= B' -> E <= E' -> near M f x B' E'.
Proof.
  intros (F & HB & HE) L1 L2. split; [exact F|]. split.
  - apply Rle_trans with (1 := HB). apply Rmult_le_compat_r; [left; apply M_pos|exact L1].
  - apply Rle_trans with (1 := HE). apply Rmult_le_compat_r; [left; apply unit_pos|exact L2].
Qed.
End Near.

Lemma one_range : bpow radix2 (-900) <= 1 <= bpow radix2 1000.
Proof. change 1 with (bpow radix2 0). split; apply bpow_le; lia. Qed.
Lemma near_int n : (1 <= n <= 2 ^ 53)%Z -> near 1 (b64_of_Z n) (IZR n) (IZR n) 0.
Proof.
  intros H. destruct (b64_int n H) as [V F]. split; [exact F|]. rewrite V. assert (0 <= IZR n) by (apply IZR_le; lia). rewrite Rabs_pos_eq by assumption. split; [lra|].
  replace (IZR n - IZR n) with 0 by ring. rewrite Rabs_R0. lra.
Qed.
Lemma near_half : near 1 fspline_half (1 / 2) (1 / 2) 0.
Proof.
  change fspline_half with fhalf. destruct half_value as [V F]. split; [exact F|]. rewrite V. rewrite Rabs_pos_eq by lra. split; [lra|]. replace (/ 2 - 1 / 2) with 0 by field. rewrite Rabs_R0. lra.
Qed.
Lemma near_inverse g y E l G : near 1 g y 4 E -> l <= y -> 3 / 2 <= l -> 0 <= E <= 10 -> E / (l * l) + / l + / 50 <= G -> near 1 (b64_div (b64_of_Z 1) g) (1 / y) (/ l) G.
Proof.
  intros (Fg & Bg & Eg) Ly Hl HE HG. assert (U := v_small). rewrite Rmult_1_r in Bg, Eg. destruct (b64_int 1 ltac:(lia)) as [V1 F1].
  assert (Eu : E * u <= / 1000) by nra.
  assert (Lg : l - / 1000 <= B2R g) by (apply Rabs_le_inv in Eg; lra).
  assert (Il : 0 < / l <= 2 / 3).
  { split; [apply Rinv_0_lt_compat; lra|]. replace (2 / 3) with (/ (3 / 2)) by field. apply Rinv_le_contravar; lra. }
  assert (Iy : 0 < 1 / y <= / l).
  { unfold Rdiv. rewrite Rmult_1_l. split; [apply Rinv_0_lt_compat; lra|apply Rinv_le_contravar; lra]. }
  assert (HD : Rabs (1 / y) <= / l * 1) by (rewrite Rabs_pos_eq; lra).
  assert (Z : Rabs (B2R (b64_of_Z 1) / B2R g - 1 / y) <= (E / (l * l) + / 100) * (u * 1)).
  { rewrite V1. replace (1 / B2R g - 1 / y) with ((y - B2R g) * (/ B2R g * / y)) by (field; lra). rewrite Rabs_mult. rewrite Rmult_1_r.
    rewrite (Rabs_minus_sym y). assert (K : Rabs (/ B2R g * / y) <= / ((l - / 1000) * l)).
    { rewrite <- Rinv_mult. rewrite Rabs_pos_eq by (left; apply Rinv_0_lt_compat; nra). apply Rinv_le_contravar; nra. }
    apply Rle_trans with (E * u * / ((l - / 1000) * l)); [apply Rmult_le_compat; auto using Rabs_pos|].
    assert (J : E * / ((l - / 1000) * l) <= E / (l * l) + / 100).
    { replace (E * / ((l - / 1000) * l)) with (E / (l * l) + E * (/ 1000 / ((l - / 1000) * (l * l)))) by (field; lra).
      apply Rplus_le_compat_l. assert (/ 1000 / ((l - / 1000) * (l * l)) <= / 1000); [|nra].
      unfold Rdiv. rewrite <- (Rmult_1_r (/ 1000)) at 3. apply Rmult_le_compat_l; [lra|]. rewrite <- Rinv_1. apply Rinv_le_contravar; nra. }
    nra. }
  assert (El : 0 <= E / (l * l) <= 10).
  { unfold Rdiv. assert (0 < / (l * l) <= 1).
    { split; [apply Rinv_0_lt_compat; nra|]. rewrite <- Rinv_1. apply Rinv_le_contravar; nra. }
    nra. }
  destruct (near_magnitude 1 one_range _ _ _ _ HD Z ltac:(lra) ltac:(lra)) as [_ K]. destruct (div_fin (b64_of_Z 1) g 1010 F1 ltac:(lra) ltac:(lia) K) as [F0 V].
  split; [exact F0|]. split; [exact HD|]. rewrite V. apply Rle_trans with (1 := near_round 1 one_range _ _ _ _ HD Z ltac:(lra) ltac:(lra)). apply Rmult_le_compat_r; lra.
Qed.

Lemma abs_bound x m : - m <= x <= m -> Rabs x <= m.
Proof. apply Rabs_le. Qed.
Ltac near_bound := apply abs_bound; lra.

(** The divisors 4 - v and their inverses *)
Lemma sv_small i : (1 <= i)%nat -> 0 < sv i <= 2 / 7.
Proof.
  intros H. destruct i as [|j]; [lia|]. cbn [sv]. assert (B := sv_range j). unfold Rdiv at 1 2. rewrite !Rmult_1_l. split; [apply Rinv_0_lt_compat; lra|].
  replace (2 / 7) with (/ (7 / 2)) by field. apply Rinv_le_contravar; lra.
Qed.
Lemma near_four i E : near 1 (fsv i) (sv i) (1 / 2) E -> 0 <= E <= 1 -> near 1 (b64_sub (b64_of_Z 4) (fsv i)) (4 - sv i) 4 (E + 4 + / 100).
Proof.
  intros H HE. assert (B := sv_range i). apply (near_sub 1 one_range) with 4 0 (1 / 2) E; [exact (near_int 4 ltac:(lia))|exact H|near_bound|lra|lra|lra].
Qed.
Lemma near_v i : near 1 (fsv i) (sv i) (1 / 2) 1.
Proof.
  induction i as [|j IH].
  - apply (near_weaken 1 one_range) with (1 / 2) 0; [exact near_half|lra|lra].
  - cbn [fsv sv]. assert (B := sv_range j). apply (near_weaken 1 one_range) with (/ (7 / 2)) 1; [|lra|lra].
    apply near_inverse with (1 + 4 + / 100); [apply near_four; [exact IH|lra]|lra|lra|lra|]. lra.
Qed.
Lemma near_v_inner i : (1 <= i)%nat -> near 1 (fsv i) (sv i) (2 / 7) 1.
Proof.
  intros H. destruct (near_v i) as (F & _ & E). split; [exact F|]. split; [|exact E]. assert (B := sv_small i H). near_bound.
Qed.
Lemma near_w i : near 1 (b64_div (b64_of_Z 1) (b64_sub (b64_of_Z 2) (fsv i))) (1 / (2 - sv i)) (2 / 3) 3.
Proof.
  assert (B := sv_range i). apply (near_weaken 1 one_range) with (/ (3 / 2)) 3; [|lra|lra].
  apply near_inverse with (1 + 2 + / 100); [|lra|lra|lra|lra].
  apply (near_weaken 1 one_range) with 2 (1 + 2 + / 100); [|lra|lra].
  apply (near_sub 1 one_range) with 2 0 (1 / 2) 1; [exact (near_int 2 ltac:(lia))|apply near_v|near_bound|lra|lra|lra].
Qed.

Section Dimension.
Variable M : R.
Hypothesis HM : bpow radix2 (-900) <= M <= bpow radix2 1000.
Variable x : list b64.
Variable e : b64.
Hypothesis Hx : Forall (fun p => is_finite p = true /\ Rabs (B2R p) <= M) x.
Hypothesis He : is_finite e = true /\ Rabs (B2R e) <= 1.
Hypothesis Hn : (2 <= length x)%nat.
Let X := map (fun p : b64 => B2R p) x.
Let E := B2R e.

Lemma px_exact i : px X i = B2R (fpx x i).
Proof. unfold px, fpx, X. change 0 with (B2R b64_0). apply (map_nth (fun p : b64 => B2R p)). Qed.
Lemma num_exact : num X = fnum x.
Proof. unfold num, fnum, X. apply map_length. Qed.
Lemma near_p i : near M (fpx x i) (px X i) 1 0.
Proof.
  rewrite px_exact. assert (P := M_pos M HM). assert (K : is_finite (fpx x i) = true /\ Rabs (B2R (fpx x i)) <= M).
  { unfold fpx. destruct (Nat.lt_ge_cases i (length x)) as [L|L].
    - rewrite Forall_forall in Hx. apply Hx. apply nth_In. exact L.
    - rewrite nth_overflow by exact L. split; [reflexivity|]. cbn. rewrite Rabs_R0. lra. }
  split; [apply K|]. split; [rewrite Rmult_1_l; apply K|]. replace (B2R (fpx x i) - B2R (fpx x i)) with 0 by ring. rewrite Rabs_R0. lra.
Qed.
Lemma p_bound i : - M <= px X i <= M.
Proof. destruct (near_p i) as (_ & B & _). rewrite Rmult_1_l in B. apply Rabs_le_inv in B. exact B. Qed.
Lemma near_diff i j : near M (b64_sub (fpx x i) (fpx x j)) (px X i - px X j) 2 (2 + / 100).
Proof.
  apply (near_sub M HM) with 1 0 1 0; try apply near_p; try lra. assert (A := p_bound i). assert (B := p_bound j). near_bound.
Qed.
Lemma near_y i : near M (fsy x i) (sy X i) 6 13.
Proof.
  assert (G : forall i j, near M (b64_mul (b64_of_Z 3) (b64_sub (fpx x i) (fpx x j))) (3 * (px X i - px X j)) 6 13).
  { intros a b. apply (near_mul M HM) with 3 0 2 (2 + / 100); [exact (near_int 3 ltac:(lia))|apply near_diff| |lra|lra|lra|lra|lra|lra|lra].
    assert (A := p_bound a). assert (B := p_bound b). near_bound. }
  unfold fsy, sy. rewrite num_exact. destruct (i =? 0)%nat; [apply G|]. destruct (i =? fnum x - 1)%nat; apply G.
Qed.
Lemma y_bound i : - (6 * M) <= sy X i <= 6 * M.
Proof. destruct (near_y i) as (_ & B & _). apply Rabs_le_inv in B. exact B. Qed.
Lemma near_e : near 1 e E 1 0.
Proof. split; [apply He|]. split; [rewrite Rmult_1_r; apply He|]. unfold E. replace (B2R e - B2R e) with 0 by ring. rewrite Rabs_R0. lra. Qed.
Lemma near_ev f v B F G : near 1 f v B F -> 0 <= B <= 1 -> 0 <= F <= 10 -> F + B + / 50 <= G -> near 1 (b64_mul e f) (E * v) B G.
Proof.
  intros H HB HF HG. apply (near_mul 1 one_range) with 1 0 B F; [exact near_e|exact H| |lra|lra|lra|lra|lra|lra|lra].
  destruct H as (_ & H & _). rewrite Rabs_mult. rewrite <- (Rmult_1_l (B * 1)). apply Rmult_le_compat; auto using Rabs_pos. apply He.
Qed.
(** a step of the elimination *)
Lemma near_step f v B F g q j G : near 1 f v B F -> 0 <= B <= 1 -> 0 <= F <= 5 -> near M g q 3 40 -> B * 63 + 9 * (F + B + / 50) + B * 9 + / 50 <= G ->
  near M (b64_mul (b64_mul e f) (b64_sub (fsy x j) g)) (E * v * (sy X j - q)) (B * 9) G.
Proof.
  intros Hf HB HF Hg HG. assert (Y := y_bound j). assert (Q := proj1 (proj2 Hg)). apply Rabs_le_inv in Q.
  assert (D : near M (b64_sub (fsy x j) g) (sy X j - q) 9 63).
  { apply (near_sub M HM) with 6 13 3 40; [apply near_y|exact Hg|near_bound|lra|lra|lra]. }
  assert (V := near_ev f v B F _ Hf HB ltac:(lra) (Rle_refl _)).
  apply (near_mul M HM) with B (F + B + / 50) 9 63; [exact V|exact D| |lra|lra|lra|lra|lra|lra|lra].
  destruct V as (_ & V & _). destruct D as (_ & D & _). rewrite Rabs_mult, Rmult_assoc. rewrite Rmult_1_r in V. apply Rmult_le_compat; auto using Rabs_pos.
Qed.
Lemma near_q i : (i < fnum x - 1)%nat -> near M (fsq x e i) (sq X E i) 3 40.
Proof.
  induction i as [|j IH]; intros L.
  - cbn [fsq sq]. apply (near_mul M HM) with (1 / 2) 0 6 13; [exact near_half|apply near_y| |lra|lra|lra|lra|lra|lra|lra].
    assert (Y := y_bound 0). near_bound.
  - cbn [fsq sq]. rewrite num_exact. replace (S j =? fnum x - 1)%nat with false by (symmetry; apply Nat.eqb_neq; lia).
    apply (near_weaken M HM) with (2 / 7 * 9) 40; [|lra|lra].
    apply near_step with 1; [apply near_v_inner; lia|lra|lra|apply IH; lia|lra].
Qed.
Lemma near_q_last : near M (fsq x e (fnum x - 1)) (sq X E (fnum x - 1)) 6 90.
Proof.
  destruct (fnum x - 1)%nat as [|j] eqn:K; [unfold fnum in K; lia|]. cbn [fsq sq]. rewrite num_exact, K, Nat.eqb_refl.
  apply (near_weaken M HM) with (2 / 3 * 9) 90; [|lra|lra]. apply near_step with 3; [apply near_w|lra|lra|apply near_q; lia|lra].
Qed.
Lemma near_down k : (k <= fnum x - 1)%nat -> near M (fsdown x e k) (sdown X E k) 6 120.
Proof.
  induction k as [|k IH]; intros L.
  - cbn [fsdown sdown]. rewrite num_exact. apply (near_weaken M HM) with 6 90; [apply near_q_last|lra|lra].
  - cbn [fsdown sdown]. rewrite num_exact. assert (I := IH ltac:(lia)). assert (V := near_v (fnum x - 1 - S k)). assert (W := sv_range (fnum x - 1 - S k)).
    assert (Q := near_q (fnum x - 1 - S k) ltac:(lia)).
    assert (B := proj1 (proj2 I)). apply Rabs_le_inv in B. assert (C := proj1 (proj2 Q)). apply Rabs_le_inv in C. assert (P := M_pos M HM).
    assert (K : Rabs (sv (fnum x - 1 - S k) * sdown X E k) <= 3 * M).
    { replace (3 * M) with (1 / 2 * (6 * M)) by field. rewrite Rabs_mult. apply Rmult_le_compat; auto using Rabs_pos; [apply abs_bound; lra|exact (proj1 (proj2 I))]. }
    assert (J := near_mul M HM _ _ _ _ _ _ _ _ 3 70 V I K ltac:(lra) ltac:(lra) ltac:(lra) ltac:(lra) ltac:(lra) ltac:(lra) ltac:(lra)).
    apply Rabs_le_inv in K. apply (near_sub M HM) with 3 40 3 70; [exact Q|exact J|near_bound|lra|lra|lra].
Qed.
Lemma near_s i : near M (fss x e i) (ss X E i) 6 120.
Proof. unfold fss, ss. rewrite num_exact. apply near_down. lia. Qed.
Lemma s_bound i : - (6 * M) <= ss X E i <= 6 * M.
Proof. destruct (near_s i) as (_ & B & _). apply Rabs_le_inv in B. exact B. Qed.
Lemma near_times n i : (1 <= n <= 3)%Z -> near M (b64_mul (b64_of_Z n) (fpx x i)) (IZR n * px X i) (IZR n) (IZR n + / 50).
Proof.
  intros H. assert (N : 1 <= IZR n <= 3) by (split; apply IZR_le; lia). apply (near_mul M HM) with (IZR n) 0 1 0; [apply near_int; lia|apply near_p| |lra|lra|lra|lra|lra|lra|lra].
  assert (A := p_bound i). apply abs_bound. nra.
Qed.
Lemma near_double i : near M (b64_mul (b64_of_Z 2) (fss x e i)) (2 * ss X E i) 12 253.
Proof.
  apply (near_mul M HM) with 2 0 6 120; [exact (near_int 2 ltac:(lia))|apply near_s| |lra|lra|lra|lra|lra|lra|lra]. assert (A := s_bound i). near_bound.
Qed.
Lemma near_c2 i : near M (fcoeff2 x e i) (coeff2 X E i) 24 430.
Proof.
  unfold fcoeff2, coeff2. assert (A := p_bound i). assert (B := p_bound (i + 1)). assert (C := s_bound i). assert (D := s_bound (i + 1)).
  apply (near_sub M HM) with 18 285 6 120; [|apply near_s|near_bound|lra|lra|lra].
  apply (near_sub M HM) with 6 13 12 253; [|apply near_double|near_bound|lra|lra|lra].
  apply (near_sub M HM) with 3 (3 + / 50) 3 (3 + / 50); [apply near_times; lia|apply near_times; lia|near_bound|lra|lra|lra].
Qed.
Lemma near_c3 i : near M (fcoeff3 x e i) (coeff3 X E i) 16 280.
Proof.
  unfold fcoeff3, coeff3. assert (A := p_bound i). assert (B := p_bound (i + 1)). assert (C := s_bound i). assert (D := s_bound (i + 1)).
  apply (near_add M HM) with 10 140 6 120; [|apply near_s|near_bound|lra|lra|lra].
  apply (near_add M HM) with 4 9 6 120; [|apply near_s|near_bound|lra|lra|lra].
  apply (near_sub M HM) with 2 (2 + / 50) 2 (2 + / 50); [apply near_times; lia|apply near_times; lia|near_bound|lra|lra|lra].
Qed.

(** the value of a polynomial *)
Lemma share_bound t y B : 0 <= t <= 1 -> - (B * M) <= y <= B * M -> 0 <= B -> - (B * M) <= t * y <= B * M.
Proof. intros T Y HB. assert (P := M_pos M HM). assert (0 <= B * M) by nra. nra. Qed.
Lemma coeff_bounds i : - (24 * M) <= coeff2 X E i <= 24 * M /\ - (16 * M) <= coeff3 X E i <= 16 * M.
Proof. split; [destruct (near_c2 i) as (_ & B & _)|destruct (near_c3 i) as (_ & B & _)]; apply Rabs_le_inv in B; exact B. Qed.
Lemma near_cubic i t : is_finite t = true -> 0 <= B2R t <= 1 ->
  near M (fcubic (fcoeff0 x i) (fcoeff1 x e i) (fcoeff2 x e i) (fcoeff3 x e i) t) (seg X E i (B2R t)) 47 1022.
Proof.
  intros F T. assert (Nt : near 1 t (B2R t) 1 0).
  { split; [exact F|]. split; [rewrite Rabs_pos_eq; lra|]. replace (B2R t - B2R t) with 0 by ring. rewrite Rabs_R0. lra. }
  assert (A := p_bound i). assert (B := s_bound i). destruct (coeff_bounds i) as [C D].
  assert (B1 := share_bound _ _ _ T B ltac:(lra)). assert (C1 := share_bound _ _ _ T C ltac:(lra)). assert (C2 := share_bound _ _ _ T C1 ltac:(lra)).
  assert (D1 := share_bound _ _ _ T D ltac:(lra)). assert (D2 := share_bound _ _ _ T D1 ltac:(lra)). assert (D3 := share_bound _ _ _ T D2 ltac:(lra)).
  unfold seg, cubic, fcubic, coeff0, coeff1, fcoeff0, fcoeff1.
  apply (near_add M HM) with 31 645 16 329; [| |near_bound|lra|lra|lra].
  - apply (near_add M HM) with 7 134 24 479; [| |near_bound|lra|lra|lra].
    + apply (near_add M HM) with 1 0 6 (126 + / 50); [apply near_p| |near_bound|lra|lra|lra].
      apply (near_mulr M HM) with 1 0 6 120; [apply near_s|exact Nt|near_bound|lra|lra|lra|lra|lra|lra|lra].
    + apply (near_mulr M HM) with 1 0 24 (454 + / 50); [|exact Nt|near_bound|lra|lra|lra|lra|lra|lra|lra].
      apply (near_mulr M HM) with 1 0 24 430; [apply near_c2|exact Nt|near_bound|lra|lra|lra|lra|lra|lra|lra].
  - apply (near_mulr M HM) with 1 0 16 (312 + / 25); [|exact Nt|near_bound|lra|lra|lra|lra|lra|lra|lra].
    apply (near_mulr M HM) with 1 0 16 (296 + / 50); [|exact Nt|near_bound|lra|lra|lra|lra|lra|lra|lra].
    apply (near_mulr M HM) with 1 0 16 280; [apply near_c3|exact Nt|near_bound|lra|lra|lra|lra|lra|lra|lra].
Qed.
Lemma times_zero (f t : b64) : is_finite f = true -> is_finite t = true -> B2R t = 0 -> is_finite (b64_mul f t) = true /\ B2R (b64_mul f t) = 0.
Proof.
  intros Ff Ft Z. destruct (mul_fin f t 0 Ff Ft ltac:(lia)) as [F V]; [rewrite Z, Rmult_0_r, Rabs_R0; apply bpow_ge_0|]. split; [exact F|]. rewrite V, Z, Rmult_0_r. apply round_0. apply valid_rnd_N.
Qed.
Lemma plus_zero (f t : b64) : is_finite f = true -> is_finite t = true -> B2R t = 0 -> is_finite (b64_add f t) = true /\ B2R (b64_add f t) = B2R f.
Proof.
  intros Ff Ft Z. destruct (add_exact f t Ff Ft) as [F V]; [rewrite Z, Rplus_0_r; apply generic_format_B2R|rewrite Z, Rplus_0_r; apply abs_B2R_lt_emax|].
  split; [exact F|]. rewrite V, Z. ring.
Qed.
Lemma cubic_start i t : is_finite t = true -> B2R t = 0 ->
  let v := fcubic (fcoeff0 x i) (fcoeff1 x e i) (fcoeff2 x e i) (fcoeff3 x e i) t in is_finite v = true /\ B2R v = B2R (fpx x i).
Proof.
  intros F Z v. unfold v, fcubic. assert (F0 := proj1 (near_p i)). assert (F1 := proj1 (near_s i)). assert (F2 := proj1 (near_c2 i)). assert (F3 := proj1 (near_c3 i)).
  destruct (times_zero _ t F1 F Z) as [G1 Z1]. destruct (times_zero _ t F2 F Z) as [G2 _]. destruct (times_zero _ t G2 F Z) as [H2 Z2].
  destruct (times_zero _ t F3 F Z) as [G3 _]. destruct (times_zero _ t G3 F Z) as [H3 _]. destruct (times_zero _ t H3 F Z) as [I3 Z3].
  destruct (plus_zero _ _ F0 G1 Z1) as [A1 V1]. destruct (plus_zero _ _ A1 H2 Z2) as [A2 V2]. destruct (plus_zero _ _ A2 I3 Z3) as [A3 V3].
  split; [exact A3|]. unfold fcoeff0, fcoeff1 in *. rewrite V3, V2, V1. reflexivity.
Qed.
(** how fast the exact spline moves *)
Lemma seg_lipschitz i a b : 0 <= a <= 1 -> 0 <= b <= 1 -> Rabs (seg X E i a - seg X E i b) <= 102 * M * Rabs (a - b).
Proof.
  intros Ha Hb. assert (B := s_bound i). destruct (coeff_bounds i) as [C D]. unfold seg, cubic, coeff0, coeff1. assert (P := M_pos M HM).
  set (p := coeff2 X E i) in *. set (q := coeff3 X E i) in *. set (s := ss X E i) in *.
  replace (px X i + a * s + a * (a * p) + a * (a * (a * q)) - (px X i + b * s + b * (b * p) + b * (b * (b * q)))) with ((s + (a + b) * p + (a * a + a * b + b * b) * q) * (a - b)) by ring.
  rewrite Rabs_mult. apply Rmult_le_compat_r; [apply Rabs_pos|].
  assert (K1 : Rabs ((a + b) * p) <= 2 * (24 * M)) by (rewrite Rabs_mult; apply Rmult_le_compat; auto using Rabs_pos; apply abs_bound; lra).
  assert (K2 : Rabs ((a * a + a * b + b * b) * q) <= 3 * (16 * M)) by (rewrite Rabs_mult; apply Rmult_le_compat; auto using Rabs_pos; apply abs_bound; nra).
  apply Rabs_le_inv in K1, K2. apply abs_bound. lra.
Qed.
Lemma seg_step i j a b : 0 <= a <= 1 -> 0 <= b <= 1 -> Rabs (INR i + a - (INR j + b)) < 1 -> Rabs (seg X E i a - seg X E j b) <= 102 * M * Rabs (INR i + a - (INR j + b)).
Proof.
  assert (P := M_pos M HM). assert (W : forall i a b, 0 <= a <= 1 -> 0 <= b <= 1 -> Rabs (INR i + a - (INR (S i) + b)) < 1 ->
    Rabs (seg X E i a - seg X E (S i) b) <= 102 * M * Rabs (INR i + a - (INR (S i) + b))).
  { clear i j a b. intros i a b Ha Hb L. rewrite S_INR in *. replace (INR i + a - (INR i + 1 + b)) with (- (1 - a + b)) in * by ring.
    rewrite Rabs_Ropp in *. rewrite (Rabs_pos_eq (1 - a + b)) in * by lra.
    assert (K1 := seg_lipschitz i a 1 Ha ltac:(lra)). assert (K2 := seg_lipschitz (S i) 0 b ltac:(lra) Hb). rewrite seg_1 in K1. rewrite seg_0 in K2.
    rewrite (Rabs_minus_sym a 1) in K1. rewrite (Rabs_pos_eq (1 - a)) in K1 by lra. rewrite Rabs_minus_sym, Rabs_minus_sym in K2. rewrite (Rabs_minus_sym 0 b) in K2. rewrite (Rabs_pos_eq (b - 0)) in K2 by lra.
    replace (seg X E i a - seg X E (S i) b) with ((seg X E i a - px X (S i)) + (px X (S i) - seg X E (S i) b)) by ring. apply Rle_trans with (1 := Rabs_triang _ _). lra. }
  intros Ha Hb L. assert (K : (i = j \/ j = S i \/ i = S j)%nat).
  { apply Rabs_lt_inv in L. destruct (Nat.lt_trichotomy i j) as [H|[H|H]]; [|now left|].
    - right. left. assert (Q : INR j < INR (S (S i))) by (rewrite !S_INR; lra). apply INR_lt in Q. lia.
    - right. right. assert (Q : INR i < INR (S (S j))) by (rewrite !S_INR; lra). apply INR_lt in Q. lia. }
  destruct K as [->|[->| ->]].
  - replace (INR j + a - (INR j + b)) with (a - b) by ring. apply seg_lipschitz; assumption.
  - apply W; assumption.
  - rewrite Rabs_minus_sym, (Rabs_minus_sym (INR (S j) + a)). apply W; [assumption|assumption|]. rewrite Rabs_minus_sym. exact L.
Qed.
End Dimension.
