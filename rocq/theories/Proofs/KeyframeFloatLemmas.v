(** Rounding in the interpolation of keyframes. *)
From Coq Require Import ZArith Reals List Bool Lia Lra.
From Flocq Require Import Core IEEE754.BinarySingleNaN.
From Flocq Require Import Relative Plus_error.
From Verif Require Import Model.Scalar Model.BoxFloat Model.PlaneFloat Model.Keyframe Model.KeyframeFloat Spec.FloatSpec Spec.ClipFloatSpec Spec.KeyframeSpec Spec.KeyframeFloatSpec
  Proofs.PlaneFloatLemmas Proofs.SplineFloat Proofs.BoxRayFloatLemmas Proofs.ClipFloatLemmas Proofs.KeyframeLemmas.
Import ListNotations.
Local Open Scope R_scope.

Lemma of_R t : Rabs (rnd t) < bpow radix2 1024 -> B2R (b64_of_R t) = rnd t /\ is_finite (b64_of_R t) = true.
Proof.
  intros H. assert (V := valid64). unfold b64_of_R. cbv zeta. set (r := rnd t) in *.
  assert (G : generic_format radix2 f64 r) by (apply generic_format_round; auto with typeclass_instances).
  assert (C := binary_normalize_correct 53 1024 b64_prec_gt_0 b64_prec_lt_emax mode_NE (Ztrunc (scaled_mantissa radix2 f64 r)) (cexp radix2 f64 r) false). cbv zeta in C.
  change (SpecFloat.fexp 53 1024) with f64 in C. cbn [round_mode] in C. change (F2R _) with (F2R (Float radix2 (Ztrunc (scaled_mantissa radix2 f64 r)) (cexp radix2 f64 r))) in C.
  rewrite <- G in C. rewrite (round_generic radix2 f64 ZnearestE r G), Rlt_bool_true in C by exact H. split; apply C.
Qed.

Lemma below_one t : generic_format radix2 f64 t -> t < 1 -> t <= 1 - u.
Proof.
  intros F T. assert (V := valid64). apply Rle_trans with (pred radix2 f64 (bpow radix2 0)).
  - apply pred_ge_gt; [exact V|exact F|apply generic_format_FLT_bpow; [reflexivity|lia]|exact T].
  - rewrite pred_bpow. right. reflexivity.
Qed.
Lemma format_below_one : generic_format radix2 f64 (1 - u).
Proof.
  assert (V := valid64). replace (1 - u) with (pred radix2 f64 (bpow radix2 0)) by (rewrite pred_bpow; reflexivity). apply generic_format_pred; [exact V|]. apply generic_format_FLT_bpow; [reflexivity|lia].
Qed.
(** A factor below one takes a normal number down to the one before at least. *)
Lemma product_before t d : generic_format radix2 f64 t -> generic_format radix2 f64 d -> 0 <= t < 1 -> bpow radix2 (53 + (3 - 1024 - 53)) <= d -> rnd (d * t) <= pred radix2 f64 d.
Proof.
  intros F G T D. assert (V := valid64). assert (P : 0 < d) by (apply Rlt_le_trans with (2 := D), bpow_gt_0).
  apply round_N_le_midp; [exact V|apply generic_format_pred; assumption|].
  assert (S := succ_pred radix2 f64 d G). rewrite S. assert (A := below_one t F (proj2 T)).
  assert (Q0 : bpow radix2 (53 + (3 - 1024 - 53) - 1) <= pred radix2 f64 d).
  { apply pred_ge_gt; [exact V|apply generic_format_FLT_bpow; [reflexivity|lia]|exact G|]. apply Rlt_le_trans with (2 := D), bpow_lt. lia. }
  assert (Q1 : pred radix2 f64 d < d) by (apply pred_lt_id; lra). pose proof (bpow_gt_0 radix2 (53 + (3 - 1024 - 53) - 1)) as Q2.
  rewrite succ_eq_pos in S by lra.
  assert (U : ulp radix2 f64 (pred radix2 f64 d) <= pred radix2 f64 d * bpow radix2 (1 - 53)).
  { rewrite <- (Rabs_pos_eq (pred radix2 f64 d)) at 2 by lra. apply ulp_FLT_le. rewrite Rabs_pos_eq by lra.
    apply Rle_trans with (2 := Q0). apply bpow_le. lia. }
  assert (B : bpow radix2 (1 - 53) = 2 * u) by (change (1 - 53)%Z with (1 + -53)%Z; rewrite bpow_plus; reflexivity).
  rewrite B in U. assert (B0 := bpow_gt_0 radix2 (-53)). set (b := bpow radix2 (-53)) in *. set (p := pred radix2 f64 d) in *.
  assert (M : d * t <= d * (1 - b)) by (apply Rmult_le_compat_l; lra).
  assert (K : p * b < d * b) by (apply Rmult_lt_compat_r; assumption). lra.
Qed.
Lemma rnd_mono x y : x <= y -> rnd x <= rnd y.
Proof. assert (V := valid64). intros H. apply round_le; auto with typeclass_instances. Qed.
Lemma rnd_0 : rnd 0 = 0.
Proof. assert (V := valid64). apply round_0. auto with typeclass_instances. Qed.
(** The step from [a] is never longer than the way. *)
Lemma step_short a b t : generic_format radix2 f64 a -> generic_format radix2 f64 b -> generic_format radix2 f64 t -> 0 <= t < 1 -> a <= b -> 0 <= rnd (rnd (b - a) * t) <= b - a.
Proof.
  intros A B T R L. assert (V := valid64). set (d := rnd (b - a)).
  assert (G : generic_format radix2 f64 d) by (apply generic_format_round; auto with typeclass_instances).
  assert (D0 : 0 <= d) by (rewrite <- rnd_0; apply rnd_mono; lra). split.
  - rewrite <- rnd_0. apply rnd_mono. apply Rmult_le_pos; lra.
  - destruct (Rle_lt_dec d (b - a)) as [C|C].
    + apply Rle_trans with (2 := C). apply Rle_trans with (rnd d); [apply rnd_mono; nra|rewrite (round_generic radix2 f64 ZnearestE d G); lra].
    + assert (N : bpow radix2 (53 + (3 - 1024 - 53)) <= b - a).
      { apply Rnot_lt_le. intros N. assert (F : generic_format radix2 f64 (b + - a)).
        { apply FLT_format_plus_small; [reflexivity|exact B|now apply generic_format_opp|]. rewrite Rabs_pos_eq by lra. lra. }
        revert C. unfold d. rewrite (round_generic radix2 f64 ZnearestE (b - a) F). lra. }
      apply Rle_trans with (pred radix2 f64 d); [apply product_before; auto; lra|].
      apply Rnot_lt_le. intros K. assert (Q : d <= pred radix2 f64 d).
      { unfold d at 1. rewrite <- (round_generic radix2 f64 ZnearestE (pred radix2 f64 d)) by (apply generic_format_pred; assumption). apply rnd_mono. lra. }
      pose proof (bpow_gt_0 radix2 (53 + (3 - 1024 - 53))). pose proof (pred_lt_id radix2 f64 d ltac:(lra)). lra.
Qed.
Definition lerp_value (a b t : R) : R := rnd (rnd (rnd (b - a) * t) + a).
Lemma lerp_up a b t : generic_format radix2 f64 a -> generic_format radix2 f64 b -> generic_format radix2 f64 t -> 0 <= t < 1 -> a <= b -> a <= lerp_value a b t <= b.
Proof.
  intros A B T R L. assert (V := valid64). destruct (step_short a b t A B T R L) as [S1 S2]. unfold lerp_value. split.
  - rewrite <- (round_generic radix2 f64 ZnearestE a A) at 1. apply rnd_mono. lra.
  - rewrite <- (round_generic radix2 f64 ZnearestE b B) at 2. apply rnd_mono. lra.
Qed.
Lemma lerp_opp a b t : lerp_value (- a) (- b) t = - lerp_value a b t.
Proof.
  unfold lerp_value. replace (- b - - a) with (- (b - a)) by ring. rewrite round_NE_opp. replace (- rnd (b - a) * t) with (- (rnd (b - a) * t)) by ring. rewrite round_NE_opp.
  rewrite <- Ropp_plus_distr. apply round_NE_opp.
Qed.
Lemma lerp_mono a b t t' : a <= b -> t <= t' -> lerp_value a b t <= lerp_value a b t'.
Proof.
  intros L T. unfold lerp_value. apply rnd_mono, Rplus_le_compat_r, rnd_mono, Rmult_le_compat_l; [|exact T]. rewrite <- rnd_0. apply rnd_mono. lra.
Qed.
Lemma lerp_zero a b : generic_format radix2 f64 a -> lerp_value a b 0 = a.
Proof. intros A. assert (V := valid64). unfold lerp_value. rewrite Rmult_0_r, rnd_0, Rplus_0_l. exact (round_generic radix2 f64 ZnearestE a A). Qed.

Lemma format_of (x : b64) : generic_format radix2 f64 (B2R x).
Proof. exact (generic_format_B2R 53 1024 x). Qed.
Lemma flerp_value (a b t : b64) : tame a -> tame b -> is_finite t = true -> 0 <= B2R t <= 1 -> is_finite (flerp a b t) = true /\ B2R (flerp a b t) = lerp_value (B2R a) (B2R b) (B2R t).
Proof.
  intros [Fa Ba] [Fb Bb] Ft T. pose proof (double_pow 499) as D9. pose proof (double_pow 500) as D0. change (499 + 1)%Z with 500%Z in D9. change (500 + 1)%Z with 501%Z in D0.
  assert (H1 : Rabs (B2R b - B2R a) <= bpow radix2 500) by (unfold Rminus; apply Rle_trans with (1 := Rabs_triang _ _); rewrite Rabs_Ropp; lra).
  destruct (sub_fin b a 500 Fb Fa ltac:(lia) H1) as [F1 V1]. pose proof (rnd_bound _ 500 ltac:(lia) H1) as H2. rewrite <- V1 in H2.
  assert (H3 : Rabs (B2R (b64_sub b a) * B2R t) <= bpow radix2 500) by (rewrite Rabs_mult, (Rabs_pos_eq (B2R t)) by lra; pose proof (Rabs_pos (B2R (b64_sub b a))); nra).
  destruct (mul_fin _ t 500 F1 Ft ltac:(lia) H3) as [F2 V2]. pose proof (rnd_bound _ 500 ltac:(lia) H3) as H4. rewrite <- V2 in H4.
  assert (H5 : Rabs (B2R (b64_mul (b64_sub b a) t) + B2R a) <= bpow radix2 501) by (apply Rle_trans with (1 := Rabs_triang _ _); pose proof (bpow_ge_0 radix2 499); lra).
  destruct (add_fin _ a 501 F2 Fa ltac:(lia) H5) as [F3 V3]. split; [exact F3|]. unfold flerp. rewrite V3, V2, V1. reflexivity.
Qed.
Lemma flerp_on_way (a b t : b64) : tame a -> tame b -> is_finite t = true -> 0 <= B2R t < 1 -> on_way a (flerp a b t) b.
Proof.
  intros A B F T. destruct (flerp_value a b t A B F ltac:(lra)) as [FV V]. split; [exact FV|]. rewrite V.
  destruct (Rle_lt_dec (B2R a) (B2R b)) as [L|L].
  - left. apply lerp_up; auto using format_of.
  - right. pose proof (lerp_up (- B2R a) (- B2R b) (B2R t) (generic_format_opp _ _ _ (format_of a)) (generic_format_opp _ _ _ (format_of b)) (format_of t) T ltac:(lra)) as K. rewrite lerp_opp in K. lra.
Qed.
Lemma flerp_not_after (a b t t' : b64) : tame a -> tame b -> is_finite t = true -> is_finite t' = true -> 0 <= B2R t <= B2R t' -> B2R t' <= 1 -> not_after a (flerp a b t) (flerp a b t') b.
Proof.
  intros A B F F' T T'. destruct (flerp_value a b t A B F ltac:(lra)) as [_ V]. destruct (flerp_value a b t' A B F' ltac:(lra)) as [_ V']. unfold not_after. rewrite V, V'. split; intros L.
  - apply lerp_mono; lra.
  - pose proof (lerp_mono (- B2R a) (- B2R b) (B2R t) (B2R t') ltac:(lra) ltac:(lra)) as K. rewrite !lerp_opp in K. lra.
Qed.
Lemma on_way_tame a x b : tame a -> tame b -> on_way a x b -> tame x.
Proof.
  intros [Fa Ba] [Fb Bb] [F H]. split; [exact F|]. apply Rabs_le. apply Rabs_le_inv in Ba, Bb. destruct H; lra.
Qed.

(** Quotients of frames *)
Lemma quotient_below n m : (0 <= n < m)%Z -> (m <= 2 ^ 53)%Z -> 0 <= rnd (IZR n / IZR m) <= 1 - u.
Proof.
  intros N M. assert (V := valid64). assert (P : 1 <= IZR m) by (apply IZR_le; lia). assert (P0 : 0 <= IZR n) by (apply IZR_le; lia). assert (L : IZR n <= IZR m - 1) by (rewrite <- minus_IZR; apply IZR_le; lia). split.
  - rewrite <- rnd_0. apply rnd_mono. apply Rmult_le_pos; [lra|]. apply Rlt_le, Rinv_0_lt_compat. lra.
  - assert (G : generic_format radix2 f64 (1 - u)) by exact format_below_one.
    rewrite <- (round_generic radix2 f64 ZnearestE (1 - u) G). apply rnd_mono.
    assert (U : u * IZR m <= 1).
    { apply IZR_le in M. apply (Rmult_le_compat_l u) in M; [|apply bpow_ge_0]. change (IZR (2 ^ 53)) with (bpow radix2 53) in M. rewrite <- bpow_plus in M. exact M. }
    apply (Rmult_le_reg_r (IZR m)); [lra|]. unfold Rdiv. rewrite Rmult_assoc, Rinv_l by lra. lra.
Qed.
Lemma of_quotient n m : (0 <= n < m)%Z -> (m <= 2 ^ 53)%Z -> is_finite (b64_of_R (IZR n / IZR m)) = true /\ B2R (b64_of_R (IZR n / IZR m)) = rnd (IZR n / IZR m) /\ 0 <= B2R (b64_of_R (IZR n / IZR m)) < 1.
Proof.
  intros N M. pose proof (quotient_below n m N M) as Q. pose proof u_small. destruct (of_R (IZR n / IZR m)) as [V F].
  - rewrite Rabs_pos_eq by lra. apply Rlt_trans with 1; [lra|]. change 1 with (bpow radix2 0). apply bpow_lt. lia.
  - split; [exact F|]. split; [exact V|]. rewrite V. lra.
Qed.
Lemma frame_quotient n m : (0 <= n < m)%Z -> (m <= 2 ^ 53)%Z -> is_finite (b64_div (b64_of_Z n) (b64_of_Z m)) = true /\ B2R (b64_div (b64_of_Z n) (b64_of_Z m)) = rnd (IZR n / IZR m).
Proof.
  intros N M. destruct (b64_int m ltac:(lia)) as [Vm Fm].
  assert (Hn : B2R (b64_of_Z n) = IZR n /\ is_finite (b64_of_Z n) = true) by (destruct (Z.eq_dec n 0) as [->|]; [now split|apply b64_int; lia]). destruct Hn as [Vn Fn].
  assert (P : 1 <= IZR m) by (apply IZR_le; lia). assert (P0 : 0 <= IZR n) by (apply IZR_le; lia). assert (L : IZR n <= IZR m) by (apply IZR_le; lia).
  destruct (div_fin (b64_of_Z n) (b64_of_Z m) 0 Fn ltac:(rewrite Vm; lra) ltac:(lia)) as [F V]; rewrite Vn, Vm in *; [|now split].
  rewrite Rabs_pos_eq by (apply Rmult_le_pos; [lra|apply Rlt_le, Rinv_0_lt_compat; lra]). change (bpow radix2 0) with 1.
  apply (Rmult_le_reg_r (IZR m)); [lra|]. unfold Rdiv. rewrite Rmult_assoc, Rinv_l by lra. lra.
Qed.

Lemma component_tame c v : component c -> tame_vec v -> tame (c v).
Proof. intros [ -> | [ -> | -> ]] (X & Y & Z); assumption. Qed.
Lemma component_lerp c a b t : component c -> c (flerp3 a b t) = flerp (c a) (c b) t.
Proof. now intros [ -> | [ -> | -> ]]. Qed.
Lemma on_way_start (a b : b64) : is_finite a = true -> on_way a a b.
Proof. intros F. split; [exact F|]. destruct (Rle_lt_dec (B2R a) (B2R b)); [left|right]; lra. Qed.
Lemma on_way_end (a b : b64) : is_finite b = true -> on_way a b b.
Proof. intros F. split; [exact F|]. destruct (Rle_lt_dec (B2R a) (B2R b)); [left|right]; lra. Qed.
Lemma way_before (a x b : b64) : on_way a x b -> not_after a x b b /\ not_after a a x b.
Proof. intros [_ H]. split; split; intros; destruct H; lra. Qed.
Lemma way_bounds (a x b : b64) (l h : R) : on_way a x b -> l <= B2R a <= h -> l <= B2R b <= h -> is_finite x = true /\ l <= B2R x <= h.
Proof. intros [F H] A B. split; [exact F|]. destruct H; lra. Qed.

(** The value of a track between neighbours *)
Section Between.
Variables (kfs : list (keyframe fvec)) (k1 k2 : keyframe fvec).
Hypotheses (V : valid_frames kfs) (D : distinct_frames kfs) (B : small_frames kfs) (T : tame_keys kfs) (N : neighbours kfs k1 k2).
Lemma inner_value f v : (kf_frame k1 < f < kf_frame k2)%Z -> track_value float_interp kfs f v -> v = flerp3 (kf_key k1) (kf_key k2) (b64_of_R (IZR (f - kf_frame k1) / IZR (kf_frame k2 - kf_frame k1))).
Proof.
  destruct N as (I1 & I2 & L & G). intros H W. apply (track_value_unique float_interp kfs f v _ D W). exact (tv_between float_interp kfs f k1 k2 I1 I2 H G).
Qed.
Lemma key_value f v k : In k kfs -> f = kf_frame k -> track_value float_interp kfs f v -> v = kf_key k.
Proof. intros I E W. apply (track_value_unique float_interp kfs f v _ D W). apply tv_at; auto. Qed.
Lemma inner_quotient f : (kf_frame k1 < f < kf_frame k2)%Z -> let t := b64_of_R (IZR (f - kf_frame k1) / IZR (kf_frame k2 - kf_frame k1)) in
  is_finite t = true /\ B2R t = rnd (IZR (f - kf_frame k1) / IZR (kf_frame k2 - kf_frame k1)) /\ 0 <= B2R t < 1.
Proof.
  destruct N as (I1 & I2 & L & G). intros H. pose proof (V k1 I1). pose proof (B k2 I2). apply of_quotient; lia.
Qed.
End Between.

Lemma steady_track kfs values : valid_frames kfs -> distinct_frames kfs -> small_frames kfs -> tame_keys kfs ->
  (forall i v, nth_error values i = Some v -> track_value float_interp kfs (Z.of_nat i) v) -> steady kfs values.
Proof.
  intros V D B T W k1 k2 i v N Hi Li. pose proof N as (I1 & I2 & L & G). pose proof (T k1 I1) as T1. pose proof (T k2 I2) as T2. pose proof (W i v Hi) as Wi.
  assert (E1 : Z.of_nat i = kf_frame k1 -> v = kf_key k1) by (intros E; exact (key_value kfs D _ v k1 I1 E Wi)).
  assert (E2 : Z.of_nat i = kf_frame k2 -> v = kf_key k2) by (intros E; exact (key_value kfs D _ v k2 I2 E Wi)).
  assert (P : forall j w, nth_error values j = Some w -> (kf_frame k1 < Z.of_nat j < kf_frame k2)%Z -> forall c, component c -> on_way (c (kf_key k1)) (c w) (c (kf_key k2))).
  { intros j w Hj Lj c C. rewrite (inner_value kfs k1 k2 D N _ w Lj (W j w Hj)), (component_lerp c _ _ _ C).
    destruct (inner_quotient kfs k1 k2 V B N _ Lj) as (F & _ & R). apply flerp_on_way; auto using component_tame. }
  assert (Q : forall j w, nth_error values j = Some w -> (kf_frame k1 <= Z.of_nat j <= kf_frame k2)%Z -> forall c, component c -> on_way (c (kf_key k1)) (c w) (c (kf_key k2))).
  { intros j w Hj Lj c C. pose proof (component_tame c _ C T1) as [F1 _]. pose proof (component_tame c _ C T2) as [F2 _].
    destruct (Z.eq_dec (Z.of_nat j) (kf_frame k1)) as [Ej|Nj]; [rewrite (key_value kfs D _ w k1 I1 Ej (W j w Hj)); now apply on_way_start|].
    destruct (Z.eq_dec (Z.of_nat j) (kf_frame k2)) as [Ej|Nj']; [rewrite (key_value kfs D _ w k2 I2 Ej (W j w Hj)); now apply on_way_end|].
    apply (P j w Hj); [lia|exact C]. }
  split; [exact E1|]. split; [exact E2|]. intros c C. split; [exact (Q i v Hi Li c C)|]. intros j w Hj Lj.
  destruct (Z.eq_dec (Z.of_nat i) (kf_frame k1)) as [Ei|Ni]; [rewrite (E1 Ei); apply (way_before _ _ _ (Q j w Hj ltac:(lia) c C))|].
  destruct (Z.eq_dec (Z.of_nat j) (kf_frame k2)) as [Ej|Nj]; [rewrite (key_value kfs D _ w k2 I2 Ej (W j w Hj)); apply (way_before _ _ _ (Q i v Hi Li c C))|].
  rewrite (inner_value kfs k1 k2 D N (Z.of_nat i) v ltac:(lia) Wi), (inner_value kfs k1 k2 D N (Z.of_nat j) w ltac:(lia) (W j w Hj)), !(component_lerp c _ _ _ C).
  destruct (inner_quotient kfs k1 k2 V B N (Z.of_nat i) ltac:(lia)) as (Fi & Ri & Bi). destruct (inner_quotient kfs k1 k2 V B N (Z.of_nat j) ltac:(lia)) as (Fj & Rj & Bj).
  apply flerp_not_after; auto using component_tame; [|lra]. split; [apply Bi|]. rewrite Ri, Rj. apply rnd_mono, Rmult_le_compat_r; [|apply IZR_le; lia].
  apply Rlt_le, Rinv_0_lt_compat, IZR_lt. lia.
Qed.
Lemma track_in_bounds kfs lo hi f v : valid_frames kfs -> small_frames kfs -> tame_keys kfs -> keys_in lo hi kfs -> track_value float_interp kfs f v -> in_bounds lo hi v /\ tame_vec v.
Proof.
  intros V B T K W. destruct W as [k I E|k1 k2 I1 I2 L G|k1 I L G|k2 I L G]; try (split; [exact (K _ I)|exact (T _ I)]).
  pose proof (V k1 I1). pose proof (B k2 I2). destruct (of_quotient (f - kf_frame k1) (kf_frame k2 - kf_frame k1)) as (F & _ & R); [lia|lia|].
  cbn [float_interp ip_lerp]. set (t := b64_of_R _) in *.
  assert (Q : forall c, component c -> on_way (c (kf_key k1)) (c (flerp3 (kf_key k1) (kf_key k2) t)) (c (kf_key k2))).
  { intros c C. rewrite (component_lerp c _ _ _ C). apply flerp_on_way; auto using component_tame. }
  split.
  - intros c C. apply (way_bounds _ _ _ _ _ (Q c C)); [apply (K k1 I1 c C)|apply (K k2 I2 c C)].
  - pose proof (T k1 I1) as T1. pose proof (T k2 I2) as T2. split; [|split]; (eapply on_way_tame; [| |apply Q]); auto; unfold component; auto using component_tame; eapply component_tame; unfold component; eauto.
Qed.
Lemma lerp_in_bounds lo hi a b t : tame_vec a -> tame_vec b -> in_bounds lo hi a -> in_bounds lo hi b -> is_finite t = true -> 0 <= B2R t < 1 -> in_bounds lo hi (flerp3 a b t).
Proof.
  intros A B La Lb F R c C. rewrite (component_lerp c _ _ _ C). eapply way_bounds; [apply flerp_on_way; auto using component_tame|apply (La c C)|apply (Lb c C)].
Qed.
Lemma of_float (t : b64) : is_finite t = true -> is_finite (b64_of_R (B2R t)) = true /\ B2R (b64_of_R (B2R t)) = B2R t.
Proof.
  intros F. assert (E : rnd (B2R t) = B2R t) by apply format_b64. destruct (of_R (B2R t)) as [V Ft].
  - rewrite E. apply (abs_B2R_lt_emax 53 1024).
  - split; [exact Ft|]. now rewrite V.
Qed.
