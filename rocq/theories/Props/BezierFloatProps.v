(** * C95: Bezier curves in double precision *)
From Coq Require Import ZArith Reals List Bool Lia Lra.
From Flocq Require Import Core IEEE754.BinarySingleNaN.
From Verif Require Import Model.Scalar Model.Vec Model.BoxFloat Model.PlaneFloat Model.Bezier Model.KeyframeFloat Model.ClipFloat Model.BezierFloat
  Spec.FloatSpec Spec.ClipFloatSpec Spec.BezierSpec Spec.BezierFloatSpec
  Proofs.PlaneFloatLemmas Proofs.SplineFloat Proofs.ClipFloatLemmas Proofs.KeyframeFloatLemmas Proofs.BezierLemmas Proofs.BezierFloatLemmas.
Import ListNotations.
Local Open Scope R_scope.

Lemma component_at_end fpow ps (t : b64) (k : nat) : accurate_pow fpow -> tame_points ps -> (2 <= length ps <= 21)%nat -> is_finite t = true ->
  (B2R t = 0 /\ k = O \/ B2R t = 1 /\ k = (length ps - 1)%nat) ->
  forall c e, same_component c e -> exists q, fcurve fpow ps t = Some q /\ is_finite (c q) = true /\ exists p, nth_error ps k = Some p /\ B2R (c q) = B2R (c p).
Proof.
  intros A T L F K c e ce. assert (Rt : 0 <= B2R t <= 1) by (destruct K as [[-> _]|[-> _]]; lra). destruct (comp_zero c e ce) as (_ & Z & Fz).
  destruct (one_weight fpow A c e ce t (length ps - 1) F Rt ltac:(lia) k ps) with (i := O) (acc := FV b64_0 b64_0 b64_0) as (q & E & Fq & X).
  - destruct K as [[_ ->]|[_ ->]]; lia.
  - intros i w I E. destruct (weight fpow A t i (length ps - 1) F Rt I ltac:(lia)) as (w' & E' & _ & _ & W0 & W1). rewrite E in E'. injection E' as <-.
    destruct K as [[K ->]|[K ->]]; auto.
  - exact T.
  - lia.
  - split; [exact Fz|]. rewrite Z, Rabs_R0. apply bpow_ge_0.
  - intros _. exact Z.
  - exists q. split; [exact E|]. split; [exact Fq|]. cbn [Nat.leb] in X. rewrite Nat.sub_0_r in X. exact X.
Qed.

(** The curve starts exactly in the first control point and ends exactly in the last one. *)
Theorem C95_end_points : forall fpow ps (t : b64) first last, accurate_pow fpow -> tame_points ps -> (2 <= length ps <= 21)%nat ->
  hd_error ps = Some first -> hd_error (rev ps) = Some last -> is_finite t = true ->
  (B2R t = 0 -> exists q, fcurve fpow ps t = Some q /\ same_place q first) /\
  (B2R t = 1 -> exists q, fcurve fpow ps t = Some q /\ same_place q last).
Proof.
  intros fpow ps t first last A T L H1 H2 F.
  assert (G : forall k x, nth_error ps k = Some x -> (B2R t = 0 /\ k = O \/ B2R t = 1 /\ k = (length ps - 1)%nat) -> exists q, fcurve fpow ps t = Some q /\ same_place q x).
  { intros k x N K. destruct (component_at_end fpow ps t k A T L F K fx vx) as (q & E & Fx & p & P & Vx); [left; now split|]. exists q. split; [exact E|].
    rewrite N in P. injection P as <-.
    destruct (component_at_end fpow ps t k A T L F K fy vy) as (q' & E' & Fy & p & P & Vy); [right; left; now split|]. rewrite E in E'. injection E' as <-. rewrite N in P. injection P as <-.
    destruct (component_at_end fpow ps t k A T L F K fz vz) as (q' & E' & Fz & p & P & Vz); [right; right; now split|]. rewrite E in E'. injection E' as <-. rewrite N in P. injection P as <-.
    split; [now split|]. unfold exact_vec. rewrite Vx, Vy, Vz. reflexivity. }
  split; intros Z.
  - apply (G O first); [destruct ps; [discriminate|exact H1]|left; now split].
  - apply (G (length ps - 1)%nat last); [|right; now split].
    destruct (rev ps) as [|x r] eqn:E; [discriminate|]. injection H2 as ->. apply (f_equal (@rev fvec)) in E. rewrite rev_involutive in E. rewrite E. cbn [rev]. rewrite app_length. cbn [length].
    replace (length (rev r) + 1 - 1)%nat with (length (rev r)) by lia. rewrite nth_error_app2, Nat.sub_diag by lia. reflexivity.
Qed.
Print Assumptions C95_end_points.

Lemma near fpow ps (t : b64) c e m : accurate_pow fpow -> tame_points ps -> (2 <= length ps <= 21)%nat -> is_finite t = true -> 0 <= B2R t <= 1 -> same_component c e ->
  (forall p, In p ps -> Rabs (B2R (c p)) <= m) ->
  exists q, fcurve fpow ps t = Some q /\ is_finite (c q) = true /\ Rabs (B2R (c q) - e (wsum (B (B2R t) (length ps - 1)) 0 (map exact_vec ps))) <= slack m.
Proof.
  intros A T L F Rt ce M. destruct (comp_zero c e ce) as (_ & Z & Fz). set (m' := Rmin m (bpow radix2 499)).
  assert (M' : forall p, In p ps -> is_finite (c p) = true /\ Rabs (B2R (c p)) <= m').
  { intros p I. destruct (comp_tame c e ce ps p T I) as [Fp Bp]. split; [exact Fp|]. apply Rmin_glb; [now apply M|exact Bp]. }
  assert (M0 : 0 <= m' <= bpow radix2 499).
  { split; [|apply Rmin_r]. destruct ps as [|p ps]; [cbn in L; lia|]. apply Rle_trans with (2 := proj2 (M' p (or_introl eq_refl))). apply Rabs_pos. }
  destruct (loop fpow A c e ce t (length ps - 1) F Rt ltac:(lia) m' ps M0 0 (FV b64_0 b64_0 b64_0) 0 0) as (q & E & Fq & X).
  - lia.
  - exact M'.
  - exact Fz.
  - lra.
  - replace (length ps) with (S (length ps - 1)) at 2 by lia. rewrite unity. lra.
  - rewrite Rabs_R0. lra.
  - rewrite Z, Rminus_0_r, Rabs_R0. cbn [INR]. lra.
  - exists q. split; [exact E|]. split; [exact Fq|]. rewrite Rplus_0_l in X. apply Rle_trans with (1 := X). unfold slack.
    replace (bpow radix2 (-45)) with (256 * u) by (change (-45)%Z with (8 + -53)%Z; rewrite bpow_plus; reflexivity).
    assert (H : 3 * 21 * eta <= bpow radix2 (-1068)).
    { change (-1068)%Z with (7 + -1075)%Z. rewrite bpow_plus. change (bpow radix2 7) with 128. assert (P := bpow_gt_0 radix2 (-1075)). lra. }
    assert (U := u_small). assert (K : m' * u <= m * u) by (apply Rmult_le_compat_r; [lra|apply Rmin_l]). assert (0 <= m' * u) by (apply Rmult_le_pos; lra). lra.
Qed.

(** Everywhere else it is close to the exact curve, which is what C36 is about. *)
Theorem C95_accuracy : forall fpow ps (t : b64), accurate_pow fpow -> tame_points ps -> (2 <= length ps <= 21)%nat -> is_finite t = true -> 0 <= B2R t <= 1 ->
  exists q r, fcurve fpow ps t = Some q /\ curve (map exact_vec ps) (B2R t) = Some r /\
    forall c e m, same_component c e -> (forall p, In p ps -> Rabs (B2R (c p)) <= m) -> is_finite (c q) = true /\ Rabs (B2R (c q) - e r) <= slack m.
Proof.
  intros fpow ps t A T L F Rt.
  destruct (near fpow ps t fx vx (bpow radix2 499) A T L F Rt) as (q & E & _); [left; now split|intros p I; destruct (T p I) as ((_ & K) & _); exact K|].
  exists q, (wsum (B (B2R t) (length ps - 1)) 0 (map exact_vec ps)). split; [exact E|]. split; [rewrite curve_wsum by (rewrite map_length; exact L); rewrite map_length; reflexivity|].
  intros c e m ce M. destruct (near fpow ps t c e m A T L F Rt ce M) as (q' & E' & X). rewrite E in E'. injection E' as <-. exact X.
Qed.
Print Assumptions C95_accuracy.

(** So it stays in every box that contains the control points, up to rounding. *)
Theorem C95_in_box : forall fpow ps (t : b64) q c e lo hi, accurate_pow fpow -> tame_points ps -> (2 <= length ps <= 21)%nat -> is_finite t = true -> 0 <= B2R t <= 1 ->
  fcurve fpow ps t = Some q -> same_component c e -> (forall p, In p ps -> lo <= B2R (c p) <= hi) ->
  lo - slack (Rmax (Rabs lo) (Rabs hi)) <= B2R (c q) <= hi + slack (Rmax (Rabs lo) (Rabs hi)).
Proof.
  intros fpow ps t q c e lo hi A T L F Rt E ce H. set (m := Rmax (Rabs lo) (Rabs hi)).
  destruct (near fpow ps t c e m A T L F Rt ce) as (q' & E' & _ & X).
  { intros p I. destruct (H p I) as [H1 H2]. assert (K1 := Rmax_l (Rabs lo) (Rabs hi)). assert (K2 := Rmax_r (Rabs lo) (Rabs hi)). fold m in K1, K2.
    assert (K3 := Rle_abs (- lo)). rewrite Rabs_Ropp in K3. assert (K4 := Rle_abs hi). apply Rabs_le. lra. }
  rewrite E in E'. injection E' as <-.
  assert (G : forall x y z d, (forall p, In p ps -> dot (V3 x y z) (exact_vec p) <= d) -> dot (V3 x y z) (wsum (B (B2R t) (length ps - 1)) 0 (map exact_vec ps)) <= d).
  { intros x y z d K. rewrite <- (map_length exact_vec ps). apply (wsum_half_space (V3 x y z) d (B2R t) (map exact_vec ps)); [exact Rt|destruct ps; [cbn in L; lia|discriminate]|].
    apply Forall_forall. intros v I. apply in_map_iff in I. destruct I as (p & <- & I). now apply K. }
  set (r := wsum (B (B2R t) (length ps - 1)) 0 (map exact_vec ps)) in *.
  assert (Y : lo <= e r <= hi).
  { destruct ce as [[-> ->]|[[-> ->]|[-> ->]]]; [assert (G1 := G 1 0 0 hi); assert (G2 := G (-1) 0 0 (- lo))|assert (G1 := G 0 1 0 hi); assert (G2 := G 0 (-1) 0 (- lo))|assert (G1 := G 0 0 1 hi); assert (G2 := G 0 0 (-1) (- lo))];
      unfold dot in G1, G2; cbn [vx vy vz exact_vec] in G1, G2; split.
    all: first [eapply Rle_trans; [|apply G1; intros p I; destruct (H p I); lra]; lra|apply Ropp_le_cancel; eapply Rle_trans; [|apply G2; intros p I; destruct (H p I); lra]; lra]. }
  apply Rabs_le_inv in X. lra.
Qed.
Print Assumptions C95_in_box.

(** A function as the theorems need it *)
Definition good_pow (x : b64) (n : nat) : b64 := match n with O => b64_1 | S O => x | _ => b64_of_R (B2R x ^ n) end.
Lemma good_pow_accurate : accurate_pow good_pow.
Proof.
  intros x n F X N. destruct one_value as [V1 F1]. assert (G : forall a b, Rabs (a - b) = 0 -> 0 <= b -> Rabs (a - b) <= bpow radix2 (-51) * b + bpow radix2 (-1074)).
  { intros a b -> B0. apply Rplus_le_le_0_compat; [apply Rmult_le_pos; [apply bpow_ge_0|exact B0]|apply bpow_ge_0]. }
  destruct n as [|[|n]]; cbn [good_pow].
  - split; [exact F1|]. rewrite V1. split; [apply G; cbn [pow]; [replace (1 - 1) with 0 by ring; apply Rabs_R0|lra]|]. split; [reflexivity|congruence].
  - split; [exact F|]. rewrite pow_1. split; [apply G; [replace (B2R x - B2R x) with 0 by ring; apply Rabs_R0|lra]|]. split; [intros [K|K]; [discriminate|exact K]|now intros _ K].
  - assert (P := unit_pow (B2R x) (S (S n)) X). set (k := S (S n)) in *.
    assert (Q : rnd 1 = 1) by (rewrite <- V1; apply format_b64).
    assert (R1 : 0 <= rnd (B2R x ^ k) <= 1) by (split; [rewrite <- rnd_0|rewrite <- Q]; apply rnd_mono; lra).
    destruct (of_R (B2R x ^ k)) as [V W]; [rewrite Rabs_pos_eq by lra; apply Rle_lt_trans with (1 := proj2 R1); change 1 with (bpow radix2 0); apply bpow_lt; lia|].
    split; [exact W|]. rewrite V. split; [|split].
    + apply Rle_trans with (1 := rnd_abs _). rewrite (Rabs_pos_eq (B2R x ^ k)) by lra. apply Rplus_le_compat; [apply Rmult_le_compat_r; [lra|]|]; apply bpow_le; lia.
    + intros [K|K]; [discriminate|]. rewrite K, pow1. exact Q.
    + intros _ K. rewrite K, pow_i by (unfold k; lia). exact rnd_0.
Qed.

(** Not exactly: a curve with two equal control points leaves them, even with such a function. *)
Definition three : fvec := FV (b64_of_Z 3) (b64_of_Z 3) (b64_of_Z 3).
Definition fifth : b64 := b64_div (b64_of_Z 1) (b64_of_Z 5).
Theorem C95_hull_refuted : exists fpow p (t : b64) q, accurate_pow fpow /\ tame_points [p; p] /\ is_finite t = true /\ 0 <= B2R t <= 1 /\ fcurve fpow [p; p] t = Some q /\ B2R (fx p) < B2R (fx q).
Proof.
  exists good_pow, three, fifth. eexists. split; [exact good_pow_accurate|]. split.
  { intros p [<-|[<-|[]]]; repeat split; apply tame_exponent; vm_compute; reflexivity. }
  assert (U : in_unit fifth = true) by (vm_compute; reflexivity). assert (F : is_finite fifth = true) by (vm_compute; reflexivity).
  split; [exact F|]. split; [now apply unit_finite|]. split; [reflexivity|].
  apply blt; vm_compute; reflexivity.
Qed.
Print Assumptions C95_hull_refuted.

(** A curve with four control points that meets the hypotheses *)
Definition knots : list fvec := [three; FV (b64_of_Z (-1)) fifth (b64_of_Z 7); FV (b64_of_Z 5) (b64_of_Z 2) fifth; FV (b64_of_Z 1) (b64_of_Z 1) (b64_of_Z (-4))].
Example C95_example : accurate_pow good_pow /\ tame_points knots /\ (2 <= length knots <= 21)%nat /\ is_finite fifth = true /\ 0 <= B2R fifth <= 1.
Proof.
  split; [exact good_pow_accurate|]. split.
  { intros p [<-|[<-|[<-|[<-|[]]]]]; repeat split; apply tame_exponent; vm_compute; reflexivity. }
  split; [cbn; lia|]. assert (U : in_unit fifth = true) by (vm_compute; reflexivity). assert (F : is_finite fifth = true) by (vm_compute; reflexivity). split; [exact F|now apply unit_finite].
Qed.
