(** Playback::Update over IEEE binary64: how far the shown time drifts from the exact one. *)
From Coq Require Import ZArith Reals List Bool Lia Lra.
From Flocq Require Import Core IEEE754.BinarySingleNaN.
From Verif Require Import Model.Scalar Model.Playback Spec.PlaybackSpec Proofs.PlaybackLemmas Proofs.PlaybackAny.
From Verif Require Import Proofs.SplineFloat Proofs.PlaneFloatLemmas.
Import ListNotations.
Local Open Scope R_scope.

Lemma one64 : B2R (b64_of_Z 1) = 1 /\ is_finite (b64_of_Z 1) = true.
Proof. apply b64_int. lia. Qed.

Lemma p53 : bpow radix2 53 = IZR (2 ^ 53).
Proof. change (2 ^ 53)%Z with (radix2 ^ 53)%Z. rewrite (IZR_Zpower radix2 53) by lia. reflexivity. Qed.

(** Subtracting one is exact as long as the numbers are not too large. *)
Lemma format_pred x : generic_format radix2 f64 x -> 1 <= x <= bpow radix2 53 -> generic_format radix2 f64 (x - 1).
Proof.
  intros F H. apply FLT_format_generic in F; [|reflexivity]. destruct F as [[m e] E M X]. cbn [Fnum Fexp] in M, X.
  unfold F2R in E; cbn [Fnum Fexp] in E.
  destruct (Z_le_gt_dec 0 e) as [P|P].
  - assert (E2 : x = IZR (m * 2 ^ e)).
    { rewrite E, mult_IZR. f_equal. change (2 ^ e)%Z with (radix2 ^ e)%Z. rewrite IZR_Zpower by lia. reflexivity. }
    set (n := (m * 2 ^ e)%Z) in *. clearbody n. clear E. subst x. rewrite p53 in H.
    assert (N1 : (1 <= n)%Z) by (apply le_IZR; lra). assert (N2 : (n <= 2 ^ 53)%Z) by (apply le_IZR; lra).
    replace (IZR n - 1) with (IZR (n - 1)) by (rewrite minus_IZR; reflexivity).
    destruct (Z.eq_dec n 1) as [->|N]; [apply generic_format_0|]. apply format_int. lia.
  - apply generic_format_FLT. exists (Float radix2 (m - 2 ^ (- e)) e).
    + unfold F2R; cbn [Fnum Fexp]. rewrite minus_IZR. change (2 ^ (- e))%Z with (radix2 ^ (- e))%Z. rewrite IZR_Zpower by lia.
      rewrite E. replace 1 with (bpow radix2 (- e) * bpow radix2 e) at 1 by (rewrite <- bpow_plus; replace (- e + e)%Z with 0%Z by lia; reflexivity).
      ring.
    + cbn [Fnum]. assert (Q : (2 ^ (- e) <= m)%Z).
      { apply le_IZR. change (2 ^ (- e))%Z with (radix2 ^ (- e))%Z. rewrite IZR_Zpower by lia. rewrite E in H.
        pose proof (bpow_gt_0 radix2 e). apply Rmult_le_reg_r with (bpow radix2 e); [assumption|]. rewrite <- bpow_plus.
        replace (- e + e)%Z with 0%Z by lia. cbn [bpow]. lra. }
      pose proof (Z.pow_pos_nonneg 2 (- e)). lia.
    + cbn [Fexp]. exact X.
Qed.

Lemma sub_one (x : b64) : is_finite x = true -> 1 <= B2R x <= bpow radix2 53 ->
  is_finite (b64_sub x (b64_of_Z 1)) = true /\ B2R (b64_sub x (b64_of_Z 1)) = B2R x - 1.
Proof.
  intros F H. destruct one64 as [E1 F1]. destruct (sub_fin x (b64_of_Z 1) 53 F F1) as [A B].
  - lia.
  - rewrite E1, Rabs_pos_eq by lra. lra.
  - split; [exact A|]. rewrite B, E1. apply round_generic; auto with typeclass_instances. apply format_pred; [|exact H].
    apply (generic_format_B2R 53 1024).
Qed.

Lemma leb64 (x y : b64) : is_finite x = true -> is_finite y = true -> b64_leb x y = Rle_bool (B2R x) (B2R y).
Proof. intros. apply Bleb_correct; assumption. Qed.

(** The numbers in one update: advance by at most [m] frames. *)
Lemma advance_error (x d s : b64) m : is_finite x = true -> is_finite d = true -> is_finite s = true ->
  0 <= B2R x < 1 -> 0 <= B2R d -> 0 <= B2R s -> B2R d * B2R s <= m -> 0 <= m <= bpow radix2 50 ->
  let y := b64_add x (b64_mul d s) in
  is_finite y = true /\ 0 <= B2R y <= bpow radix2 53 /\
  Rabs (B2R y - (B2R x + B2R s * B2R d)) <= (2 * m + 2) * u.
Proof.
  intros Fx Fd Fs Hx Hd Hs Hm HM y.
  assert (P : 0 <= B2R d * B2R s) by (apply Rmult_le_pos; lra).
  destruct (mul_fin d s 50 Fd Fs) as [F1 E1]; [lia|rewrite Rabs_pos_eq; lra|].
  pose proof (rnd_error (B2R d * B2R s) m ltac:(rewrite Rabs_pos_eq; lra)) as ER. rewrite <- E1 in ER.
  assert (Q : 0 <= B2R (b64_mul d s) <= bpow radix2 50).
  { rewrite E1. split; [apply round_ge_generic; auto with typeclass_instances; apply generic_format_0|].
    pose proof (rnd_bound (B2R d * B2R s) 50 ltac:(lia)) as B. rewrite (Rabs_pos_eq (B2R d * B2R s)) in B by exact P.
    specialize (B ltac:(lra)). apply Rabs_le_inv in B. lra. }
  assert (K : 1 <= bpow radix2 50) by (apply (bpow_le radix2 0 50); lia).
  assert (K51 : bpow radix2 51 = 2 * bpow radix2 50) by (apply (double_pow 50)).
  assert (K53 : bpow radix2 51 <= bpow radix2 53) by (apply bpow_le; lia).
  destruct (add_fin x (b64_mul d s) 51 Fx F1) as [F2 E2]; [lia|rewrite Rabs_pos_eq; lra|]. fold y in F2, E2.
  set (z := B2R (b64_mul d s)) in *.
  pose proof (rnd_error (B2R x + z) (B2R x + z) ltac:(rewrite Rabs_pos_eq; lra)) as ES. rewrite <- E2 in ES.
  split; [exact F2|]. split.
  - rewrite E2. split; [apply round_ge_generic; auto with typeclass_instances; try apply generic_format_0; lra|].
    pose proof (rnd_bound (B2R x + z) 51 ltac:(lia)) as B. rewrite (Rabs_pos_eq (B2R x + z)) in B by lra.
    specialize (B ltac:(lra)). apply Rabs_le_inv in B. lra.
  - assert (U : 0 < u) by apply bpow_gt_0. assert (T : 0 < eta) by apply bpow_gt_0.
    assert (T2 : eta <= u * / 1024).
    { apply Rle_trans with (bpow radix2 (-63)); [apply bpow_le; lia|]. change (-63)%Z with (-53 + -10)%Z. rewrite bpow_plus. apply Rle_refl. }
    assert (U1 : u <= / 1024). { apply Rle_trans with (bpow radix2 (-10)); [apply bpow_le; lia|apply Rle_refl]. }
    assert (UM : u * m <= / 8).
    { apply Rle_trans with (u * bpow radix2 50); [apply Rmult_le_compat_l; lra|]. rewrite <- bpow_plus. apply Rle_refl. }
    assert (Z1 : u * z <= u * m + u * (u * m + eta)) by (rewrite <- Rmult_plus_distr_l; apply Rmult_le_compat_l; lra).
    assert (Z2 : u * (u * m + eta) <= u * / 4) by (apply Rmult_le_compat_l; lra).
    assert (X1 : u * B2R x <= u * 1) by (apply Rmult_le_compat_l; lra).
    apply Rabs_le. replace (B2R s * B2R d) with (B2R d * B2R s) by ring.
    set (um := u * m) in *. replace ((2 * m + 2) * u) with (2 * um + 2 * u) by (unfold um; ring).
    rewrite Rmult_plus_distr_l in ES. lra.
Qed.

Section Drift.
Variables (c : course B64Scalar) (s : b64).
Hypothesis Hs : b64_leb b64_0 s = true.
Hypothesis Fs : is_finite s = true.
Hypothesis Hw : walks B64Scalar c s.
Notation at_ := (after B64Scalar c s).

Lemma drift_loop : forall n k x fuel, is_finite x = true -> B2R x <= bpow radix2 53 -> INR n <= B2R x < INR n + 1 -> (n < fuel)%nat ->
  exists y, forward_loop B64Scalar fuel (at_ k x) = Done (at_ (k + n) y) /\ is_finite y = true /\ B2R y = B2R x - INR n.
Proof.
  destruct one64 as [E1 F1].
  induction n as [|n IH]; intros k x fuel F H N L; (destruct fuel as [|fuel]; [lia|]); cbn [forward_loop].
  - change (sle B64Scalar (s1 B64Scalar) (interpolator (pf (at_ k x)))) with (b64_leb (b64_of_Z 1) x). rewrite leb64, E1 by assumption.
    cbn in N. rewrite Rle_bool_false by lra. exists x. rewrite Nat.add_0_r. split; [reflexivity|]. split; [exact F|]. cbn. lra.
  - change (sle B64Scalar (s1 B64Scalar) (interpolator (pf (at_ k x)))) with (b64_leb (b64_of_Z 1) x). rewrite leb64, E1 by assumption.
    rewrite S_INR in *. pose proof (pos_INR n). rewrite Rle_bool_true by lra.
    change (with_pf B64Scalar _ (at_ k x)) with (adv B64Scalar (at_ k x)). rewrite Hw.
    destruct (sub_one x F ltac:(lra)) as [F2 E2].
    destruct (IH (S k) (b64_sub x (b64_of_Z 1)) fuel F2) as (y & A & B & C); [rewrite E2; lra|rewrite E2; lra|lia|].
    exists y. rewrite Nat.add_succ_r. split; [exact A|]. split; [exact B|]. rewrite C, E2. ring.
Qed.

Lemma speed_nonneg : 0 <= B2R s.
Proof.
  rewrite leb64 in Hs by (reflexivity || exact Fs). cbn [B2R b64_0] in Hs. destruct (Rle_bool_spec 0 (B2R s)); [assumption|discriminate].
Qed.

Variable m : R.
Hypothesis Hm : 0 <= m <= bpow radix2 50.
Definition small_step (d : b64) : Prop := is_finite d = true /\ B2R d * B2R s <= m.

Lemma drift_update k x d : c_live c k = true -> is_finite x = true -> 0 <= B2R x < 1 -> small_step d -> 0 < B2R d ->
  exists n y, (forall fuel, (n < fuel)%nat -> update B64Scalar fuel d (at_ k x) = Done (at_ (k + n) y)) /\ is_finite y = true /\
    0 <= B2R y < 1 /\ Rabs (INR n + B2R y - (B2R x + B2R s * B2R d)) <= (2 * m + 2) * u.
Proof.
  intros L F X [Fd D] P. destruct (advance_error x d s m F Fd Fs X ltac:(lra) speed_nonneg D Hm) as (A & B & C).
  set (z := b64_add x (b64_mul d s)) in *.
  destruct (nat_floor (B2R z) (proj1 B)) as [n N].
  destruct (drift_loop n k z (S n) A (proj2 B) N ltac:(lia)) as (y & E & Fy & Ey).
  exists n, y. split.
  - intros fuel Hf. rewrite any_update_eq; [|exact Hs|exact L|].
    + apply (forward_loop_mono B64Scalar (S n)); [exact E|lia].
    + change (b64_leb d b64_0 = false). rewrite leb64 by (exact Fd || reflexivity). apply Rle_bool_false. exact P.
  - split; [exact Fy|]. rewrite Ey. split; [lra|]. replace (INR n + (B2R z - INR n) - (B2R x + B2R s * B2R d)) with (B2R z - (B2R x + B2R s * B2R d)) by ring. exact C.
Qed.

Lemma drift_updates ds : Forall small_step ds -> forall k x, c_live c k = true -> is_finite x = true -> 0 <= B2R x < 1 ->
  let e := INR (length ds) * ((2 * m + 2) * u) in let T := B2R x + B2R s * elapsed (map B2R ds) in
  exists N n y, (forall fuel, (N <= fuel)%nat -> run B64Scalar fuel (at_ k x) (map (fun d => @OpUpdate B64Scalar d) ds) = Done (at_ (k + n) y)) /\
    INR n <= T + e /\
    (c_live c (k + n) = true -> is_finite y = true /\ 0 <= B2R y < 1 /\ Rabs (INR n + B2R y - T) <= e).
Proof.
  pose proof speed_nonneg as SP.
  assert (U : 0 < u) by apply bpow_gt_0.
  assert (E0 : 0 <= (2 * m + 2) * u) by (apply Rmult_le_pos; lra).
  set (e0 := (2 * m + 2) * u) in *.
  induction 1 as [|d ds [Fd D] HF IH]; intros k x L F X; cbn [length map elapsed].
  - cbn [INR]. exists 0%nat, 0%nat, x. cbn [run INR]. rewrite Nat.add_0_r.
    split; [reflexivity|]. split; [lra|]. intros _. split; [exact F|]. split; [exact X|].
    apply Rabs_le. lra.
  - cbn zeta in *. rewrite S_INR. pose proof (pos_INR (length ds)) as LP.
    pose proof (Rmult_le_pos _ _ LP E0) as LE.
    pose proof (Rmult_le_pos _ _ SP (elapsed_nonneg (map B2R ds))) as TE.
    destruct (Rle_or_lt (B2R d) 0) as [Hd|Hd].
    + rewrite Rmax_right, Rplus_0_l by lra.
      destruct (IH k x L F X) as (N & n & y & A & B & C). exists N, n, y. split; [|split].
      * intros fuel Hf. cbn [run step]. rewrite update_nonpos; [apply A, Hf|].
        change (b64_leb d b64_0 = true). rewrite leb64 by (exact Fd || reflexivity). apply Rle_bool_true. exact Hd.
      * lra.
      * intros Q. destruct (C Q) as (C1 & C2 & C3). split; [exact C1|]. split; [exact C2|]. lra.
    + rewrite Rmax_left by lra.
      destruct (drift_update k x d L F X (conj Fd D) Hd) as (n & y & A & B & C1 & C2). fold e0 in C2.
      apply Rabs_le_inv in C2.
      destruct (c_live c (k + n)) eqn:L2.
      * destruct (IH (k + n)%nat y L2 B C1) as (N & n2 & y2 & A' & B' & C').
        exists (Nat.max (S n) N), (n + n2)%nat, y2. rewrite plus_INR, Nat.add_assoc. split; [|split].
        -- intros fuel Hf. cbn [run step]. rewrite A by lia. apply A'. lia.
        -- lra.
        -- intros Q. destruct (C' Q) as (D1 & D2 & D3). split; [exact D1|]. split; [exact D2|]. apply Rabs_le_inv in D3. apply Rabs_le. lra.
      * exists (S n), n, y. split; [|split].
        -- intros fuel Hf. cbn [run step]. rewrite A by lia. apply stopped_updates.
           ++ unfold after; cbn [pst]. rewrite L2. discriminate.
           ++ clear. induction ds; constructor; eauto.
        -- lra.
        -- rewrite L2. discriminate.
Qed.
End Drift.
