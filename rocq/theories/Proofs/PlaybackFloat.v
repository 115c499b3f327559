(** Playback::Update over IEEE binary64. *)
From Coq Require Import ZArith Reals List Bool Lia Lra.
From Flocq Require Import Core IEEE754.BinarySingleNaN.
From Verif Require Import Model.Scalar Model.Playback Proofs.PlaybackMore.
Import ListNotations.
Open Scope Z_scope.

(** Subtracting one from 2^60 changes nothing. *)
Lemma big_minus_one : b64_sub (b64_of_Z (2 ^ 60)) (b64_of_Z 1) = b64_of_Z (2 ^ 60).
Proof. apply B2SF_inj. vm_compute. reflexivity. Qed.

Lemma forward_stuck fuel : forall p : playback B64Scalar,
  plst p = LLoop -> interpolator (pf p) = b64_of_Z (2 ^ 60) -> forward_loop B64Scalar fuel p = OutOfFuel.
Proof.
  induction fuel as [|n IH]; intros p Hl Hi; cbn [forward_loop]; [reflexivity|].
  rewrite Hi. replace (sle B64Scalar (s1 B64Scalar) (b64_of_Z (2 ^ 60))) with true by (vm_compute; reflexivity).
  match goal with |- context [post_next_frame B64Scalar ?q] => set (p1 := q) end.
  destruct (post_next_frame B64Scalar p1) as [q|] eqn:E.
  - apply IH.
    + unfold post_next_frame in E. cbn [plst post] in E. change (plst p1) with (plst p) in E. rewrite Hl in E.
      injection E as <-. destruct (has_end_reached _ _); cbn; exact Hl.
    + rewrite (interp_post_next _ _ _ E). unfold p1. cbn [with_pf pf set_frame set_interp interpolator].
      rewrite Hi. apply big_minus_one.
  - unfold post_next_frame in E. cbn [plst post] in E. change (plst p1) with (plst p) in E. rewrite Hl in E. discriminate.
Qed.

(** A playing looped playback and a finite time delta for which Update never returns. *)
Definition stuck_playback : playback B64Scalar :=
  mkPlayback (@mkFields B64Scalar 0 9 0 1 b64_0 (b64_of_Z 1)) Playing LLoop [].

Lemma stuck_is_reached :
  play B64Scalar 0 9 (b64_of_Z 1) LLoop (playback_init B64Scalar)
  = Some (mkPlayback (pf stuck_playback) Playing LLoop [EvPlay; EvNext 0]).
Proof.
  unfold play, post_next_frame, has_end_reached, set_next_frame, are_frames_chrono.
  cbn -[wrap b64_of_Z b64_0 b64_leb is_forward]. unfold are_frames_chrono, is_forward.
  cbn -[wrap b64_of_Z b64_0 b64_leb].
  assert (E : b64_leb b64_0 (b64_of_Z 1) = true) by (vm_compute; reflexivity).
  rewrite !E. reflexivity.
Qed.

Lemma stuck_update fuel lg : update B64Scalar fuel (b64_of_Z (2 ^ 60))
  (mkPlayback (pf stuck_playback) Playing LLoop lg) = OutOfFuel.
Proof.
  unfold update. cbn [pst].
  replace (sle B64Scalar (b64_of_Z (2 ^ 60)) (s0 B64Scalar)) with false by (vm_compute; reflexivity).
  cbn zeta.
  match goal with |- context [forward_loop _ _ ?q] => set (p1 := q) end.
  replace (is_forward B64Scalar (pf p1)) with true by (vm_compute; reflexivity).
  apply forward_stuck; [reflexivity|]. apply B2SF_inj. vm_compute. reflexivity.
Qed.

(** ** Termination for interpolators up to 2^53 *)

Notation rnd := (round radix2 (SpecFloat.fexp 53 1024) (round_mode mode_NE)).

Lemma one_b64 : B2R (b64_of_Z 1) = 1%R /\ is_finite (b64_of_Z 1) = true.
Proof.
  split; [|vm_compute; reflexivity].
  rewrite <- SF2R_B2SF.
  replace (B2SF (b64_of_Z 1)) with (SpecFloat.S754_finite false 4503599627370496 (-52)) by (vm_compute; reflexivity).
  unfold SF2R, F2R. cbn [cond_Zopp Fnum Fexp bpow].
  change (IZR (Z.pow_pos radix2 52)) with (IZR 4503599627370496). lra.
Qed.

Lemma b64_sub_one (x : b64) : is_finite x = true -> (1 <= B2R x <= bpow radix2 53)%R ->
  is_finite (b64_sub x (b64_of_Z 1)) = true /\ (B2R (b64_sub x (b64_of_Z 1)) <= B2R x - /2)%R
  /\ (0 <= B2R (b64_sub x (b64_of_Z 1)))%R.
Proof.
  intros Hf Hx. destruct one_b64 as [E1 F1].
  pose proof (@Bminus_correct 53 1024 b64_prec_gt_0 b64_prec_lt_emax mode_NE x (b64_of_Z 1) Hf F1) as H.
  rewrite E1 in H. fold (b64_sub x (b64_of_Z 1)) in H.
  assert (Hv : Valid_exp (SpecFloat.fexp 53 1024)) by (apply fexp_correct; reflexivity).
  assert (Hlo : (0 <= rnd (B2R x - 1))%R).
  { apply round_ge_generic; auto with typeclass_instances; [apply generic_format_0|lra]. }
  assert (Hhi : (rnd (B2R x - 1) <= B2R x)%R).
  { apply round_le_generic; auto with typeclass_instances; [apply generic_format_B2R|lra]. }
  assert (Herr : (Rabs (rnd (B2R x - 1) - (B2R x - 1)) <= /2 * ulp radix2 (SpecFloat.fexp 53 1024) (B2R x - 1))%R).
  { apply error_le_half_ulp. exact Hv. }
  assert (Hulp : (ulp radix2 (SpecFloat.fexp 53 1024) (B2R x - 1) <= 1)%R).
  { assert (Hm : Monotone_exp (SpecFloat.fexp 53 1024)) by (unfold SpecFloat.fexp, SpecFloat.emin; intros a b Hab; lia).
    destruct (Req_dec (B2R x - 1) 0) as [Hz|Hz].
    - rewrite Hz. change (SpecFloat.fexp 53 1024) with (FLT_exp (3 - 1024 - 53) 53).
      rewrite ulp_FLT_0; [|reflexivity]. apply (bpow_le radix2 _ 0). lia.
    - rewrite ulp_neq_0 by exact Hz. unfold cexp. apply (bpow_le radix2 _ 0).
      assert (Hmag : mag radix2 (B2R x - 1) <= 53).
      { apply mag_le_bpow; [exact Hz|]. rewrite Rabs_pos_eq by lra. lra. }
      revert Hmag. generalize (mag_val radix2 (B2R x - 1) (mag radix2 (B2R x - 1))). intros m Hmag.
      unfold SpecFloat.fexp, SpecFloat.emin. apply Z.max_lub; lia. }
  rewrite Rlt_bool_true in H.
  - destruct H as (H1 & H2 & _). rewrite H1. split; [exact H2|]. split; [|exact Hlo].
    apply Rabs_le_inv in Herr. lra.
  - rewrite Rabs_pos_eq by exact Hlo. apply Rle_lt_trans with (1 := Hhi).
    apply Rle_lt_trans with (1 := proj2 Hx). apply bpow_lt. reflexivity.
Qed.

Lemma b64_leb_one (x : b64) : is_finite x = true -> b64_leb (b64_of_Z 1) x = true -> (1 <= B2R x)%R.
Proof.
  intros Hf H. destruct one_b64 as [E1 F1]. unfold b64_leb in H. rewrite Bleb_correct in H by assumption.
  rewrite E1 in H. apply Rle_bool_true_iff in H || (destruct (Rle_bool_spec 1 (B2R x)); [assumption|discriminate]). 
Qed.

Lemma forward_loop_b64_ends : forall n (p : playback B64Scalar) fuel,
  is_finite (interpolator (pf p)) = true -> (B2R (interpolator (pf p)) <= bpow radix2 53)%R ->
  (B2R (interpolator (pf p)) < INR n * /2 + 1)%R -> (n < fuel)%nat -> forward_loop B64Scalar fuel p <> OutOfFuel.
Proof.
  induction n as [|n IH]; intros p fuel Hfin Hle Hn Hf; (destruct fuel as [|fuel]; [lia|]); cbn [forward_loop].
  - destruct (sle B64Scalar (s1 B64Scalar) (interpolator (pf p))) eqn:E; [|discriminate].
    apply b64_leb_one in E; [|exact Hfin]. cbn in Hn. lra.
  - destruct (sle B64Scalar (s1 B64Scalar) (interpolator (pf p))) eqn:E; [|discriminate].
    apply b64_leb_one in E; [|exact Hfin].
    match goal with |- context [post_next_frame B64Scalar ?q] => set (p1 := q) end.
    destruct (post_next_frame B64Scalar p1) as [q|] eqn:Eq; [|discriminate].
    destruct (b64_sub_one (interpolator (pf p)) Hfin (conj E Hle)) as (H1 & H2 & H3).
    pose proof (interp_post_next _ _ _ Eq) as Ei.
    change (interpolator (pf p1)) with (b64_sub (interpolator (pf p)) (b64_of_Z 1)) in Ei.
    rewrite S_INR in Hn.
    apply IH; rewrite ?Ei; [exact H1|lra|lra|lia].
Qed.

Lemma update_b64_ends (p : playback B64Scalar) (dt : b64) :
  b64_leb b64_0 (speed (pf p)) = true ->
  let x := b64_add (interpolator (pf p)) (b64_mul dt (speed (pf p))) in
  is_finite x = true -> (B2R x <= bpow radix2 53)%R ->
  exists N, forall fuel, (N <= fuel)%nat -> update B64Scalar fuel dt p <> OutOfFuel.
Proof.
  intros Hs x Hfin Hx. unfold update.
  destruct (pst p); try (exists 0%nat; intros; discriminate).
  destruct (sle _ _ _); [exists 0%nat; intros; discriminate|]. cbn zeta.
  match goal with |- context [forward_loop _ _ ?q] => set (p1 := q) end.
  replace (is_forward B64Scalar (pf p1)) with true by (symmetry; exact Hs).
  destruct (nat_above (2 * B2R x)) as [n Hn].
  exists (Datatypes.S n). intros fuel Hf. apply (forward_loop_b64_ends n); try lia.
  - exact Hfin.
  - exact Hx.
  - change (interpolator (pf p1)) with x. lra.
Qed.
