(** The interpolator over IEEE binary64 stays in its interval, for every listener. *)
From Coq Require Import ZArith Reals List Bool Lia Lra.
From Flocq Require Import Core IEEE754.BinarySingleNaN.
From Verif Require Import Model.Scalar Model.Playback Spec.PlaybackSpec Proofs.PlaybackLemmas Proofs.PlaybackMore.
From Verif Require Import Proofs.PlaneFloatLemmas Proofs.PlaybackDrift.
Import ListNotations.
Local Open Scope R_scope.

Lemma sign_of (x : b64) : is_finite x = true -> (0 < B2R x -> Bsign x = false) /\ (B2R x < 0 -> Bsign x = true).
Proof.
  destruct x as [s|s| |s m e B]; try discriminate; intros _; cbn [B2R Bsign].
  - split; lra.
  - destruct s; cbn [cond_Zopp]; split; auto; intros H; exfalso.
    + revert H. apply Rle_not_lt, Rlt_le, F2R_lt_0. reflexivity.
    + revert H. apply Rle_not_lt, Rlt_le, F2R_gt_0. reflexivity.
Qed.

(** Not below zero, or not above one; possibly infinite. *)
Definition upper (x : b64) : Prop := x = B754_infinity false \/ (is_finite x = true /\ 0 <= B2R x).
Definition lower (x : b64) : Prop := x = B754_infinity true \/ (is_finite x = true /\ B2R x <= 1).

Lemma overflow_inf (x : b64) s : B2SF x = binary_overflow 53 1024 mode_NE s -> x = B754_infinity s.
Proof. intros H. destruct x; cbn in H; congruence. Qed.

Lemma rnd_nonneg x : 0 <= x -> 0 <= rnd x.
Proof. intros. apply round_ge_generic; auto with typeclass_instances; try apply generic_format_0; lra. Qed.
Lemma rnd_nonpos x : x <= 0 -> rnd x <= 0.
Proof. intros. apply round_le_generic; auto with typeclass_instances; try apply generic_format_0; lra. Qed.
Lemma format_one : generic_format radix2 f64 1.
Proof. apply (SplineFloat.format_int 1). lia. Qed.
Lemma rnd_le_one x : x <= 1 -> rnd x <= 1.
Proof. intros. apply round_le_generic; auto with typeclass_instances. apply format_one. Qed.

Lemma mul_upper (d s : b64) : is_finite d = true -> is_finite s = true -> 0 < B2R d -> 0 <= B2R s -> upper (b64_mul d s).
Proof.
  intros Fd Fs D S. assert (C := Bmult_correct 53 1024 b64_prec_gt_0 b64_prec_lt_emax mode_NE d s). fold (b64_mul d s) in C.
  change (SpecFloat.fexp 53 1024) with f64 in C. cbn [round_mode] in C.
  destruct (Rlt_bool_spec (Rabs (rnd (B2R d * B2R s))) (bpow radix2 1024)) as [L|L].
  - destruct C as (C & F & _). right. rewrite F, Fd, Fs. split; [reflexivity|]. rewrite C. apply rnd_nonneg. apply Rmult_le_pos; lra.
  - left. destruct (Req_dec (B2R s) 0) as [Z|Z].
    + exfalso. rewrite Z, Rmult_0_r, round_0, Rabs_R0 in L by auto with typeclass_instances. pose proof (bpow_gt_0 radix2 1024). lra.
    + rewrite (proj1 (sign_of d Fd) D), (proj1 (sign_of s Fs) ltac:(lra)) in C. apply overflow_inf. exact C.
Qed.
Lemma mul_lower (d s : b64) : is_finite d = true -> is_finite s = true -> 0 < B2R d -> B2R s < 0 ->
  b64_mul d s = B754_infinity true \/ (is_finite (b64_mul d s) = true /\ B2R (b64_mul d s) <= 0).
Proof.
  intros Fd Fs D S. assert (C := Bmult_correct 53 1024 b64_prec_gt_0 b64_prec_lt_emax mode_NE d s). fold (b64_mul d s) in C.
  change (SpecFloat.fexp 53 1024) with f64 in C. cbn [round_mode] in C.
  destruct (Rlt_bool_spec (Rabs (rnd (B2R d * B2R s))) (bpow radix2 1024)) as [L|L].
  - destruct C as (C & F & _). right. rewrite F, Fd, Fs. split; [reflexivity|]. rewrite C. apply rnd_nonpos.
    pose proof (Rmult_le_pos (B2R d) (- B2R s) ltac:(lra) ltac:(lra)). lra.
  - left. rewrite (proj1 (sign_of d Fd) D), (proj2 (sign_of s Fs) S) in C. apply overflow_inf. exact C.
Qed.

(** Adding something that does not go below zero. *)
Lemma add_upper (x y : b64) : is_finite x = true -> 0 <= B2R x -> upper y -> upper (b64_add x y).
Proof.
  intros Fx X [-> |[Fy Y]].
  - left. destruct x; try discriminate; reflexivity.
  - assert (C := Bplus_correct 53 1024 b64_prec_gt_0 b64_prec_lt_emax mode_NE x y Fx Fy). fold (b64_add x y) in C.
    change (SpecFloat.fexp 53 1024) with f64 in C. cbn [round_mode] in C.
    destruct (Rlt_bool_spec (Rabs (rnd (B2R x + B2R y))) (bpow radix2 1024)) as [L|L].
    + destruct C as (C & F & _). right. split; [exact F|]. rewrite C. apply rnd_nonneg. lra.
    + left. destruct C as [C G]. destruct (Req_dec (B2R x) 0) as [Z|Z].
      * destruct (Req_dec (B2R y) 0) as [Z2|Z2].
        -- exfalso. rewrite Z, Z2, Rplus_0_r, round_0, Rabs_R0 in L by auto with typeclass_instances. pose proof (bpow_gt_0 radix2 1024). lra.
        -- rewrite G, (proj1 (sign_of y Fy) ltac:(lra)) in C. apply overflow_inf. exact C.
      * rewrite (proj1 (sign_of x Fx) ltac:(lra)) in C. apply overflow_inf. exact C.
Qed.
(** Adding something that does not go above zero, or one to something that is not above zero. *)
Lemma add_lower (x y : b64) : is_finite x = true -> (y = B754_infinity true \/ (is_finite y = true /\ B2R x + B2R y <= 1)) -> lower (b64_add x y).
Proof.
  intros Fx [-> |[Fy Y]].
  - left. destruct x; try discriminate; reflexivity.
  - assert (C := Bplus_correct 53 1024 b64_prec_gt_0 b64_prec_lt_emax mode_NE x y Fx Fy). fold (b64_add x y) in C.
    change (SpecFloat.fexp 53 1024) with f64 in C. cbn [round_mode] in C.
    destruct (Rlt_bool_spec (Rabs (rnd (B2R x + B2R y))) (bpow radix2 1024)) as [L|L].
    + destruct C as (C & F & _). right. split; [exact F|]. rewrite C. apply rnd_le_one. exact Y.
    + left. destruct C as [C G].
      assert (N : B2R x + B2R y < 0).
      { destruct (Rlt_or_le (B2R x + B2R y) 0) as [A|A]; [exact A|]. exfalso.
        rewrite Rabs_pos_eq in L by (apply rnd_nonneg; exact A). pose proof (rnd_le_one _ Y). assert (1 < bpow radix2 1024) by (apply (bpow_lt radix2 0); lia). lra. }
      destruct (Rlt_or_le (B2R x) 0) as [A|A].
      * rewrite (proj2 (sign_of x Fx) A) in C. apply overflow_inf. exact C.
      * rewrite G, (proj2 (sign_of y Fy) ltac:(lra)) in C. apply overflow_inf. exact C.
Qed.
Lemma sub_upper (x : b64) : upper x -> b64_leb (b64_of_Z 1) x = true -> upper (b64_sub x (b64_of_Z 1)).
Proof.
  destruct one64 as [E1 F1]. intros [-> |[F X]] H.
  - left. vm_compute. reflexivity.
  - rewrite leb64, E1 in H by assumption. destruct (Rle_bool_spec 1 (B2R x)) as [Q|Q]; [|discriminate].
    assert (C := Bminus_correct 53 1024 b64_prec_gt_0 b64_prec_lt_emax mode_NE x (b64_of_Z 1) F F1). fold (b64_sub x (b64_of_Z 1)) in C.
    change (SpecFloat.fexp 53 1024) with f64 in C. cbn [round_mode] in C. rewrite E1 in C. rewrite Rlt_bool_true in C.
    + destruct C as (C & G & _). right. split; [exact G|]. rewrite C. apply rnd_nonneg. lra.
    + rewrite Rabs_pos_eq by (apply rnd_nonneg; lra). apply Rle_lt_trans with (B2R x).
      * apply round_le_generic; auto with typeclass_instances; [apply (generic_format_B2R 53 1024)|lra].
      * pose proof (abs_B2R_lt_emax 53 1024 x) as B. apply Rabs_def2 in B. apply B.
Qed.

Lemma range_forward fuel : forall p p' : playback B64Scalar, upper (interpolator (pf p)) ->
  forward_loop B64Scalar fuel p = Done p' -> is_finite (interpolator (pf p') : b64) = true /\ 0 <= B2R (interpolator (pf p') : b64) < 1.
Proof.
  destruct one64 as [E1 F1].
  induction fuel as [|fuel IH]; intros p p' U; cbn [forward_loop]; [discriminate|].
  change (sle B64Scalar (s1 B64Scalar) (interpolator (pf p))) with (b64_leb (b64_of_Z 1) (interpolator (pf p))).
  destruct (b64_leb (b64_of_Z 1) (interpolator (pf p))) eqn:E.
  - match goal with |- context [post_next_frame B64Scalar ?q] => set (p1 := q) end.
    destruct (post_next_frame B64Scalar p1) as [q|] eqn:Eq; [|discriminate]. apply IH.
    rewrite (interp_post_next _ _ _ Eq). apply sub_upper; assumption.
  - intros H. injection H as <-. destruct U as [U|[F X]].
    + rewrite U in E. exfalso. revert E. vm_compute. discriminate.
    + rewrite leb64, E1 in E by assumption. destruct (Rle_bool_spec 1 (B2R (interpolator (pf p) : b64))); [discriminate|]. auto.
Qed.
Lemma range_backward fuel : forall p p' : playback B64Scalar, lower (interpolator (pf p)) ->
  backward_loop B64Scalar fuel p = Done p' -> is_finite (interpolator (pf p') : b64) = true /\ 0 < B2R (interpolator (pf p') : b64) <= 1.
Proof.
  destruct one64 as [E1 F1].
  induction fuel as [|fuel IH]; intros p p' U; cbn [backward_loop]; [discriminate|].
  change (sle B64Scalar (interpolator (pf p)) (s0 B64Scalar)) with (b64_leb (interpolator (pf p)) b64_0).
  destruct (b64_leb (interpolator (pf p)) b64_0) eqn:E.
  - match goal with |- context [post_next_frame B64Scalar ?q] => set (p1 := q) end.
    destruct (post_next_frame B64Scalar p1) as [q|] eqn:Eq; [|discriminate]. apply IH.
    rewrite (interp_post_next _ _ _ Eq). change (interpolator (pf p1)) with (b64_add (interpolator (pf p)) (b64_of_Z 1)).
    destruct U as [U|[F X]].
    + rewrite U. left. vm_compute. reflexivity.
    + apply add_lower; [exact F|]. right. split; [exact F1|]. rewrite E1. rewrite leb64 in E by (exact F || reflexivity).
      cbn [B2R b64_0] in E. destruct (Rle_bool_spec (B2R (interpolator (pf p) : b64)) 0); [lra|discriminate].
  - intros H. injection H as <-. destruct U as [U|[F X]].
    + rewrite U in E. exfalso. revert E. vm_compute. discriminate.
    + rewrite leb64 in E by (exact F || reflexivity). cbn [B2R b64_0] in E. destruct (Rle_bool_spec (B2R (interpolator (pf p) : b64)) 0); [discriminate|]. auto.
Qed.

Lemma update_range_forward fuel (dt : b64) (p p' : playback B64Scalar) :
  let s : b64 := speed (pf p) in let x : b64 := interpolator (pf p) in let x' : b64 := interpolator (pf p') in
  is_finite dt = true -> is_finite s = true -> 0 <= B2R s -> is_finite x = true -> 0 <= B2R x < 1 ->
  update B64Scalar fuel dt p = Done p' -> is_finite x' = true /\ 0 <= B2R x' < 1.
Proof.
  intros s x x' Fd Fs S Fx X H. destruct (pst p) eqn:Hst.
  2,3: rewrite update_not_playing in H by (rewrite Hst; discriminate); injection H as <-; auto.
  destruct (Rle_or_lt (B2R dt) 0) as [Hd|Hd].
  - rewrite update_nonpos in H; [injection H as <-; auto|]. change (b64_leb dt b64_0 = true). rewrite leb64 by (exact Fd || reflexivity). apply Rle_bool_true. exact Hd.
  - unfold update in H. rewrite Hst in H.
    replace (sle B64Scalar dt (s0 B64Scalar)) with false in H by (symmetry; change (b64_leb dt b64_0 = false); rewrite leb64 by (exact Fd || reflexivity); apply Rle_bool_false; exact Hd).
    cbn zeta in H. unfold is_forward in H. cbn [with_pf pf set_interp speed] in H.
    replace (sle B64Scalar (s0 B64Scalar) (speed (pf p))) with true in H by (symmetry; change (b64_leb b64_0 s = true); rewrite leb64 by (exact Fs || reflexivity); apply Rle_bool_true; exact S).
    revert H. apply range_forward. apply (add_upper x (b64_mul dt s)); [exact Fx|lra|]. apply mul_upper; assumption.
Qed.
Lemma update_range_backward fuel (dt : b64) (p p' : playback B64Scalar) :
  let s : b64 := speed (pf p) in let x : b64 := interpolator (pf p) in let x' : b64 := interpolator (pf p') in
  is_finite dt = true -> is_finite s = true -> B2R s < 0 -> is_finite x = true -> B2R x <= 1 -> pst p = Playing -> 0 < B2R dt ->
  update B64Scalar fuel dt p = Done p' -> is_finite x' = true /\ 0 < B2R x' <= 1.
Proof.
  intros s x x' Fd Fs S Fx X Hst Hd H.
  unfold update in H. rewrite Hst in H.
  replace (sle B64Scalar dt (s0 B64Scalar)) with false in H by (symmetry; change (b64_leb dt b64_0 = false); rewrite leb64 by (exact Fd || reflexivity); apply Rle_bool_false; exact Hd).
  cbn zeta in H. unfold is_forward in H. cbn [with_pf pf set_interp speed] in H.
  replace (sle B64Scalar (s0 B64Scalar) (speed (pf p))) with false in H by (symmetry; change (b64_leb b64_0 s = false); rewrite leb64 by (exact Fs || reflexivity); apply Rle_bool_false; exact S).
  revert H. apply range_backward. apply (add_lower x (b64_mul dt s)); [exact Fx|].
  destruct (mul_lower dt s Fd Fs Hd S) as [-> |[A B]]; [left; reflexivity|]. right. split; [exact A|]. lra.
Qed.
