(** When Playback::Update returns, over IEEE binary64. *)
From Coq Require Import ZArith Reals List Bool Lia Lra.
From Flocq Require Import Core IEEE754.BinarySingleNaN.
From Verif Require Import Model.Scalar Model.Playback Spec.PlaybackSpec Proofs.PlaybackLemmas Proofs.PlaybackMore.
From Verif Require Import Proofs.SplineFloat Proofs.PlaneFloatLemmas Proofs.PlaybackDrift Proofs.PlaybackRange.
Import ListNotations.
Local Open Scope R_scope.

(** 2^53 + 4 *)
Definition large : b64 := b64_of_Z 9007199254740996.
Definition minus_large : b64 := b64_of_Z (-9007199254740996).

Lemma sf_value (x : b64) m e : B2SF x = SpecFloat.S754_finite false m e -> B2R x = IZR (Z.pos m) * bpow radix2 e.
Proof. intros H. rewrite <- SF2R_B2SF, H. reflexivity. Qed.
Lemma sf_value_neg (x : b64) m e : B2SF x = SpecFloat.S754_finite true m e -> B2R x = - (IZR (Z.pos m) * bpow radix2 e).
Proof. intros H. rewrite <- SF2R_B2SF, H. unfold SF2R, F2R. cbn [cond_Zopp Fnum Fexp]. rewrite opp_IZR. ring. Qed.

Lemma large_value : B2R large = 9007199254740996 /\ is_finite large = true.
Proof.
  split; [|vm_compute; reflexivity]. rewrite (sf_value large 4503599627370498 1) by (vm_compute; reflexivity).
  change (bpow radix2 1) with 2. lra.
Qed.
Lemma minus_large_value : B2R minus_large = -9007199254740996 /\ is_finite minus_large = true.
Proof.
  split; [|vm_compute; reflexivity]. rewrite (sf_value_neg minus_large 4503599627370498 1) by (vm_compute; reflexivity).
  change (bpow radix2 1) with 2. lra.
Qed.

Lemma p60 : bpow radix2 60 = 1152921504606846976.
Proof. rewrite <- (IZR_Zpower radix2 60) by lia. reflexivity. Qed.

(** Rounding at the limit. *)
Lemma round_tie_up : rnd 9007199254740995 = 9007199254740996.
Proof.
  destruct large_value as [E F]. destruct one64 as [E1 F1].
  destruct (sub_fin large (b64_of_Z 1) 60 F F1) as [A B]; [lia|rewrite E, E1, Rabs_pos_eq by lra; rewrite p60; lra|].
  rewrite E, E1 in B. replace (9007199254740996 - 1) with 9007199254740995 in B by lra. rewrite <- B.
  rewrite (sf_value _ 4503599627370498 1) by (vm_compute; reflexivity). change (bpow radix2 1) with 2. lra.
Qed.
Lemma round_tie_down : rnd 9007199254740993 = 9007199254740992.
Proof.
  set (t := b64_of_Z 9007199254740994). destruct one64 as [E1 F1].
  assert (E : B2R t = 9007199254740994).
  { rewrite (sf_value t 4503599627370497 1) by (vm_compute; reflexivity). change (bpow radix2 1) with 2. lra. }
  assert (F : is_finite t = true) by (vm_compute; reflexivity).
  destruct (sub_fin t (b64_of_Z 1) 60 F F1) as [A B]; [lia|rewrite E, E1, Rabs_pos_eq by lra; rewrite p60; lra|].
  rewrite E, E1 in B. replace (9007199254740994 - 1) with 9007199254740993 in B by lra. rewrite <- B.
  rewrite (sf_value _ 4503599627370496 1) by (vm_compute; reflexivity). change (bpow radix2 1) with 2. lra.
Qed.

(** There is no double between 2^53 + 2 and 2^53 + 4. *)
Lemma gap x : generic_format radix2 f64 x -> x < 9007199254740996 -> x <= 9007199254740994.
Proof.
  intros F H. apply Rnot_lt_le. intros L.
  apply FLT_format_generic in F; [|reflexivity]. destruct F as [[m e] E M X]. cbn [Fnum Fexp] in M, X.
  unfold F2R in E; cbn [Fnum Fexp] in E.
  destruct (Z_le_gt_dec 1 e) as [P|P].
  - assert (E2 : x = 2 * IZR (m * 2 ^ (e - 1))).
    { rewrite E, mult_IZR. change (2 ^ (e - 1))%Z with (radix2 ^ (e - 1))%Z. rewrite IZR_Zpower by lia.
      replace e with (1 + (e - 1))%Z at 1 by lia. rewrite bpow_plus. change (bpow radix2 1) with 2. ring. }
    set (k := (m * 2 ^ (e - 1))%Z) in *. clearbody k. rewrite E2 in H, L.
    assert (k < 4503599627370498)%Z by (apply lt_IZR; lra). assert (4503599627370497 < k)%Z by (apply lt_IZR; lra). lia.
  - assert (Q : x <= IZR (Z.abs m)).
    { rewrite E. apply Rle_trans with (IZR (Z.abs m) * bpow radix2 e).
      - apply Rmult_le_compat_r; [apply bpow_ge_0|apply IZR_le; lia].
      - rewrite <- (Rmult_1_r (IZR (Z.abs m))) at 2. apply Rmult_le_compat_l; [apply IZR_le; lia|]. apply (bpow_le radix2 e 0). lia. }
    change (radix2 ^ 53)%Z with 9007199254740992%Z in M. assert (IZR (Z.abs m) <= 9007199254740992) by (apply IZR_le; lia). lra.
Qed.

(** ** Forward *)

Lemma forward_never fuel : forall (p : playback B64Scalar) p', b64_leb large (interpolator (pf p)) = true -> forward_loop B64Scalar fuel p <> Done p'.
Proof.
  destruct one64 as [E1 F1]. destruct large_value as [EL FL].
  induction fuel as [|fuel IH]; intros p p' H; cbn [forward_loop]; [discriminate|].
  change (sle B64Scalar (s1 B64Scalar) (interpolator (pf p))) with (b64_leb (b64_of_Z 1) (interpolator (pf p))).
  set (x := interpolator (pf p) : b64) in *.
  assert (C : x = B754_infinity false \/ (is_finite x = true /\ 9007199254740996 <= B2R x)).
  { destruct (is_finite x) eqn:F.
    - right. split; [reflexivity|]. rewrite leb64, EL in H by assumption. destruct (Rle_bool_spec 9007199254740996 (B2R x)); [assumption|discriminate].
    - left. destruct x as [s|[|]| |s m e B]; try discriminate; try reflexivity; exfalso; revert H; vm_compute; discriminate. }
  replace (b64_leb (b64_of_Z 1) x) with true.
  2:{ destruct C as [-> |[F X]]; [vm_compute; reflexivity|]. rewrite leb64, E1 by assumption. symmetry. apply Rle_bool_true. lra. }
  match goal with |- context [post_next_frame B64Scalar ?q] => set (p1 := q) end.
  destruct (post_next_frame B64Scalar p1) as [q|] eqn:Eq; [|discriminate]. apply IH.
  rewrite (interp_post_next _ _ _ Eq). change (interpolator (pf p1)) with (b64_sub x (b64_of_Z 1)).
  destruct C as [-> |[F X]]; [vm_compute; reflexivity|].
  destruct (sub_upper x) as [-> |[F2 X2]]; [right; split; [exact F|lra]|rewrite leb64, E1 by assumption; apply Rle_bool_true; lra|vm_compute; reflexivity|].
  rewrite leb64, EL by assumption. apply Rle_bool_true.
  assert (C := Bminus_correct 53 1024 b64_prec_gt_0 b64_prec_lt_emax mode_NE x (b64_of_Z 1) F F1). fold (b64_sub x (b64_of_Z 1)) in C.
  change (SpecFloat.fexp 53 1024) with f64 in C. cbn [round_mode] in C. rewrite E1 in C.
  destruct (Rlt_bool_spec (Rabs (rnd (B2R x - 1))) (bpow radix2 1024)) as [L|L].
  - destruct C as (C & _). rewrite C, <- round_tie_up. apply round_le; auto with typeclass_instances. lra.
  - exfalso. destruct C as (C & _). apply overflow_inf in C. rewrite C in F2. discriminate.
Qed.

Lemma forward_returns_below (p : playback B64Scalar) : is_finite (interpolator (pf p) : b64) = true -> B2R (interpolator (pf p) : b64) <= bpow radix2 53 ->
  exists N, forall fuel, (N <= fuel)%nat -> forward_loop B64Scalar fuel p <> OutOfFuel.
Proof.
  destruct one64 as [E1 F1].
  intros F H. destruct (nat_above (B2R (interpolator (pf p) : b64))) as [n L]. exists (S n). intros fuel Hf.
  revert p fuel Hf F H L. induction n as [|n IH]; intros p fuel Hf F H L; (destruct fuel as [|fuel]; [lia|]); cbn [forward_loop];
  change (sle B64Scalar (s1 B64Scalar) (interpolator (pf p))) with (b64_leb (b64_of_Z 1) (interpolator (pf p))); rewrite leb64, E1 by assumption;
  destruct (Rle_bool_spec 1 (B2R (interpolator (pf p) : b64))) as [Q|Q]; try discriminate.
  - cbn in L. lra.
  - match goal with |- context [post_next_frame B64Scalar ?q] => set (p1 := q) end.
    destruct (post_next_frame B64Scalar p1) as [q|] eqn:Eq; [|discriminate].
    pose proof (interp_post_next _ _ _ Eq) as Ei. change (interpolator (pf p1)) with (b64_sub (interpolator (pf p)) (b64_of_Z 1)) in Ei.
    destruct (sub_one (interpolator (pf p)) F ltac:(lra)) as [A B]. rewrite S_INR in L.
    apply IH; rewrite ?Ei; [lia|exact A|rewrite B; lra|rewrite B; lra].
Qed.

Lemma p53_eq : bpow radix2 53 = 9007199254740992.
Proof. rewrite p53. reflexivity. Qed.

Lemma forward_returns (p : playback B64Scalar) : b64_leb large (interpolator (pf p)) = false ->
  exists N, forall fuel, (N <= fuel)%nat -> forward_loop B64Scalar fuel p <> OutOfFuel.
Proof.
  destruct one64 as [E1 F1]. destruct large_value as [EL FL]. set (x := interpolator (pf p) : b64). intros H.
  destruct (is_finite x) eqn:F.
  - rewrite leb64, EL in H by assumption. destruct (Rle_bool_spec 9007199254740996 (B2R x)) as [Q|Q]; [discriminate|].
    apply gap in Q; [|apply (generic_format_B2R 53 1024)].
    destruct (Rle_or_lt (B2R x) (bpow radix2 53)) as [L|L]; [apply forward_returns_below; assumption|]. rewrite p53_eq in L.
    set (p1 := with_pf B64Scalar (fun f => set_frame B64Scalar (nextFrame f) (set_interp B64Scalar (ssub B64Scalar (interpolator f) (s1 B64Scalar)) f)) p).
    assert (G : sle B64Scalar (s1 B64Scalar) (interpolator (pf p)) = true) by (change (b64_leb (b64_of_Z 1) x = true); rewrite leb64, E1 by assumption; apply Rle_bool_true; lra).
    destruct (post_next_frame B64Scalar p1) as [q|] eqn:Eq.
    + pose proof (interp_post_next _ _ _ Eq) as Ei. change (interpolator (pf p1)) with (b64_sub x (b64_of_Z 1)) in Ei.
      destruct (sub_fin x (b64_of_Z 1) 60 F F1) as [A B]; [lia|rewrite E1, Rabs_pos_eq by lra; rewrite p60; lra|].
      rewrite E1 in B.
      destruct (forward_returns_below q) as [N K].
      * rewrite Ei. exact A.
      * rewrite Ei, B, p53_eq, <- round_tie_down. apply round_le; auto with typeclass_instances. lra.
      * exists (S N). intros fuel Hf. destruct fuel as [|fuel]; [lia|]. cbn [forward_loop]. rewrite G. fold p1. rewrite Eq. apply K. lia.
    + exists 1%nat. intros fuel Hf. destruct fuel as [|fuel]; [lia|]. cbn [forward_loop]. rewrite G. fold p1. rewrite Eq. discriminate.
  - exists 1%nat. intros fuel Hf. destruct fuel as [|fuel]; [lia|]. cbn [forward_loop].
    change (sle B64Scalar (s1 B64Scalar) (interpolator (pf p))) with (b64_leb (b64_of_Z 1) x).
    destruct x as [s|[|]| |s m e B]; try discriminate; try (vm_compute in H; discriminate); vm_compute; discriminate.
Qed.

(** ** Backward *)

Lemma rnd_opp x : rnd (- x) = - rnd x.
Proof. apply round_NE_opp. Qed.
Lemma format_minus_one : generic_format radix2 f64 (-1).
Proof. apply generic_format_opp. apply format_one. Qed.

(** Adding one to something that is not above zero. *)
Lemma add_one_value (x : b64) : is_finite x = true -> B2R x <= 0 ->
  is_finite (b64_add x (b64_of_Z 1)) = true /\ B2R (b64_add x (b64_of_Z 1)) = rnd (B2R x + 1).
Proof.
  intros F X. destruct one64 as [E1 F1].
  assert (C := Bplus_correct 53 1024 b64_prec_gt_0 b64_prec_lt_emax mode_NE x (b64_of_Z 1) F F1). fold (b64_add x (b64_of_Z 1)) in C.
  change (SpecFloat.fexp 53 1024) with f64 in C. cbn [round_mode] in C. rewrite E1 in C. rewrite Rlt_bool_true in C.
  - destruct C as (C & G & _). split; [exact G|exact C].
  - pose proof (abs_B2R_lt_emax 53 1024 x) as B. apply Rabs_def2 in B.
    assert (rnd (B2R x + 1) <= 1) by (apply rnd_le_one; lra).
    assert (B2R x <= rnd (B2R x + 1)) by (apply round_ge_generic; auto with typeclass_instances; [apply (generic_format_B2R 53 1024)|lra]).
    assert (1 < bpow radix2 1024) by (apply (bpow_lt radix2 0); lia). apply Rabs_def1; lra.
Qed.

Lemma backward_never fuel : forall (p : playback B64Scalar) p', b64_leb (interpolator (pf p)) minus_large = true -> backward_loop B64Scalar fuel p <> Done p'.
Proof.
  destruct one64 as [E1 F1]. destruct minus_large_value as [EL FL].
  induction fuel as [|fuel IH]; intros p p' H; cbn [backward_loop]; [discriminate|].
  change (sle B64Scalar (interpolator (pf p)) (s0 B64Scalar)) with (b64_leb (interpolator (pf p)) b64_0).
  set (x := interpolator (pf p) : b64) in *.
  assert (C : x = B754_infinity true \/ (is_finite x = true /\ B2R x <= -9007199254740996)).
  { destruct (is_finite x) eqn:F.
    - right. split; [reflexivity|]. rewrite leb64, EL in H by assumption. destruct (Rle_bool_spec (B2R x) (-9007199254740996)); [assumption|discriminate].
    - left. destruct x as [s|[|]| |s m e B]; try discriminate; try reflexivity; exfalso; revert H; vm_compute; discriminate. }
  replace (b64_leb x b64_0) with true.
  2:{ destruct C as [-> |[F X]]; [vm_compute; reflexivity|]. rewrite leb64 by (exact F || reflexivity). symmetry. apply Rle_bool_true. cbn [B2R b64_0]. lra. }
  match goal with |- context [post_next_frame B64Scalar ?q] => set (p1 := q) end.
  destruct (post_next_frame B64Scalar p1) as [q|] eqn:Eq; [|discriminate]. apply IH.
  rewrite (interp_post_next _ _ _ Eq). change (interpolator (pf p1)) with (b64_add x (b64_of_Z 1)).
  destruct C as [-> |[F X]]; [vm_compute; reflexivity|].
  destruct (add_one_value x F ltac:(lra)) as [F2 E2].
  rewrite leb64, EL, E2 by assumption. apply Rle_bool_true. change (-9007199254740996) with (Ropp 9007199254740996). rewrite <- round_tie_up, <- rnd_opp. apply round_le; auto with typeclass_instances. lra.
Qed.

Lemma backward_returns_below (p : playback B64Scalar) : is_finite (interpolator (pf p) : b64) = true -> - bpow radix2 53 <= B2R (interpolator (pf p) : b64) ->
  exists N, forall fuel, (N <= fuel)%nat -> backward_loop B64Scalar fuel p <> OutOfFuel.
Proof.
  intros F H. destruct (nat_above (- B2R (interpolator (pf p) : b64))) as [n L]. exists (S n). intros fuel Hf.
  revert p fuel Hf F H L. induction n as [|n IH]; intros p fuel Hf F H L; (destruct fuel as [|fuel]; [lia|]); cbn [backward_loop];
  change (sle B64Scalar (interpolator (pf p)) (s0 B64Scalar)) with (b64_leb (interpolator (pf p)) b64_0); rewrite leb64 by (exact F || reflexivity);
  change (B2R b64_0) with 0; destruct (Rle_bool_spec (B2R (interpolator (pf p) : b64)) 0) as [Q|Q]; try discriminate.
  - cbn in L. lra.
  - match goal with |- context [post_next_frame B64Scalar ?q] => set (p1 := q) end.
    destruct (post_next_frame B64Scalar p1) as [q|] eqn:Eq; [|discriminate].
    pose proof (interp_post_next _ _ _ Eq) as Ei. change (interpolator (pf p1)) with (b64_add (interpolator (pf p)) (b64_of_Z 1)) in Ei.
    set (x := interpolator (pf p) : b64) in *. destruct (add_one_value x F Q) as [A B]. rewrite S_INR in L.
    assert (G : generic_format radix2 f64 (B2R x)) by apply (generic_format_B2R 53 1024).
    destruct (Rle_or_lt (B2R x) (-1)) as [K|K].
    + assert (E : rnd (B2R x + 1) = B2R x + 1).
      { apply round_generic; auto with typeclass_instances. replace (B2R x + 1) with (- (- B2R x - 1)) by ring. apply generic_format_opp, format_pred; [apply generic_format_opp, G|lra]. }
      rewrite E in B. apply IH; rewrite ?Ei; [lia|exact A|rewrite B; lra|rewrite B; lra].
    + assert (P : 0 < rnd (B2R x + 1)).
      { replace (B2R x + 1) with (B2R x - (-1)) by ring. apply rnd_sub_pos; [exact G|apply format_minus_one|lra]. }
      pose proof (bpow_gt_0 radix2 53). pose proof (pos_INR n).
      apply IH; rewrite ?Ei; [lia|exact A|rewrite B; lra|rewrite B; lra].
Qed.

Lemma backward_returns (p : playback B64Scalar) : b64_leb (interpolator (pf p)) minus_large = false ->
  exists N, forall fuel, (N <= fuel)%nat -> backward_loop B64Scalar fuel p <> OutOfFuel.
Proof.
  destruct minus_large_value as [EL FL]. set (x := interpolator (pf p) : b64). intros H.
  destruct (is_finite x) eqn:F.
  - rewrite leb64, EL in H by assumption. destruct (Rle_bool_spec (B2R x) (-9007199254740996)) as [Q|Q]; [discriminate|].
    assert (Q2 : - B2R x <= 9007199254740994) by (apply gap; [apply generic_format_opp, (generic_format_B2R 53 1024)|lra]).
    destruct (Rle_or_lt (- bpow radix2 53) (B2R x)) as [L|L]; [apply backward_returns_below; assumption|]. rewrite p53_eq in L.
    set (p1 := with_pf B64Scalar (fun f => set_next B64Scalar (frame f) (set_interp B64Scalar (sadd B64Scalar (interpolator f) (s1 B64Scalar)) f)) p).
    assert (G : sle B64Scalar (interpolator (pf p)) (s0 B64Scalar) = true) by (change (b64_leb x b64_0 = true); rewrite leb64 by (exact F || reflexivity); apply Rle_bool_true; change (B2R b64_0) with 0; lra).
    destruct (post_next_frame B64Scalar p1) as [q|] eqn:Eq.
    + pose proof (interp_post_next _ _ _ Eq) as Ei. change (interpolator (pf p1)) with (b64_add x (b64_of_Z 1)) in Ei.
      destruct (add_one_value x F ltac:(lra)) as [A B].
      destruct (backward_returns_below q) as [N K].
      * rewrite Ei. exact A.
      * rewrite Ei, B, p53_eq, <- round_tie_down, <- rnd_opp. apply round_le; auto with typeclass_instances. lra.
      * exists (S N). intros fuel Hf. destruct fuel as [|fuel]; [lia|]. cbn [backward_loop]. rewrite G. fold p1. rewrite Eq. apply K. lia.
    + exists 1%nat. intros fuel Hf. destruct fuel as [|fuel]; [lia|]. cbn [backward_loop]. rewrite G. fold p1. rewrite Eq. discriminate.
  - exists 1%nat. intros fuel Hf. destruct fuel as [|fuel]; [lia|]. cbn [backward_loop].
    change (sle B64Scalar (interpolator (pf p)) (s0 B64Scalar)) with (b64_leb x b64_0).
    destruct x as [s|[|]| |s m e B]; try discriminate; try (vm_compute in H; discriminate); vm_compute; discriminate.
Qed.

(** ** Update *)

Lemma update_returns_iff (p : playback B64Scalar) (dt : b64) :
  let x := b64_add (interpolator (pf p)) (b64_mul dt (speed (pf p))) in
  let endless := pst p = Playing /\ b64_leb dt b64_0 = false /\ (if b64_leb b64_0 (speed (pf p)) then b64_leb large x else b64_leb x minus_large) = true in
  (endless -> forall fuel p', update B64Scalar fuel dt p <> Done p') /\
  (~ endless -> exists N, forall fuel, (N <= fuel)%nat -> update B64Scalar fuel dt p <> OutOfFuel).
Proof.
  intros x endless. unfold endless, update. destruct (pst p).
  2,3: split; [intros (H & _); discriminate|intros _; exists 0%nat; intros; discriminate].
  change (sle B64Scalar dt (s0 B64Scalar)) with (b64_leb dt b64_0). destruct (b64_leb dt b64_0).
  { split; [intros (_ & H & _); discriminate|intros _; exists 0%nat; intros; discriminate]. }
  cbn zeta. set (p1 := with_pf B64Scalar (fun f => set_interp B64Scalar (sadd B64Scalar (interpolator f) (smul B64Scalar dt (speed f))) f) p).
  change (is_forward B64Scalar (pf p1)) with (b64_leb b64_0 (speed (pf p))).
  destruct (b64_leb b64_0 (speed (pf p))).
  - split.
    + intros (_ & _ & H) fuel p'. apply forward_never. exact H.
    + intros H. apply forward_returns. apply not_true_iff_false. intros Q. apply H. auto.
  - split.
    + intros (_ & _ & H) fuel p'. apply backward_never. exact H.
    + intros H. apply backward_returns. apply not_true_iff_false. intros Q. apply H. auto.
Qed.
