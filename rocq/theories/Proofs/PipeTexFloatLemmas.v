(** Texture coordinates of pipes in double precision. *)
From Coq Require Import ZArith Reals List Bool Lia Lra.
From Flocq Require Import Core IEEE754.BinarySingleNaN.
From Flocq Require Import Relative.
From Verif Require Import Model.Scalar Model.Vec Model.BoxFloat Model.PlaneFloat Model.ClipFloat Model.KeyframeFloat Model.MeshFloat Model.GridFloat Model.PipeTexFloat Spec.FloatSpec Spec.ClipFloatSpec Spec.GridFloatSpec Spec.PipeTexFloatSpec
  Proofs.PlaneFloatLemmas Proofs.SplineFloat Proofs.BoxRayFloatLemmas Proofs.ClipFloatLemmas Proofs.FrustumFloatLemmas Proofs.KeyframeFloatLemmas Proofs.MeshFloatLemmas Proofs.GridFloatLemmas Proofs.PlaneHitFloatLemmas.
Local Open Scope R_scope.

Lemma unit_error x : Rabs x <= 1 -> Rabs (rnd x - x) <= u.
Proof.
  intros X. assert (V := valid64). eapply Rle_trans; [apply error_le_half_ulp; exact V|]. assert (L : ulp radix2 f64 x <= ulp radix2 f64 1) by (apply ulp_le; [exact V|apply FLT_exp_monotone|rewrite Rabs_R1; exact X]).
  assert (E : ulp radix2 f64 1 = 2 * u). { change 1 with (bpow radix2 0). rewrite ulp_bpow. exact (double_pow (-53)). } lra.
Qed.
(** (1 + 2^-53) / 2 is half way between two numbers, and the even one is 1 / 2. *)
Lemma tie_to_half : rnd ((1 + u) / 2) = / 2.
Proof.
  destruct half_value as [VH FH]. set (t := @B754_finite 53 1024 false 4503599627370496 (-106) eq_refl). assert (VT : B2R t = u / 2). { unfold t. cbn [B2R]. unfold F2R. cbn [Fnum Fexp cond_Zopp]. change 4503599627370496%Z with (2 ^ 52)%Z. change (IZR (2 ^ 52)) with (bpow radix2 52). rewrite <- bpow_plus. assert (D : u = 2 * bpow radix2 (-54)) by exact (double_pow (-54)). rewrite D. change (52 + -106)%Z with (-54)%Z. field. }
  assert (US := v_small). destruct (add_fin fhalf t 1 FH eq_refl ltac:(lia)) as [_ V]; [rewrite VH, VT; change (bpow radix2 1) with 2; rewrite Rabs_pos_eq; lra|]. rewrite VH, VT in V. replace ((1 + u) / 2) with (/ 2 + u / 2) by field. rewrite <- V.
  assert (E : b64_add fhalf t = fhalf) by (apply B2SF_inj; vm_compute; reflexivity). rewrite E. exact VH.
Qed.

(** Mixing two numbers between 0 and 1 *)
Lemma unit_tame x : in_unit x -> tame x.
Proof. intros [F B]. split; [exact F|]. rewrite Rabs_pos_eq by lra. apply Rle_trans with (bpow radix2 0); [exact (proj2 B)|apply bpow_le; lia]. Qed.
Lemma mix_unit (a b t : b64) : in_unit a -> in_unit b -> in_unit t -> in_unit (flerp a b t).
Proof.
  intros A B [FT T]. destruct (flerp_value a b t (unit_tame a A) (unit_tame b B) FT T) as [F V]. split; [exact F|]. rewrite V. destruct A as [_ A]. destruct B as [_ B]. assert (VV := valid64). assert (GA := format_of a). set (x := B2R a) in *. set (y := B2R b) in *. set (s := B2R t) in *. unfold lerp_value.
  assert (L : - x <= rnd (y - x)) by (apply rnd_at_least; [now apply generic_format_opp|lra]). assert (H : rnd (y - x) <= rnd (1 - x)) by (apply rnd_mono; lra). set (d := rnd (y - x)) in *. assert (D0 : 0 <= rnd (1 - x)) by (apply rnd_at_least; [apply generic_format_0|lra]).
  assert (GD : generic_format radix2 f64 (rnd (1 - x))) by (apply generic_format_round; [exact VV|apply valid_rnd_N]). assert (E := unit_error (1 - x) ltac:(apply Rabs_le; lra)). set (D := rnd (1 - x)) in *.
  assert (P : - x <= d * s <= D).
  { destruct (Rle_or_lt 0 d) as [K|K].
    - split; [assert (0 <= d * s) by (apply Rmult_le_pos; lra); lra|]. apply Rle_trans with (d * 1); [apply Rmult_le_compat_l; lra|lra].
    - assert (- d * s <= - d * 1) by (apply Rmult_le_compat_l; lra). assert (0 <= - d * s) by (apply Rmult_le_pos; lra). lra. }
  assert (Q1 : - x <= rnd (d * s)) by (apply rnd_at_least; [now apply generic_format_opp|lra]). assert (Q2 : rnd (d * s) <= D) by (apply rnd_at_most; [exact GD|lra]). split; [apply rnd_at_least; [apply generic_format_0|lra]|].
  rewrite <- tie_to_one. apply rnd_mono. apply Rabs_le_inv in E. lra.
Qed.

(** One over twice the outer radius *)
Lemma inv_value (o : b64) : is_finite o = true -> bpow radix2 (-990) <= B2R o <= bpow radix2 990 -> is_finite (fpipe_inv o) = true /\ Rabs (B2R (fpipe_inv o) - / (2 * B2R o)) <= u * / (2 * B2R o).
Proof.
  intros F B. destruct (b64_int 2 ltac:(lia)) as [V2 F2]. destruct one_value as [V1 F1]. assert (B0 := bpow_gt_0 radix2 (-990)). assert (D9 : bpow radix2 991 = 2 * bpow radix2 990) by exact (double_pow 990). assert (D8 : bpow radix2 (-989) = 2 * bpow radix2 (-990)) by exact (double_pow (-990)).
  assert (G2 : generic_format radix2 f64 (B2R o * 2)). { destruct (@FLT_format_generic radix2 (3 - 1024 - 53) 53 eq_refl _ (format_of o)) as [[m e] X Hm He]. apply generic_format_FLT. exists (Float radix2 m (e + 1)); [|exact Hm|cbn in *; lia]. rewrite X. unfold F2R. cbn [Fnum Fexp]. rewrite bpow_plus. change (bpow radix2 1) with 2. ring. }
  assert (M : is_finite (b64_mul o (b64_of_Z 2)) = true /\ B2R (b64_mul o (b64_of_Z 2)) = B2R o * 2). { destruct (mul_exact o (b64_of_Z 2) F F2) as [G V]; [rewrite V2; exact G2|rewrite V2, Rabs_pos_eq by lra; apply Rle_lt_trans with (bpow radix2 991); [lra|apply bpow_lt; lia]|]. rewrite V2 in V. now split. }
  destruct M as [FM VM]. assert (I : bpow radix2 (-991) <= / (2 * B2R o) <= bpow radix2 989). { split; [rewrite <- (Rinv_inv (bpow radix2 (-991))); rewrite <- bpow_opp; apply Rinv_le_contravar; [lra|change (- -991)%Z with 991%Z; lra]|]. rewrite <- (Rinv_inv (bpow radix2 989)). rewrite <- bpow_opp. apply Rinv_le_contravar; [change (- (989))%Z with (-989)%Z; lra|change (- (989))%Z with (-989)%Z; lra]. }
  assert (I0 := bpow_gt_0 radix2 (-991)). assert (EQ : B2R b64_1 / B2R (b64_mul o (b64_of_Z 2)) = / (2 * B2R o)) by (rewrite V1, VM; field; lra).
  assert (DV : is_finite (fpipe_inv o) = true /\ B2R (fpipe_inv o) = rnd (/ (2 * B2R o))).
  { rewrite <- EQ. unfold fpipe_inv. apply (div_fin b64_1 (b64_mul o (b64_of_Z 2)) 989); try assumption; try lia; [rewrite VM; lra|rewrite EQ, Rabs_pos_eq; lra]. }
  destruct DV as [FD VD]. split; [exact FD|]. rewrite VD. rewrite <- (Rabs_pos_eq (/ (2 * B2R o))) at 3 by lra.
  eapply Rle_trans; [apply (relative_error_N_FLT radix2 (3 - 1024 - 53) 53 ltac:(lia)); rewrite Rabs_pos_eq by lra; apply Rle_trans with (2 := proj1 I); apply bpow_le; lia|]. apply Rmult_le_compat_r; [apply Rabs_pos|]. assert (D : bpow radix2 (- (53) + 1) = 2 * u) by exact (double_pow (-53)). rewrite D. lra.
Qed.

(** A point of one of the rims *)
Lemma ring_tex (o r s : b64) : radii o r -> is_finite s = true -> Rabs (B2R s) <= 1 ->
  in_unit (fpipe_ring_tex o (b64_mul s r)) /\ Rabs (B2R (fpipe_ring_tex o (b64_mul s r)) - (1 / 2 + B2R r / (2 * B2R o) * B2R s)) <= 2.6 * u.
Proof.
  intros (FO & FR & BO & BR) FS BS. destruct (inv_value o FO BO) as [FI EI]. destruct half_value as [VH FH]. assert (US := v_small). assert (ES := eta_small). assert (B0 := bpow_gt_0 radix2 (-990)).
  assert (GO := format_of o). set (y := B2R o) in *. set (x := B2R r) in *. set (c := B2R s) in *. set (I := / (2 * y)) in *. assert (I0 : 0 < I) by (apply Rinv_0_lt_compat; lra). assert (YI : y * I = / 2) by (unfold I; field; lra).
  assert (IB : I <= bpow radix2 989). { assert (D8 : bpow radix2 (-989) = 2 * bpow radix2 (-990)) by exact (double_pow (-990)). unfold I. rewrite <- (Rinv_inv (bpow radix2 989)). rewrite <- bpow_opp. apply Rinv_le_contravar; change (- (989))%Z with (-989)%Z; [apply bpow_gt_0|lra]. }
  assert (EI2 : eta * I <= / 1000000 * u). { apply Rle_trans with (eta * bpow radix2 989); [apply Rmult_le_compat_l; lra|]. rewrite <- bpow_plus. apply Rle_trans with (bpow radix2 (-20) * u); [rewrite <- bpow_plus; apply bpow_le; lia|]. apply Rmult_le_compat_r; [lra|]. change (bpow radix2 (-20)) with (/ 1048576). lra. }
  assert (P : Rabs (c * x) <= y). { rewrite Rabs_mult. apply Rle_trans with (1 * y); [apply Rmult_le_compat; try apply Rabs_pos; assumption|lra]. }
  destruct (mul_fin s r 990 FS FR ltac:(lia)) as [FM VM]; [fold c x; lra|]. fold c x in VM. assert (EM := rnd_near _ _ P). rewrite <- VM in EM. assert (BM : - y <= B2R (b64_mul s r) <= y). { apply Rabs_le_inv in P. rewrite VM. split; [apply rnd_at_least; [now apply generic_format_opp|lra]|apply rnd_at_most; [exact GO|lra]]. }
  set (m := B2R (b64_mul s r)) in *. set (i := B2R (fpipe_inv o)) in *. assert (AI : 0 <= i <= (1 + u) * I). { apply Rabs_le_inv in EI. assert (u * I <= / 1000000 * I) by (apply Rmult_le_compat_r; lra). lra. }
  assert (PM : Rabs (m * i) <= (1 + u) / 2). { rewrite Rabs_mult, (Rabs_pos_eq i) by lra. apply Rle_trans with (y * ((1 + u) * I)); [apply Rmult_le_compat; try apply Rabs_pos; try lra; apply Rabs_le; lra|]. replace (y * ((1 + u) * I)) with ((1 + u) * (y * I)) by ring. rewrite YI. lra. }
  destruct (mul_fin (b64_mul s r) (fpipe_inv o) 0 FM FI ltac:(lia)) as [FP VP]; [fold m i; change (bpow radix2 0) with 1; lra|]. fold m i in VP. assert (EP := rnd_near _ _ PM). rewrite <- VP in EP.
  assert (BP : - / 2 <= B2R (b64_mul (b64_mul s r) (fpipe_inv o)) <= / 2). { rewrite VP. apply Rabs_le_inv in PM. split; [|rewrite <- tie_to_half; apply rnd_mono; lra]. rewrite <- tie_to_half, <- round_NE_opp. apply rnd_mono. lra. }
  set (p := B2R (b64_mul (b64_mul s r) (fpipe_inv o))) in *. destruct (add_fin fhalf _ 0 FH FP ltac:(lia)) as [FA VA]; [rewrite VH; fold p; change (bpow radix2 0) with 1; apply Rabs_le; lra|]. rewrite VH in VA. fold p in VA. fold (fpipe_ring_tex o (b64_mul s r)) in FA, VA.
  split; [split; [exact FA|]; rewrite VA; split; [apply rnd_at_least; [apply generic_format_0|lra]|apply rnd_at_most; [apply format_1|lra]]|].
  assert (EA := unit_error (/ 2 + p) ltac:(apply Rabs_le; lra)). rewrite <- VA in EA. assert (PE := product_error m i (c * x) I _ _ EM EI).
  assert (K1 : (u * y + eta) * Rabs i <= (1 + u) * (u / 2 + / 1000000 * u)). { rewrite (Rabs_pos_eq i) by lra. apply Rle_trans with ((u * y + eta) * ((1 + u) * I)); [apply Rmult_le_compat_l; [|lra]; assert (0 <= u * y) by (apply Rmult_le_pos; lra); lra|]. replace ((u * y + eta) * ((1 + u) * I)) with ((1 + u) * (u * (y * I) + eta * I)) by ring. rewrite YI. apply Rmult_le_compat_l; lra. }
  assert (K2 : Rabs (c * x) * (u * I) <= u / 2). { apply Rle_trans with (y * (u * I)); [apply Rmult_le_compat_r; [apply Rmult_le_pos; lra|exact P]|]. replace (y * (u * I)) with (u * (y * I)) by ring. rewrite YI. lra. }
  assert (UU : 0 <= u * u <= / 1000000 * u) by (split; [apply Rmult_le_pos; lra|apply Rmult_le_compat_r; lra]). replace (x / (2 * y) * c) with (c * x * I) by (unfold I; field; lra).
  apply Rabs_le_inv in EA, EP, PE. apply Rabs_le. lra.
Qed.

Lemma flip_ring (flip : bool) (o r s : b64) : radii o r -> is_finite s = true -> Rabs (B2R s) <= 1 ->
  in_unit (fpipe_flip flip (fpipe_ring_tex o (b64_mul s r))) /\ Rabs (B2R (fpipe_flip flip (fpipe_ring_tex o (b64_mul s r))) - (if flip then 1 - (1 / 2 + B2R r / (2 * B2R o) * B2R s) else 1 / 2 + B2R r / (2 * B2R o) * B2R s)) <= 3.7 * u.
Proof.
  intros H F B. assert (US := v_small). destruct (ring_tex o r s H F B) as [U E]. destruct flip; [|split; [exact U|eapply Rle_trans; [exact E|lra]]]. destruct (flip_unit _ U) as [U2 E2]. split; [exact U2|]. unfold fpipe_flip. apply Rabs_le_inv in E, E2. apply Rabs_le. lra.
Qed.

Lemma pipe_tex_near (flip : bool) (o r s : b64) (c v : Z) : radii o r -> is_finite s = true -> Rabs (B2R s) <= 1 -> (1 <= c <= 2 ^ 32)%Z -> (0 <= v <= c)%Z ->
  let t := flerp (fpipe_flip flip (fpipe_ring_tex o (b64_mul s r))) (fpipe_flip flip (fpipe_ring_tex o (b64_mul s o))) (fshare c v) in
  in_unit t /\ Rabs (B2R t - pipe_tex flip (B2R o) (B2R r) (B2R s) (IZR v / IZR c)) <= 16 * u.
Proof.
  intros H F B C V t. assert (O : radii o o). { destruct H as (FO & _ & BO & _). split; [exact FO|]. split; [exact FO|]. split; [exact BO|]. assert (B0 := bpow_gt_0 radix2 (-990)). rewrite Rabs_pos_eq; lra. }
  destruct (flip_ring flip o r s H F B) as [UA EA]. destruct (flip_ring flip o o s O F B) as [UB EB]. assert (UT := share_unit c v C V). destruct (share_near c C v V) as (_ & ET & TQ). split; [now apply mix_unit|].
  destruct UT as [FT T]. destruct (flerp_value _ _ _ (unit_tame _ UA) (unit_tame _ UB) FT T) as [_ VL]. unfold t. rewrite VL. destruct UA as [_ UA]. destruct UB as [_ UB]. assert (L := lerp_near (B2R (fpipe_flip flip (fpipe_ring_tex o (b64_mul s r)))) (B2R (fpipe_flip flip (fpipe_ring_tex o (b64_mul s o)))) _ T).
  destruct H as (_ & _ & BO & BR). assert (B0 := bpow_gt_0 radix2 (-990)). assert (US := v_small). assert (ES := eta_small).
  set (a := B2R (fpipe_flip flip (fpipe_ring_tex o (b64_mul s r)))) in *. set (b := B2R (fpipe_flip flip (fpipe_ring_tex o (b64_mul s o)))) in *. set (k := B2R (fshare c v)) in *. set (q := IZR v / IZR c) in *. set (lv := lerp_value a b k) in *. clearbody lv. set (y := B2R o) in *. set (x := B2R r) in *. set (z := B2R s) in *.
  rewrite (Rabs_pos_eq a), (Rabs_pos_eq b) in L by lra. assert (YY : y / (2 * y) = / 2) by (field; lra). rewrite YY in EB. set (g := x / (2 * y) * z) in *.
  assert (G : Rabs g <= / 2). { unfold g. rewrite Rabs_mult. apply Rle_trans with (/ 2 * 1); [|lra]. apply Rmult_le_compat; try apply Rabs_pos; [|exact B]. unfold Rdiv. rewrite Rabs_mult, Rabs_inv, (Rabs_pos_eq (2 * y)) by lra. rewrite <- YY. apply Rmult_le_compat_r; [left; apply Rinv_0_lt_compat; lra|exact BR]. }
  assert (EQ : pipe_tex flip y x z q = (if flip then 1 - (1 / 2 + g) else 1 / 2 + g) + q * ((if flip then 1 - (1 / 2 + / 2 * z) else 1 / 2 + / 2 * z) - (if flip then 1 - (1 / 2 + g) else 1 / 2 + g))) by (unfold pipe_tex, g; destruct flip; field; lra).
  rewrite EQ. set (A := if flip then 1 - (1 / 2 + g) else 1 / 2 + g) in *. set (D := if flip then 1 - (1 / 2 + / 2 * z) else 1 / 2 + / 2 * z) in *. assert (DA : Rabs (D - A) <= 1) by (apply Rabs_le_inv in B, G; apply Rabs_le; unfold D, A; destruct flip; lra).
  assert (P1 : Rabs ((1 - k) * (a - A)) <= (1 - k) * (3.7 * u)) by (rewrite Rabs_mult, (Rabs_pos_eq (1 - k)) by lra; apply Rmult_le_compat_l; lra). assert (P2 : Rabs (k * (b - D)) <= k * (3.7 * u)) by (rewrite Rabs_mult, (Rabs_pos_eq k) by lra; apply Rmult_le_compat_l; lra).
  assert (P3 : Rabs ((k - q) * (D - A)) <= 2.1 * u * 1) by (rewrite Rabs_mult; apply Rmult_le_compat; try apply Rabs_pos; assumption). assert (P4 : 4 * u * (a + b) <= 4 * u * 2) by (apply Rmult_le_compat_l; lra).
  replace (lv - (A + q * (D - A))) with ((lv - (a + k * (b - a))) + ((1 - k) * (a - A) + k * (b - D) + (k - q) * (D - A))) by ring. apply Rabs_le_inv in L, P1, P2, P3. apply Rabs_le. lra.
Qed.
