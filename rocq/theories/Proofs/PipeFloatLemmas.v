(** Mixing two points of rings in double precision. *)
From Coq Require Import ZArith Reals List Bool Lia Lra.
From Flocq Require Import Core IEEE754.BinarySingleNaN.
From Verif Require Import Model.Scalar Model.Vec Model.BoxFloat Model.PlaneFloat Model.ClipFloat Model.KeyframeFloat Model.MeshFloat Model.GridFloat Model.PipeFloat Spec.FloatSpec Spec.KeyframeFloatSpec Spec.ClipFloatSpec Spec.GridFloatSpec Spec.PipeFloatSpec
  Proofs.PlaneFloatLemmas Proofs.ClipFloatLemmas Proofs.FrustumFloatLemmas Proofs.KeyframeFloatLemmas Proofs.MeshFloatLemmas Proofs.GridFloatLemmas Proofs.PlaneHitFloatLemmas Spec.MeshFloatSpec.
Local Open Scope R_scope.

Section Ring.
  Context (f : b64 -> b64) (g : R -> R) (A : accurate f g) (G1 : forall y, -1 <= g y <= 1) (G2 : forall y z, Rabs (g y - g z) <= Rabs (y - z)).
  Context (n : Z) (N : (1 <= n <= 2 ^ 20)%Z) (u : nat) (U : (Z.of_nat u <= n)%Z).

  Lemma ring_value (r : b64) : pipe_radius r -> let x := b64_mul (f (fangle n u)) r in
    tame x /\ Rabs (B2R x) <= 1.02 * Rabs (B2R r) + eta /\ Rabs (B2R x - B2R r * g (part n (Z.of_nat u))) <= (8 * bpow radix2 (-53) * (INR u + 2) + 4 * bpow radix2 (-53)) * Rabs (B2R r) + eta.
  Proof.
    intros [Fr Br] x. assert (N2 : (1 <= n <= 2 ^ 32)%Z) by lia. destruct (angle_exact n N2 u U ltac:(lia)) as (FA & EA & BA). assert (US := v_small). assert (ES := eta_small). set (w := bpow radix2 (-53)) in *.
    assert (UN : 0 <= INR u <= 1048576) by (split; [apply pos_INR|rewrite INR_IZR_INZ; apply IZR_le; lia]). assert (WU : 0 <= w * INR u <= w * 1048576) by (split; [apply Rmult_le_pos; lra|apply Rmult_le_compat_l; lra]). assert (W3 : w * 1048576 <= 0.0001) by (change w with (/ 9007199254740992); lra).
    assert (D : 0 <= 8 * w * (INR u + 2) <= 0.01) by lra. assert (B3 : Rabs (B2R r) <= bpow radix2 1000) by (apply Rle_trans with (1 := Br), bpow_le; lia).
    destruct (trig_near f g (fangle n u) r _ _ A G1 G2 FA BA EA D Fr B3) as [FX EX]. fold w in EX. set (a := part n (Z.of_nat u)) in *.
    set (R := Rabs (B2R r)) in *. assert (R0 : 0 <= R) by apply Rabs_pos. assert (GB : Rabs (B2R r * g a) <= R). { rewrite Rabs_mult. fold R. assert (K : Rabs (g a) <= 1) by (apply Rabs_le, G1). apply Rle_trans with (R * 1); [apply Rmult_le_compat_l; lra|lra]. }
    assert (ED : (8 * w * (INR u + 2) + 4 * w) * R <= 0.011 * R) by (apply Rmult_le_compat_r; lra). set (h := eta) in *.
    assert (BX : Rabs (B2R x) <= 1.02 * R + h) by (unfold x; apply far_from in EX; lra). split; [|split; [exact BX|exact EX]]. split; [exact FX|].
    assert (Q1 : bpow radix2 499 = 2 * bpow radix2 498) by exact (double_pow 498). assert (W1 : 1 <= bpow radix2 498) by (change 1 with (bpow radix2 0); apply bpow_le; lia). lra.
  Qed.

  Lemma mix_near (i o : b64) (c v : Z) : pipe_radius i -> pipe_radius o -> (1 <= c <= 2 ^ 32)%Z -> (0 <= v <= c)%Z ->
    let x := flerp (b64_mul (f (fangle n u)) i) (b64_mul (f (fangle n u)) o) (fshare c v) in
    is_finite x = true /\ Rabs (B2R x - (B2R i + IZR v / IZR c * (B2R o - B2R i)) * g (part n (Z.of_nat u))) <= 8 * bpow radix2 (-53) * (INR u + 4) * (Rabs (B2R i) + Rabs (B2R o)) + 8 * eta.
  Proof.
    intros HI HO C V x. destruct (ring_value i HI) as (TI & BI & EI). destruct (ring_value o HO) as (TO & BO & EO). destruct (share_unit c v C V) as [FT T]. destruct (share_near c C v V) as (_ & ET & _).
    destruct (flerp_value _ _ _ TI TO FT T) as [FX VX]. split; [exact FX|]. unfold x. rewrite VX. assert (L := lerp_near (B2R (b64_mul (f (fangle n u)) i)) (B2R (b64_mul (f (fangle n u)) o)) _ T).
    assert (US := v_small). assert (ES := eta_small). set (w := bpow radix2 (-53)) in *. set (h := eta) in *. set (a := B2R (b64_mul (f (fangle n u)) i)) in *. set (b := B2R (b64_mul (f (fangle n u)) o)) in *. set (t := B2R (fshare c v)) in *. set (q := IZR v / IZR c) in *. set (s := g (part n (Z.of_nat u))) in *.
    set (I := Rabs (B2R i)) in *. set (O := Rabs (B2R o)) in *. assert (I0 : 0 <= I) by apply Rabs_pos. assert (O0 : 0 <= O) by apply Rabs_pos.
    assert (UN : 0 <= INR u) by apply pos_INR. set (k := 8 * w * (INR u + 2) + 4 * w) in *. assert (WU : 0 <= w * INR u) by (apply Rmult_le_pos; lra). assert (K0 : 0 <= k) by (unfold k; lra).
    set (lv := lerp_value a b t) in *. clearbody lv.
    assert (P1 : Rabs ((1 - t) * (a - B2R i * s)) <= k * I + h). { rewrite Rabs_mult, (Rabs_pos_eq (1 - t)) by lra. apply Rle_trans with (1 * (k * I + h)); [apply Rmult_le_compat; try lra; apply Rabs_pos|lra]. }
    assert (P2 : Rabs (t * (b - B2R o * s)) <= k * O + h). { rewrite Rabs_mult, (Rabs_pos_eq t) by lra. apply Rle_trans with (1 * (k * O + h)); [apply Rmult_le_compat; try lra; apply Rabs_pos|lra]. }
    assert (S1 : Rabs s <= 1) by (apply Rabs_le, G1). assert (OI : Rabs (B2R o - B2R i) <= I + O). { unfold Rminus. eapply Rle_trans; [apply Rabs_triang|]. rewrite Rabs_Ropp. fold I O. lra. }
    assert (P3 : Rabs ((t - q) * ((B2R o - B2R i) * s)) <= 2.1 * w * (I + O)). { rewrite !Rabs_mult. apply Rmult_le_compat; try apply Rabs_pos; [apply Rmult_le_pos; apply Rabs_pos|exact ET|]. apply Rle_trans with ((I + O) * 1); [apply Rmult_le_compat; try apply Rabs_pos; assumption|lra]. }
    assert (P4 : 4 * w * (Rabs a + Rabs b) <= 4 * w * (1.02 * (I + O) + 2 * h)) by (apply Rmult_le_compat_l; lra). assert (WH : 0 <= w * h <= / 1000000 * h) by (split; [apply Rmult_le_pos; lra|apply Rmult_le_compat_r; lra]).
    assert (WIO : 0 <= w * (I + O)) by (apply Rmult_le_pos; lra).
    assert (FIN : k * I + h + (k * O + h) + 2.1 * w * (I + O) + (4 * w * (1.02 * (I + O) + 2 * h) + 4 * h) <= 8 * w * (INR u + 4) * (I + O) + 8 * h) by (unfold k; lra).
    replace (lv - (B2R i + q * (B2R o - B2R i)) * s) with ((lv - (a + t * (b - a))) + ((1 - t) * (a - B2R i * s) + t * (b - B2R o * s) + (t - q) * ((B2R o - B2R i) * s))) by ring.
    apply Rabs_le_inv in L, P1, P2, P3. apply Rabs_le. lra.
  Qed.

  Lemma mix_start (i o : b64) (c : Z) : pipe_radius i -> pipe_radius o -> (1 <= c <= 2 ^ 32)%Z -> B2R (flerp (b64_mul (f (fangle n u)) i) (b64_mul (f (fangle n u)) o) (fshare c 0)) = B2R (b64_mul (f (fangle n u)) i).
  Proof.
    intros HI HO C. destruct (ring_value i HI) as (TI & _). destruct (ring_value o HO) as (TO & _). destruct (no_share c C) as [F0 V0]. destruct (flerp_value _ _ _ TI TO F0 ltac:(lra)) as [_ ->]. rewrite V0. unfold lerp_value. rewrite Rmult_0_r, round_0 by apply valid_rnd_N. rewrite Rplus_0_l. apply format_b64.
  Qed.

  Lemma mix_end (i o : b64) (c : Z) : pipe_radius i -> pipe_radius o -> (1 <= c <= 48)%Z ->
    Rabs (B2R (flerp (b64_mul (f (fangle n u)) i) (b64_mul (f (fangle n u)) o) (fshare c c)) - B2R (b64_mul (f (fangle n u)) o)) <= 8 * bpow radix2 (-53) * (Rabs (B2R i) + Rabs (B2R o)) + 8 * eta.
  Proof.
    intros HI HO C. destruct (ring_value i HI) as (TI & BI & _). destruct (ring_value o HO) as (TO & BO & _). destruct (whole_share c C) as [F1 V1]. destruct (flerp_value _ _ _ TI TO F1 ltac:(lra)) as [_ ->]. rewrite V1.
    assert (L := lerp_near (B2R (b64_mul (f (fangle n u)) i)) (B2R (b64_mul (f (fangle n u)) o)) 1 ltac:(lra)). assert (US := v_small). assert (ES := eta_small). set (w := bpow radix2 (-53)) in *. set (h := eta) in *. set (a := B2R (b64_mul (f (fangle n u)) i)) in *. set (b := B2R (b64_mul (f (fangle n u)) o)) in *.
    set (I := Rabs (B2R i)) in *. set (O := Rabs (B2R o)) in *. assert (I0 : 0 <= I) by apply Rabs_pos. assert (O0 : 0 <= O) by apply Rabs_pos. replace (a + 1 * (b - a)) with b in L by ring. eapply Rle_trans; [exact L|].
    assert (P4 : 4 * w * (Rabs a + Rabs b) <= 4 * w * (1.02 * (I + O) + 2 * h)) by (apply Rmult_le_compat_l; lra). assert (WH : 0 <= w * h <= / 1000000 * h) by (split; [apply Rmult_le_pos; lra|apply Rmult_le_compat_r; lra]). assert (WIO : 0 <= w * (I + O)) by (apply Rmult_le_pos; lra). lra.
  Qed.
End Ring.
