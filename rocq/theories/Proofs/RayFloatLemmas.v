(** Points of rays in double precision. *)
From Coq Require Import ZArith Reals List Bool Lia Lra.
From Flocq Require Import Core IEEE754.BinarySingleNaN.
From Verif Require Import Model.Scalar Model.Vec Model.BoxFloat Model.PlaneFloat Model.ClipFloat Model.TriFloat Model.SphereFloat Spec.FloatSpec Spec.ClipFloatSpec Spec.BaryFloatSpec Spec.RayFloatSpec
  Proofs.PlaneFloatLemmas Proofs.SplineFloat Proofs.KeyframeFloatLemmas Proofs.ClipFloatLemmas Proofs.BaryFloatLemmas.
Local Open Scope R_scope.

Lemma along_value o d t : tame o -> tame d -> tame t -> is_finite (b64_add (b64_mul d t) o) = true /\ B2R (b64_add (b64_mul d t) o) = rnd (rnd (B2R d * B2R t) + B2R o).
Proof.
  intros [Fo Bo] D T. assert (M := moderate_mul d t (tame_moderate _ D) (tame_moderate _ T)). destruct (mul_fin d t 1000 (proj1 D) (proj1 T) ltac:(lia) M) as [FM VM]. assert (B := rnd_bound _ 1000 ltac:(lia) M).
  assert (O : bpow radix2 499 <= bpow radix2 1000) by (apply bpow_le; lia). assert (Q : bpow radix2 1001 = 2 * bpow radix2 1000) by exact (double_pow 1000).
  destruct (add_fin _ o 1001 FM Fo ltac:(lia)) as [F V]; [|rewrite VM in V; split; assumption]. rewrite VM. eapply Rle_trans; [apply Rabs_triang|]. lra.
Qed.
Lemma along_near o d t : tame o -> tame d -> tame t -> coordinate_near (b64_add (b64_mul d t) o) o d t.
Proof.
  intros O D T. destruct (along_value o d t O D T) as [F V]. split; [exact F|]. rewrite V. set (p := B2R d * B2R t). set (x := B2R o).
  assert (E1 := rnd_error p (Rabs p) (Rle_refl _)). assert (E2 := rnd_error (rnd p + x) (Rabs (rnd p) + Rabs x) (Rabs_triang _ _)).
  assert (U0 := bpow_gt_0 radix2 (-53)). assert (U1 : u <= / 16) by (change (/ 16) with (bpow radix2 (-4)); apply bpow_le; lia). assert (H0 := bpow_gt_0 radix2 (-1075)).
  assert (Q : bpow radix2 (-51) = 4 * u) by (change (-51)%Z with (2 + -53)%Z; rewrite bpow_plus; reflexivity). assert (Q' : bpow radix2 (-1070) = 32 * eta) by (change (-1070)%Z with (5 + -1075)%Z; rewrite bpow_plus; reflexivity).
  rewrite Q, Q'. set (v := u) in *. set (h := eta) in *. set (r := rnd p) in *. clearbody r p x v h.
  assert (PP := Rabs_pos p). assert (XX := Rabs_pos x).
  assert (K1 : Rabs (r - p) <= Rabs p * v + h) by (apply Rabs_le; lra). assert (K : Rabs r <= Rabs p + (Rabs p * v + h)) by (replace r with (p + (r - p)) at 1 by ring; eapply Rle_trans; [apply Rabs_triang|lra]).
  assert (PV : 0 <= Rabs p * v) by (apply Rmult_le_pos; lra). assert (XV : 0 <= Rabs x * v) by (apply Rmult_le_pos; lra).
  assert (K2 : (Rabs r + Rabs x) * v <= (Rabs p + (Rabs p * v + h) + Rabs x) * v) by (apply Rmult_le_compat_r; lra).
  assert (K3 : (Rabs p * v + h) * v <= (Rabs p * v + h) * / 16) by (apply Rmult_le_compat_l; lra). apply Rabs_le. lra.
Qed.
Lemma along_forward o d s t : tame o -> tame d -> tame s -> tame t -> B2R s <= B2R t -> not_against d (b64_add (b64_mul d s) o) (b64_add (b64_mul d t) o).
Proof.
  intros O D S T L. destruct (along_value o d s O D S) as [_ VS]. destruct (along_value o d t O D T) as [_ VT]. split; intros H; rewrite VS, VT; apply rnd_mono, Rplus_le_compat_r, rnd_mono.
  - apply Rmult_le_compat_l; assumption.
  - apply Rmult_le_compat_neg_l; assumption.
Qed.
