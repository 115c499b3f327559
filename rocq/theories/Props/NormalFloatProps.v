(** * C114: normals of triangles in double precision *)
From Coq Require Import ZArith Reals List Bool Lia Lra.
From Flocq Require Import Core IEEE754.BinarySingleNaN.
From Verif Require Import Model.Scalar Model.Vec Model.BoxFloat Model.PlaneFloat Model.ClipFloat Model.TriFloat Model.NormalFloat Spec.FloatSpec Spec.ClipFloatSpec Spec.BaryFloatSpec Spec.NormalFloatSpec
  Proofs.PlaneFloatLemmas Proofs.SplineFloat Proofs.ClipFloatLemmas Proofs.BaryFloatLemmas Proofs.NormalFloatLemmas.
Local Open Scope R_scope.

(** The normal of a triangle of size [d] is accurate to about one part in 2^48 of d^2. *)
Theorem C114_near : forall t d, tame_tri t -> tri_extent d t -> let n := ftriangle_normal t in let e := exact_normal t in
  finite_vec n /\ Rabs (B2R (fx n) - vx e) <= area_slack d /\ Rabs (B2R (fy n) - vy e) <= area_slack d /\ Rabs (B2R (fz n) - vz e) <= area_slack d.
Proof.
  intros t d ((A1 & A2 & A3) & (B1 & B2 & B3) & C1 & C2 & C3) ((AB1 & AB2 & AB3) & CA1 & CA2 & CA3). cbv zeta.
  assert (S : 12 * bpow radix2 (-53) * (d * d) + 4 * bpow radix2 (-1075) <= area_slack d).
  { unfold area_slack. assert (Q : bpow radix2 (-48) = 32 * bpow radix2 (-53)) by (change (-48)%Z with (5 + -53)%Z; rewrite bpow_plus; reflexivity).
    assert (Q' : bpow radix2 (-48) * bpow radix2 (-1020) = 128 * bpow radix2 (-1075)) by (rewrite <- bpow_plus; change (-48 + -1020)%Z with (7 + -1075)%Z; rewrite bpow_plus; reflexivity). rewrite Rmult_plus_distr_l, Q', Q.
    assert (U0 := bpow_gt_0 radix2 (-53)). assert (E0 := bpow_gt_0 radix2 (-1075)). assert (UD : 0 <= bpow radix2 (-53) * (d * d)) by (apply Rmult_le_pos; [lra|apply Rle_0_sqr]). lra. }
  unfold finite_vec, ftriangle_normal, fcross, fminus, exact_normal, cross, vsub, exact_vec. cbn [fx fy fz vx vy vz].
  destruct (cross_near _ _ _ _ _ _ _ _ d B2 A2 C3 A3 B3 A3 C2 A2 AB2 CA3 AB3 CA2) as (F1 & _ & _ & E1). destruct (cross_near _ _ _ _ _ _ _ _ d B3 A3 C1 A1 B1 A1 C3 A3 AB3 CA1 AB1 CA3) as (F2 & _ & _ & E2). destruct (cross_near _ _ _ _ _ _ _ _ d B1 A1 C2 A2 B2 A2 C1 A1 AB1 CA2 AB2 CA1) as (F3 & _ & _ & E3).
  repeat split; try assumption; eapply Rle_trans; try exact S; assumption.
Qed.
Print Assumptions C114_near.

(** Exchanging the second and the third corner exactly negates it, in spite of all roundings. *)
Theorem C114_swap : forall t, tame_tri t -> is_vec (ftriangle_normal (swapped t)) (- B2R (fx (ftriangle_normal t))) (- B2R (fy (ftriangle_normal t))) (- B2R (fz (ftriangle_normal t))).
Proof.
  intros t ((A1 & A2 & A3) & (B1 & B2 & B3) & C1 & C2 & C3). unfold is_vec, ftriangle_normal, swapped, fcross, fminus. cbn [fta ftb ftc fx fy fz]. split; [|split]; apply cross_swap; assumption.
Qed.
Print Assumptions C114_swap.

(** The normal of a triangle with two equal corners is exactly zero. *)
Theorem C114_degenerate : forall t, tame_tri t -> same_vec (fta t) (ftb t) \/ same_vec (fta t) (ftc t) \/ same_vec (ftb t) (ftc t) -> is_vec (ftriangle_normal t) 0 0 0.
Proof.
  intros t ((A1 & A2 & A3) & (B1 & B2 & B3) & C1 & C2 & C3) H. unfold is_vec, ftriangle_normal, fcross, fminus. cbn [fx fy fz].
  destruct (cross_value _ _ _ _ _ _ _ _ B2 A2 C3 A3 B3 A3 C2 A2) as [_ V1]. destruct (cross_value _ _ _ _ _ _ _ _ B3 A3 C1 A1 B1 A1 C3 A3) as [_ V2]. destruct (cross_value _ _ _ _ _ _ _ _ B1 A1 C2 A2 B2 A2 C1 A1) as [_ V3]. cbv zeta in V1, V2, V3. rewrite V1, V2, V3.
  destruct H as [(-> & -> & ->)|[(-> & -> & ->)|(-> & -> & ->)]].
  - rewrite !(Rminus_diag_eq (B2R (fx (ftb t))) (B2R (fx (ftb t)))), !(Rminus_diag_eq (B2R (fy (ftb t))) (B2R (fy (ftb t)))), !(Rminus_diag_eq (B2R (fz (ftb t))) (B2R (fz (ftb t)))), !rnd_zero, !Rmult_0_l, !rnd_zero, !Rminus_0_r, !rnd_zero by reflexivity. repeat split.
  - rewrite !(Rminus_diag_eq (B2R (fx (ftc t))) (B2R (fx (ftc t)))), !(Rminus_diag_eq (B2R (fy (ftc t))) (B2R (fy (ftc t)))), !(Rminus_diag_eq (B2R (fz (ftc t))) (B2R (fz (ftc t)))), !rnd_zero, !Rmult_0_r, !rnd_zero, !Rminus_0_r, !rnd_zero by reflexivity. repeat split.
  - rewrite (Rmult_comm (rnd (B2R (fz (ftc t)) - B2R (fz (fta t))))), (Rmult_comm (rnd (B2R (fx (ftc t)) - B2R (fx (fta t)))) (rnd (B2R (fz (ftc t)) - B2R (fz (fta t))))), (Rmult_comm (rnd (B2R (fy (ftc t)) - B2R (fy (fta t)))) (rnd (B2R (fx (ftc t)) - B2R (fx (fta t))))).
    repeat split; rewrite Rminus_diag_eq; try apply rnd_zero; f_equal; ring.
Qed.
Print Assumptions C114_degenerate.

(** Starting at another corner changes the normal: this triangle has the normal (0, 0, 0) or another one, depending on the corner the code starts at. *)
Definition tiny : b64 := b64_div b64_1 (b64_of_Z (2 ^ 60)).
Definition sliver : ftri := mkFTri (FV b64_1 b64_0 b64_0) (FV b64_0 tiny b64_0) (FV (b64_add tiny tiny) tiny b64_0).
Lemma sliver_tame : tame_tri sliver.
Proof.
  assert (Z0 : tame b64_0) by (split; [reflexivity|change (B2R b64_0) with 0; rewrite Rabs_R0; apply bpow_ge_0]).
  assert (P : forall x : b64, is_finite x = true -> Bleb b64_0 x = true -> Bleb x b64_1 = true -> tame x).
  { intros x F L U. split; [exact F|]. rewrite (Bleb_correct 53 1024 b64_0 x eq_refl F) in L. rewrite (Bleb_correct 53 1024 x b64_1 F) in U by (vm_compute; reflexivity).
    change (B2R b64_0) with 0 in L. destruct (Rle_bool_spec 0 (B2R x)) as [L'|]; [|discriminate L]. destruct (Rle_bool_spec (B2R x) (B2R b64_1)) as [U'|]; [|discriminate U]. rewrite (proj1 one_value) in U'. rewrite Rabs_pos_eq by exact L'.
    eapply Rle_trans; [exact U'|]. change 1 with (bpow radix2 0). apply bpow_le. lia. }
  repeat split; try exact (proj1 Z0); try exact (proj2 Z0); match goal with |- is_finite ?x = true => vm_compute; reflexivity | |- Rabs (B2R ?x) <= _ => apply (P x); vm_compute; reflexivity end.
Qed.
Theorem C114_rotate_refuted : exists t, tame_tri t /\ is_vec (ftriangle_normal t) 0 0 0 /\ ~ is_vec (ftriangle_normal (rotated t)) 0 0 0.
Proof.
  assert (Q : forall x : b64, is_finite x = true -> Beqb x b64_0 = true -> B2R x = 0).
  { intros x F E. rewrite Beqb_correct in E by (exact F || reflexivity). change (B2R b64_0) with 0 in E. destruct (Req_bool_spec (B2R x) 0) as [H|]; [exact H|discriminate E]. }
  exists sliver. split; [exact sliver_tame|]. split; [split; [|split]; apply Q; vm_compute; reflexivity|]. intros (_ & _ & Z).
  assert (E : Beqb (fz (ftriangle_normal (rotated sliver))) b64_0 = false) by (vm_compute; reflexivity). rewrite Beqb_correct in E by (vm_compute; reflexivity). change (B2R b64_0) with 0 in E. rewrite Z, Req_bool_true in E by reflexivity. discriminate E.
Qed.
Print Assumptions C114_rotate_refuted.

(** The hypotheses hold of that triangle, which is of size 2, and of one with two equal corners. *)
Example C114_case : tame_tri sliver /\ tri_extent 2 sliver /\ tame_tri (mkFTri (fta sliver) (ftb sliver) (ftb sliver)) /\ same_vec (ftb sliver) (ftb sliver).
Proof.
  assert (P : forall x : b64, is_finite x = true -> Bleb b64_0 x = true -> Bleb x b64_1 = true -> 0 <= B2R x <= 1).
  { intros x F L U. rewrite (Bleb_correct 53 1024 b64_0 x eq_refl F) in L. rewrite (Bleb_correct 53 1024 x b64_1 F) in U by (vm_compute; reflexivity).
    change (B2R b64_0) with 0 in L. destruct (Rle_bool_spec 0 (B2R x)) as [L'|]; [|discriminate L]. destruct (Rle_bool_spec (B2R x) (B2R b64_1)) as [U'|]; [|discriminate U]. rewrite (proj1 one_value) in U'. lra. }
  assert (H0 : 0 <= B2R b64_0 <= 1) by (apply P; vm_compute; reflexivity). assert (H1 : 0 <= B2R b64_1 <= 1) by (apply P; vm_compute; reflexivity).
  assert (H2 : 0 <= B2R tiny <= 1) by (apply P; vm_compute; reflexivity). assert (H3 : 0 <= B2R (b64_add tiny tiny) <= 1) by (apply P; vm_compute; reflexivity).
  split; [exact sliver_tame|]. split; [|split; [destruct sliver_tame as (A & B & _); split; [exact A|split; exact B]|repeat split]].
  unfold tri_extent, within, sliver. cbn [fta ftb ftc fx fy fz]. set (z := B2R b64_0) in *. set (o := B2R b64_1) in *. set (y := B2R tiny) in *. set (w := B2R (b64_add tiny tiny)) in *. clearbody z o y w. repeat split; apply Rabs_le; lra.
Qed.
