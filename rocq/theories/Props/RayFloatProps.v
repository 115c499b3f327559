(** * C115: points of rays in double precision *)
From Coq Require Import ZArith Reals List Bool Lia Lra.
From Flocq Require Import Core IEEE754.BinarySingleNaN.
From Verif Require Import Model.Scalar Model.Vec Model.BoxFloat Model.PlaneFloat Model.ClipFloat Model.TriFloat Model.SphereFloat Spec.FloatSpec Spec.ClipFloatSpec Spec.BaryFloatSpec Spec.RayFloatSpec
  Proofs.PlaneFloatLemmas Proofs.SplineFloat Proofs.KeyframeFloatLemmas Proofs.ClipFloatLemmas Proofs.BaryFloatLemmas Proofs.RayFloatLemmas.
Local Open Scope R_scope.

(** The points of a ray are accurate to about one part in 2^51 of the distances involved. *)
Theorem C115_near : forall r t, tame_ray r -> tame t -> let p := fray_lerp r t in let o := frorigin r in let d := frdirection r in
  coordinate_near (fx p) (fx o) (fx d) t /\ coordinate_near (fy p) (fy o) (fy d) t /\ coordinate_near (fz p) (fz o) (fz d) t.
Proof. intros r t [(O1 & O2 & O3) (D1 & D2 & D3)] T. cbv zeta. unfold fray_lerp. cbn [fx fy fz]. split; [|split]; apply along_near; assumption. Qed.
Print Assumptions C115_near.

(** The point at 0 is exactly the origin. *)
Theorem C115_origin : forall r t, tame_ray r -> tame t -> B2R t = 0 -> same_vec (fray_lerp r t) (frorigin r).
Proof.
  intros r t [(O1 & O2 & O3) (D1 & D2 & D3)] T Z. unfold same_vec, fray_lerp. cbn [fx fy fz].
  assert (K : forall o d, tame o -> tame d -> B2R (b64_add (b64_mul d t) o) = B2R o). { intros o d O D. destruct (along_value o d t O D T) as [_ V]. rewrite V, Z, Rmult_0_r, rnd_zero, Rplus_0_l. apply rnd_value. }
  split; [|split]; apply K; assumption.
Qed.
Print Assumptions C115_origin.

(** In spite of all roundings no coordinate ever moves against the direction of the ray. *)
Theorem C115_forward : forall r s t, tame_ray r -> tame s -> tame t -> B2R s <= B2R t -> let p := fray_lerp r s in let q := fray_lerp r t in let d := frdirection r in
  not_against (fx d) (fx p) (fx q) /\ not_against (fy d) (fy p) (fy q) /\ not_against (fz d) (fz p) (fz q).
Proof. intros r s t [(O1 & O2 & O3) (D1 & D2 & D3)] S T L. cbv zeta. unfold fray_lerp. cbn [fx fy fz]. split; [|split]; apply along_forward; assumption. Qed.
Print Assumptions C115_forward.

(** It need not move at all: the ray from (1, 1, 1) along (1, 1, 1) has the same point at 0 and at 2^-60. *)
Definition tiny_step : b64 := b64_div b64_1 (b64_of_Z (2 ^ 60)).
Definition diagonal : fray := mkFRay (FV b64_1 b64_1 b64_1) (FV b64_1 b64_1 b64_1).
Lemma diagonal_tame : tame_ray diagonal /\ tame b64_0 /\ tame tiny_step /\ B2R b64_0 < B2R tiny_step.
Proof.
  assert (T1 : tame b64_1) by (split; [exact (proj2 one_value)|rewrite (proj1 one_value), Rabs_R1; change 1 with (bpow radix2 0); apply bpow_le; lia]).
  assert (F : is_finite tiny_step = true) by (vm_compute; reflexivity). assert (L : Bltb b64_0 tiny_step = true) by (vm_compute; reflexivity). assert (U : Bleb tiny_step b64_1 = true) by (vm_compute; reflexivity).
  rewrite (Bltb_correct 53 1024 b64_0 tiny_step eq_refl F) in L. rewrite (Bleb_correct 53 1024 tiny_step b64_1 F (proj2 one_value)) in U. rewrite (proj1 one_value) in U. change (B2R b64_0) with 0 in *.
  destruct (Rlt_bool_spec 0 (B2R tiny_step)) as [L'|]; [|discriminate L]. destruct (Rle_bool_spec (B2R tiny_step) 1) as [U'|]; [|discriminate U].
  assert (O : 1 <= bpow radix2 499) by (change 1 with (bpow radix2 0); apply bpow_le; lia).
  split; [repeat split; apply T1|]. split; [split; [reflexivity|change (B2R b64_0) with 0; rewrite Rabs_R0; lra]|]. split; [split; [exact F|rewrite Rabs_pos_eq; lra]|exact L'].
Qed.
Theorem C115_moves_refuted : exists r s t, tame_ray r /\ tame s /\ tame t /\ B2R s < B2R t /\ 0 < B2R (fx (frdirection r)) /\ same_vec (fray_lerp r s) (fray_lerp r t).
Proof.
  destruct diagonal_tame as (R & S & T & L). exists diagonal, b64_0, tiny_step. split; [exact R|]. split; [exact S|]. split; [exact T|]. split; [exact L|]. split; [cbn [diagonal frdirection fx]; rewrite (proj1 one_value); lra|].
  assert (E : b64_add (b64_mul b64_1 b64_0) b64_1 = b64_add (b64_mul b64_1 tiny_step) b64_1) by (apply B2SF_inj; vm_compute; reflexivity). unfold same_vec, fray_lerp, diagonal. cbn [frorigin frdirection fx fy fz]. rewrite E. repeat split.
Qed.
Print Assumptions C115_moves_refuted.

(** The hypotheses hold of that ray. *)
Example C115_case : tame_ray diagonal /\ tame b64_0 /\ tame tiny_step /\ B2R b64_0 <= B2R tiny_step.
Proof. destruct diagonal_tame as (R & S & T & L). repeat split; try apply R; try apply S; try apply T. lra. Qed.
