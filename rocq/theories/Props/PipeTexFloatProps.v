(** * C109: texture coordinates of the covers of generated pipes in double precision *)
From Coq Require Import ZArith Reals List Bool Lia Lra.
From Flocq Require Import Core IEEE754.BinarySingleNaN.
From Verif Require Import Model.Scalar Model.BoxFloat Model.PlaneFloat Model.ClipFloat Model.KeyframeFloat Model.MeshFloat Model.GridFloat Model.PipeTexFloat Spec.GridFloatSpec Spec.PipeTexFloatSpec
  Proofs.PlaneFloatLemmas Proofs.ClipFloatLemmas Proofs.KeyframeFloatLemmas Proofs.FrustumFloatLemmas Proofs.MeshFloatLemmas Proofs.GridFloatLemmas Proofs.PipeTexFloatLemmas.
Local Open Scope R_scope.

(** If the inner radii are not larger than the outer ones, all texture coordinates of the covers are in the image, *)
Theorem C109_image : forall fsin fcos, bounded fsin -> bounded fcos -> forall top n c ox oz ix iz u v, (1 <= n <= 2 ^ 20)%Z -> (1 <= c <= 2 ^ 32)%Z -> radii ox ix -> radii oz iz -> (Z.of_nat u <= n)%Z -> (0 <= v <= c)%Z ->
  in_fimage (fpipe_tex fsin fcos top n c ox oz ix iz u v).
Proof.
  intros fsin fcos BS BC top n c ox oz ix iz u v N C X Z U V. destruct (angle_exact n ltac:(lia) u U ltac:(lia)) as (FA & _ & BA). destruct (BS _ FA BA) as [FS S]. destruct (BC _ FA BA) as [FC K].
  split; [exact (proj1 (pipe_tex_near false ox ix _ c v X FS S C V))|exact (proj1 (pipe_tex_near top oz iz _ c v Z FC K C V))].
Qed.
Print Assumptions C109_image.

(** and they are within 2^-49 of the point of the image that belongs to the angle and the ring. *)
Theorem C109_near : forall fsin fcos, bounded fsin -> bounded fcos -> forall top n c ox oz ix iz u v, (1 <= n <= 2 ^ 20)%Z -> (1 <= c <= 2 ^ 32)%Z -> radii ox ix -> radii oz iz -> (Z.of_nat u <= n)%Z -> (0 <= v <= c)%Z ->
  let t := fpipe_tex fsin fcos top n c ox oz ix iz u v in let q := IZR v / IZR c in
  Rabs (B2R (f2x t) - pipe_tex false (B2R ox) (B2R ix) (B2R (fsin (fangle n u))) q) <= bpow radix2 (-49) /\
  Rabs (B2R (f2y t) - pipe_tex top (B2R oz) (B2R iz) (B2R (fcos (fangle n u))) q) <= bpow radix2 (-49).
Proof.
  intros fsin fcos BS BC top n c ox oz ix iz u v N C X Z U V. destruct (angle_exact n ltac:(lia) u U ltac:(lia)) as (FA & _ & BA). destruct (BS _ FA BA) as [FS S]. destruct (BC _ FA BA) as [FC K].
  assert (E : bpow radix2 (-49) = 16 * bpow radix2 (-53)) by (change (-49)%Z with (4 + -53)%Z; rewrite bpow_plus; reflexivity). rewrite E.
  split; [exact (proj2 (pipe_tex_near false ox ix _ c v X FS S C V))|exact (proj2 (pipe_tex_near top oz iz _ c v Z FC K C V))].
Qed.
Print Assumptions C109_near.

(** The size of the radii matters: if the outer radius is the smallest positive number, one over twice the radius is infinite, and there are texture coordinates that are not numbers of the image. *)
Theorem C109_image_refuted : exists o i, is_finite o = true /\ is_finite i = true /\ 0 < B2R i <= B2R o /\ forall fsin fcos, bounded fsin -> bounded fcos -> B2R (fcos b64_0) = 1 ->
  ~ in_fimage (fpipe_tex fsin fcos false 8 1 o o i i 0 1).
Proof.
  set (o := @B754_finite 53 1024 false 1 (-1074) eq_refl). exists o, o. split; [reflexivity|]. split; [reflexivity|]. split; [split; [|apply Rle_refl]; unfold o; cbn [B2R]; apply F2R_gt_0; reflexivity|]. intros fsin fcos _ BC C0 [_ [F _]]. revert F.
  destruct (BC b64_0 eq_refl ltac:(change (B2R b64_0) with 0; rewrite Rabs_R0; lra)) as [F0 _]. assert (E : b64_mul (fcos b64_0) o = o).
  { assert (GY := format_of o). assert (BY := abs_B2R_lt_emax 53 1024 o). destruct (mul_exact (fcos b64_0) o F0 eq_refl) as [G V]; [rewrite C0, Rmult_1_l; exact GY|rewrite C0, Rmult_1_l; exact BY|]. rewrite C0, Rmult_1_l in V.
    assert (N : B2R o <> 0) by (unfold o; cbn [B2R]; apply Rgt_not_eq, F2R_gt_0; reflexivity). apply B2R_inj; [|reflexivity|exact V]. destruct (b64_mul (fcos b64_0) o); try discriminate; [|reflexivity]. exfalso. apply N. now rewrite <- V. }
  unfold fpipe_tex, fring_z. cbn [f2y fangle]. rewrite E. vm_compute. discriminate.
Qed.
Print Assumptions C109_image_refuted.

(** Numbers for which this holds: radii 1 and 1/2, with constant functions *)
Example C109_case : exists fsin fcos, bounded fsin /\ bounded fcos /\ radii b64_1 fhalf /\ in_fimage (fpipe_tex fsin fcos true 12 3 b64_1 b64_1 fhalf fhalf 5 2).
Proof.
  destruct one_value as [V1 F1]. destruct half_value as [VH FH]. assert (B : forall x : b64, is_finite x = true -> Rabs (B2R x) <= 1 -> bounded (fun _ => x)) by (intros x F L y _ _; now split).
  assert (R : radii b64_1 fhalf). { split; [exact F1|]. split; [exact FH|]. rewrite V1, VH. split; [|rewrite Rabs_pos_eq; lra]. change 1 with (bpow radix2 0). split; apply bpow_le; lia. }
  assert (B1 : bounded (fun _ => fhalf)) by (apply B; [exact FH|rewrite VH, Rabs_pos_eq; lra]). assert (B2 : bounded (fun _ => b64_1)) by (apply B; [exact F1|rewrite V1, Rabs_R1; lra]).
  exists (fun _ => fhalf), (fun _ => b64_1). split; [exact B1|]. split; [exact B2|]. split; [exact R|]. apply C109_image; try assumption; lia.
Qed.
