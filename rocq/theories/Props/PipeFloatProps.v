(** * C107: vertices of generated pipes in double precision *)
From Coq Require Import ZArith Reals List Bool Lia Lra.
From Flocq Require Import Core IEEE754.BinarySingleNaN.
From Verif Require Import Model.Scalar Model.Vec Model.BoxFloat Model.PlaneFloat Model.ClipFloat Model.KeyframeFloat Model.MeshFloat Model.PipeFloat Spec.FloatSpec Spec.MeshFloatSpec Spec.PipeFloatSpec
  Proofs.PlaneFloatLemmas Proofs.ClipFloatLemmas Proofs.FrustumFloatLemmas Proofs.KeyframeFloatLemmas Proofs.MeshFloatLemmas Proofs.PipeFloatLemmas Props.MeshFloatProps.
Local Open Scope R_scope.

Lemma radius_sized r : pipe_radius r -> sized r.
Proof. intros [F B]. split; [exact F|]. apply Rle_trans with (1 := B), bpow_le. lia. Qed.

(** The vertices of both mantles are close to the exact ones. *)
Theorem C107_mantles : forall fsin fcos, trigonometry fsin fcos -> forall outer n m ox oz ix iz h u v, (1 <= n <= 2 ^ 20)%Z -> (1 <= m <= 2 ^ 32)%Z -> pipe_radius ox -> pipe_radius oz -> pipe_radius ix -> pipe_radius iz -> sized h -> (Z.of_nat u <= n)%Z -> (0 <= v <= m)%Z ->
  let rx := B2R (if outer : bool then ox else ix) in let rz := B2R (if outer then oz else iz) in
  let p := exact_vec (fpipe_mantle fsin fcos outer n m ox oz ix iz h u v) in let q := cylinder_point n m rx rz (B2R h) (Z.of_nat u) v in
  Rabs (vx p - vx q) <= bpow radix2 (-50) * (INR u + 3) * Rabs rx + bpow radix2 (-1070) /\
  Rabs (vy p - vy q) <= bpow radix2 (-50) * Rabs (B2R h) + bpow radix2 (-1070) /\
  Rabs (vz p - vz q) <= bpow radix2 (-50) * (INR u + 3) * Rabs rz + bpow radix2 (-1070).
Proof.
  intros fsin fcos T outer n m ox oz ix iz h u v N M OX OZ IX IZ H U V. apply radius_sized in OX, OZ, IX, IZ.
  destruct outer; [exact (C98_cylinder fsin fcos T n m ox oz h u v N M OX OZ H U V)|exact (C98_cylinder fsin fcos T n m ix iz h u v N M IX IZ H U V)].
Qed.
Print Assumptions C107_mantles.

(** So are those of the covers, *)
Theorem C107_covers : forall fsin fcos, trigonometry fsin fcos -> forall top n c ox oz ix iz h u v, (1 <= n <= 2 ^ 20)%Z -> (1 <= c <= 2 ^ 32)%Z -> pipe_radius ox -> pipe_radius oz -> pipe_radius ix -> pipe_radius iz -> sized h -> (Z.of_nat u <= n)%Z -> (0 <= v <= c)%Z ->
  let p := exact_vec (fpipe_cover fsin fcos top n c ox oz ix iz h u v) in let q := pipe_cover_point top n c (B2R ox) (B2R oz) (B2R ix) (B2R iz) (B2R h) (Z.of_nat u) v in
  Rabs (vx p - vx q) <= bpow radix2 (-50) * (INR u + 4) * (Rabs (B2R ix) + Rabs (B2R ox)) + bpow radix2 (-1070) /\
  Rabs (vy p - vy q) <= bpow radix2 (-54) * Rabs (B2R h) + bpow radix2 (-1070) /\
  Rabs (vz p - vz q) <= bpow radix2 (-50) * (INR u + 4) * (Rabs (B2R iz) + Rabs (B2R oz)) + bpow radix2 (-1070).
Proof.
  intros fsin fcos (TS & TC & _) top n c ox oz ix iz h u v N C OX OZ IX IZ [FH BH] U V p q. assert (ES := eta_small). assert (TY := tiny). rewrite slack50.
  destruct (mix_near fsin sin TS SIN_bound sin_steady n N u U ix ox c v IX OX C V) as [_ EX]. destruct (mix_near fcos cos TC COS_bound cos_steady n N u U iz oz c v IZ OZ C V) as [_ EZ]. destruct (half_height_near h FH BH) as (FHH & EH & _). destruct (share_near c C v V) as (FT & _).
  destruct (side_value (fhalf_height h) top FHH) as [FY VY]. destruct (lerp_same _ (fshare c v) FY FT) as [_ LY].
  split; [eapply Rle_trans; [exact EX|]; lra|]. split; [|eapply Rle_trans; [exact EZ|]; lra]. unfold p, q, fpipe_cover, pipe_cover_point, exact_vec, flerp3. cbv zeta. cbn [fx fy fz vx vy vz]. rewrite LY, VY.
  assert (E54 : bpow radix2 (-53) * (Rabs (B2R h) / 2) = bpow radix2 (-54) * Rabs (B2R h)) by (assert (W : bpow radix2 (-53) = 2 * bpow radix2 (-54)) by exact (double_pow (-54)); rewrite W; field). rewrite E54 in EH. apply Rabs_le_inv in EH. apply Rabs_le. destruct top; lra.
Qed.
Print Assumptions C107_covers.

(** the inner rims of the covers have exactly the vertices of the first and the last row of the inner mantle, *)
Theorem C107_inner_rims : forall fsin fcos, trigonometry fsin fcos -> forall n m c ox oz ix iz h u, (1 <= n <= 2 ^ 20)%Z -> (1 <= m <= 48)%Z -> (1 <= c <= 2 ^ 32)%Z -> pipe_radius ox -> pipe_radius oz -> pipe_radius ix -> pipe_radius iz -> sized h -> (Z.of_nat u <= n)%Z ->
  exact_vec (fpipe_cover fsin fcos false n c ox oz ix iz h u 0) = exact_vec (fpipe_mantle fsin fcos false n m ox oz ix iz h u m) /\
  exact_vec (fpipe_cover fsin fcos true n c ox oz ix iz h u 0) = exact_vec (fpipe_mantle fsin fcos false n m ox oz ix iz h u 0).
Proof.
  intros fsin fcos (TS & TC & _) n m c ox oz ix iz h u N M C OX OZ IX IZ [FH BH] U.
  assert (LX := mix_start fsin sin TS SIN_bound sin_steady n N u U ix ox c IX OX C). assert (LZ := mix_start fcos cos TC COS_bound cos_steady n N u U iz oz c IZ OZ C). fold (fring_x fsin n ix u) (fring_x fsin n ox u) in LX. fold (fring_z fcos n iz u) (fring_z fcos n oz u) in LZ.
  destruct (whole_share m M) as [FM VM]. destruct (no_share m ltac:(lia)) as [F0 V0]. destruct (no_share c C) as [FC _]. destruct (half_height_near h FH BH) as (FHH & _ & BHH).
  destruct (side_value (fhalf_height h) false FHH) as [FB VB]. destruct (side_value (fhalf_height h) true FHH) as [FT VT]. destruct (lerp_same _ (fshare c 0) FB FC) as [_ LB]. destruct (lerp_same _ (fshare c 0) FT FC) as [_ LT].
  unfold fpipe_cover, fpipe_mantle, exact_vec, flerp3. cbv zeta. cbn [fx fy fz]. rewrite LX, LZ, LB, LT, VB, VT, (bottom_value _ _ FHH BHH FM VM), (top_value _ _ FHH BHH F0 V0). now split.
Qed.
Print Assumptions C107_inner_rims.

(** and the outer rims, for up to 48 rows and rings, have vertices at the same height as, and close to, those of the outer mantle. *)
Theorem C107_outer_rims : forall fsin fcos, trigonometry fsin fcos -> forall top n m c ox oz ix iz h u, (1 <= n <= 2 ^ 20)%Z -> (1 <= m <= 48)%Z -> (1 <= c <= 48)%Z -> pipe_radius ox -> pipe_radius oz -> pipe_radius ix -> pipe_radius iz -> sized h -> (Z.of_nat u <= n)%Z ->
  let p := exact_vec (fpipe_cover fsin fcos top n c ox oz ix iz h u c) in let q := exact_vec (fpipe_mantle fsin fcos true n m ox oz ix iz h u (if top then 0 else m)%Z) in
  Rabs (vx p - vx q) <= bpow radix2 (-50) * (Rabs (B2R ix) + Rabs (B2R ox)) + bpow radix2 (-1070) /\ vy p = vy q /\
  Rabs (vz p - vz q) <= bpow radix2 (-50) * (Rabs (B2R iz) + Rabs (B2R oz)) + bpow radix2 (-1070).
Proof.
  intros fsin fcos (TS & TC & _) top n m c ox oz ix iz h u N M C OX OZ IX IZ [FH BH] U p q. assert (ES := eta_small). assert (TY := tiny). rewrite slack50.
  assert (EX := mix_end fsin sin TS SIN_bound sin_steady n N u U ix ox c IX OX C). assert (EZ := mix_end fcos cos TC COS_bound cos_steady n N u U iz oz c IZ OZ C).
  destruct (whole_share m M) as [FM VM]. destruct (no_share m ltac:(lia)) as [F0 V0]. destruct (whole_share c C) as [FC _]. destruct (half_height_near h FH BH) as (FHH & _ & BHH).
  destruct (side_value (fhalf_height h) top FHH) as [FY VY]. destruct (lerp_same _ (fshare c c) FY FC) as [_ LY].
  split; [eapply Rle_trans; [exact EX|]; lra|]. split; [|eapply Rle_trans; [exact EZ|]; lra]. unfold p, q, fpipe_cover, fpipe_mantle, exact_vec, flerp3. cbv zeta. cbn [fx fy fz vx vy vz]. rewrite LY, VY.
  destruct top; [now rewrite (top_value _ _ FHH BHH F0 V0)|now rewrite (bottom_value _ _ FHH BHH FM VM)].
Qed.
Print Assumptions C107_outer_rims.

Definition tenth (k : Z) : b64 := b64_div (b64_of_Z k) (b64_of_Z 10).
Lemma radius_tenth k : (k = 2 \/ k = 9)%Z -> pipe_radius (tenth k).
Proof.
  intros K. assert (F : is_finite (tenth k) = true /\ Bleb (tenth k) b64_1 = true /\ Bleb b64_0 (tenth k) = true) by (destruct K as [-> | ->]; vm_compute; auto). destruct F as (F & L1 & L0). destruct one_value as [V1 F1].
  rewrite (Bleb_correct _ _ _ _ F F1), V1 in L1. rewrite (Bleb_correct _ _ _ _ (eq_refl : is_finite b64_0 = true) F) in L0. change (B2R b64_0) with 0 in L0. destruct (Rle_bool_spec (B2R (tenth k)) 1); [|discriminate]. destruct (Rle_bool_spec 0 (B2R (tenth k))); [|discriminate].
  split; [exact F|]. rewrite Rabs_pos_eq by assumption. apply Rle_trans with 1; [assumption|]. change 1 with (bpow radix2 0). apply bpow_le. lia.
Qed.
Lemma times_one (x y : b64) : is_finite x = true -> B2R x = 1 -> is_finite_strict y = true -> b64_mul x y = y.
Proof.
  intros FX VX FY. assert (F : is_finite y = true) by (destruct y; [discriminate..|reflexivity]). assert (GY := generic_format_B2R 53 1024 y). change (SpecFloat.fexp 53 1024) with f64 in GY. assert (BY := abs_B2R_lt_emax 53 1024 y).
  destruct (mul_exact x y FX F) as [G V]; [rewrite VX, Rmult_1_l; exact GY|rewrite VX, Rmult_1_l; exact BY|]. rewrite VX, Rmult_1_l in V.
  assert (N : B2R y <> 0). { destruct y as [| | |s m e B]; try discriminate. cbn [B2R]. destruct s; cbn [SpecFloat.cond_Zopp]; [apply Rlt_not_eq, F2R_lt_0; reflexivity|apply Rgt_not_eq, F2R_gt_0; reflexivity]. }
  apply B2R_inj; [|exact FY|exact V]. destruct (b64_mul x y); try discriminate; [|reflexivity]. exfalso. apply N. now rewrite <- V.
Qed.

(** They are not always the same: with radii 0.9 and 0.2 the rim of the cover is inside of the mantle, because (0.9 - 0.2) + 0.2 is less than 0.9. *)
Theorem C107_outer_rims_refuted : exists n m c ox oz ix iz h, pipe_radius ox /\ pipe_radius oz /\ pipe_radius ix /\ pipe_radius iz /\ sized h /\ (1 <= n <= 2 ^ 20)%Z /\ (1 <= m <= 48)%Z /\ (1 <= c <= 48)%Z /\ forall fsin fcos, trigonometry fsin fcos ->
  vz (exact_vec (fpipe_cover fsin fcos true n c ox oz ix iz h 0 c)) < vz (exact_vec (fpipe_mantle fsin fcos true n m ox oz ix iz h 0 0)).
Proof.
  exists 8%Z, 1%Z, 1%Z, (tenth 9), (tenth 9), (tenth 2), (tenth 2), b64_1. assert (R9 := radius_tenth 9 ltac:(auto)). assert (R2 := radius_tenth 2 ltac:(auto)). split; [exact R9|]. split; [exact R9|]. split; [exact R2|]. split; [exact R2|]. split; [apply C98_example|].
  split; [lia|]. split; [lia|]. split; [lia|]. intros fsin fcos (_ & TC & C0). destruct (TC b64_0 eq_refl ltac:(change (B2R b64_0) with 0; rewrite Rabs_R0; lra)) as [F0 _].
  unfold fpipe_cover, fpipe_mantle, fring_z, exact_vec, flerp3. cbv zeta. cbn [fx fy fz vz fangle]. rewrite !(times_one (fcos b64_0)) by (assumption || (vm_compute; reflexivity)).
  apply blt; vm_compute; reflexivity.
Qed.
Print Assumptions C107_outer_rims_refuted.

(** Numbers for which this holds: radii 0.9 and 0.2, with the rounded sine and cosine *)
Example C107_case : exists fsin fcos, trigonometry fsin fcos /\ pipe_radius (tenth 9) /\ pipe_radius (tenth 2) /\ sized b64_1 /\
  exact_vec (fpipe_cover fsin fcos true 12 3 (tenth 9) (tenth 9) (tenth 2) (tenth 2) b64_1 5 0) = exact_vec (fpipe_mantle fsin fcos false 12 4 (tenth 9) (tenth 9) (tenth 2) (tenth 2) b64_1 5 0).
Proof.
  destruct C98_example as [T S]. assert (R9 := radius_tenth 9 ltac:(auto)). assert (R2 := radius_tenth 2 ltac:(auto)). do 2 eexists. split; [exact T|]. split; [exact R9|]. split; [exact R2|]. split; [exact S|].
  apply (C107_inner_rims _ _ T 12 4 3); try assumption; lia.
Qed.
