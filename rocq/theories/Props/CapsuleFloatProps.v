(** * C108: half-spheres of generated capsules in double precision *)
From Coq Require Import ZArith Reals List Bool Lia Lra.
From Flocq Require Import Core IEEE754.BinarySingleNaN.
From Verif Require Import Model.Scalar Model.Vec Model.BoxFloat Model.PlaneFloat Model.ClipFloat Model.KeyframeFloat Model.MeshFloat Model.ConeFloat Model.CapsuleFloat Spec.FloatSpec Spec.MeshFloatSpec Spec.CapsuleFloatSpec
  Proofs.PlaneFloatLemmas Proofs.ClipFloatLemmas Proofs.FrustumFloatLemmas Proofs.KeyframeFloatLemmas Proofs.MeshFloatLemmas Proofs.ConeFloatLemmas Proofs.CapsuleFloatLemmas Proofs.SplineFloat Props.MeshFloatProps.
Local Open Scope R_scope.

Lemma slack46 : bpow radix2 (-46) = 128 * u.
Proof. change (-46)%Z with (7 + -53)%Z. rewrite bpow_plus. reflexivity. Qed.

(** The vertices of both half-spheres are close to the exact ones. *)
Theorem C108_caps : forall fsin fcos, trigonometry8 fsin fcos -> forall top n c rx ry rz h u v, (1 <= n <= 2 ^ 32)%Z -> (1 <= c <= 2 ^ 32)%Z -> sized rx -> sized ry -> sized rz -> sized h -> (0 <= u <= n)%Z -> (0 <= v <= c)%Z ->
  let p := exact_vec (fcap fsin fcos top n c rx ry rz h u v) in let q := cap_point top n c (B2R rx) (B2R ry) (B2R rz) (B2R h) u v in
  Rabs (vx p - vx q) <= bpow radix2 (-46) * Rabs (B2R rx) + bpow radix2 (-1070) /\
  Rabs (vy p - vy q) <= bpow radix2 (-46) * (Rabs (B2R ry) + Rabs (B2R h)) + bpow radix2 (-1070) /\
  Rabs (vz p - vz q) <= bpow radix2 (-46) * Rabs (B2R rz) + bpow radix2 (-1070).
Proof.
  intros fsin fcos (TS & TC & _) top n c rx ry rz h u v N M [FX BX] [FY BY] [FZ BZ] [FH BH] U V p q. assert (US := v_small). assert (ES := eta_small). assert (TY := tiny). rewrite slack46.
  destruct (theta_near c v M V) as (F0 & E0 & B0). destruct (phi_near top n u N U) as (F1 & E1 & B1). assert (TS7 := narrower _ _ TS). assert (TC7 := narrower _ _ TC). set (w := bpow radix2 (-53)) in *. assert (D0 : 0 <= 32 * w <= 0.01) by lra. assert (D1 : 0 <= 48 * w <= 0.01) by lra.
  destruct (value_near fsin sin _ _ _ TS7 SIN_bound sin_steady F0 B0 E0 D0) as (FS0 & ES0 & BS0). destruct (value_near fcos cos _ _ _ TC7 COS_bound cos_steady F0 B0 E0 D0) as (FC0 & EC0 & BC0).
  destruct (value_near8 fsin sin _ _ _ TS SIN_bound sin_steady F1 B1 E1 D1) as (FS1 & ES1 & BS1). destruct (value_near8 fcos cos _ _ _ TC COS_bound cos_steady F1 B1 E1 D1) as (FC1 & EC1 & BC1). fold w in ES0, EC0, ES1, EC1.
  set (a := part n u) in *. set (th := PI / 2 * (IZR v / IZR c)) in *. assert (PC : cos ((if top then a else - a) + PI / 2) = if top then - sin a else sin a) by (rewrite cos_plus, cos_PI2, sin_PI2; destruct top; rewrite ?sin_neg; ring).
  assert (PS : sin ((if top then a else - a) + PI / 2) = cos a) by (rewrite sin_plus, cos_PI2, sin_PI2; destruct top; rewrite ?cos_neg; ring). rewrite PC in EC1. rewrite PS in ES1. assert (AS : Rabs (sin th) <= 1) by (apply Rabs_le, SIN_bound).
  destruct (double_trig8 _ _ rx _ _ FS0 FC1 FX BX ES0 EC1 BS0 BC1 AS) as [_ EX]. destruct (double_trig8 _ _ rz _ _ FS0 FS1 FZ BZ ES0 ES1 BS0 BS1 AS) as [_ EZ]. destruct (cap_height_near top _ ry h _ FC0 FY FH BY BH EC0 BC0) as [_ EY]. fold w in EX, EY, EZ.
  split; [|split].
  - eapply Rle_trans; [exact EX|]. apply Rplus_le_compat; [apply Rmult_le_compat_r; [apply Rabs_pos|lra]|lra].
  - eapply Rle_trans; [exact EY|]. assert (0 <= Rabs (B2R ry)) by apply Rabs_pos. assert (0 <= Rabs (B2R h)) by apply Rabs_pos. apply Rplus_le_compat; [apply Rmult_le_compat_r; lra|lra].
  - eapply Rle_trans; [exact EZ|]. apply Rplus_le_compat; [apply Rmult_le_compat_r; [apply Rabs_pos|lra]|lra].
Qed.
Print Assumptions C108_caps.

(** So the first and the last column are close to each other, and all vertices of the first ring are close to the pole. *)
Theorem C108_closed : forall fsin fcos, trigonometry8 fsin fcos -> forall top n c rx ry rz h, (1 <= n <= 2 ^ 32)%Z -> (1 <= c <= 2 ^ 32)%Z -> sized rx -> sized ry -> sized rz -> sized h ->
  let p u v := exact_vec (fcap fsin fcos top n c rx ry rz h u v) in
  (forall v, (0 <= v <= c)%Z -> Rabs (vx (p n v) - vx (p 0%Z v)) <= bpow radix2 (-45) * Rabs (B2R rx) + bpow radix2 (-1069) /\ vy (p n v) = vy (p 0%Z v) /\ Rabs (vz (p n v) - vz (p 0%Z v)) <= bpow radix2 (-45) * Rabs (B2R rz) + bpow radix2 (-1069)) /\
  (forall u, (0 <= u <= n)%Z -> Rabs (vx (p u 0%Z)) <= bpow radix2 (-46) * Rabs (B2R rx) + bpow radix2 (-1070) /\
    Rabs (vy (p u 0%Z) - (if top : bool then B2R h / 2 + B2R ry else - (B2R h / 2 + B2R ry))) <= bpow radix2 (-46) * (Rabs (B2R ry) + Rabs (B2R h)) + bpow radix2 (-1070) /\
    Rabs (vz (p u 0%Z)) <= bpow radix2 (-46) * Rabs (B2R rz) + bpow radix2 (-1070)).
Proof.
  intros fsin fcos T top n c rx ry rz h N M X Y Z H p. assert (NZ : IZR n <> 0) by (assert (1 <= IZR n) by (apply IZR_le; lia); lra). assert (MZ : IZR c <> 0) by (assert (1 <= IZR c) by (apply IZR_le; lia); lra).
  assert (E45 : bpow radix2 (-45) = 2 * bpow radix2 (-46)) by exact (double_pow (-46)). assert (E69 : bpow radix2 (-1069) = 2 * bpow radix2 (-1070)) by exact (double_pow (-1070)). split.
  - intros v V. destruct (C108_caps fsin fcos T top n c rx ry rz h n v N M X Y Z H ltac:(lia) V) as (X1 & _ & Z1). destruct (C108_caps fsin fcos T top n c rx ry rz h 0 v N M X Y Z H ltac:(lia) V) as (X0 & _ & Z0). fold (p n v) in X1, Z1. fold (p 0%Z v) in X0, Z0.
    unfold cap_point in *. cbv zeta in *. cbn [vx vy vz] in *. assert (P0 : part n 0 = 0) by (unfold part; field; exact NZ). assert (P1 : part n n = 2 * PI) by (unfold part; field; exact NZ). rewrite P0, sin_0, cos_0 in *. rewrite P1, sin_2PI, cos_2PI in *. rewrite E45, E69.
    apply Rabs_le_inv in X0, X1, Z0, Z1. split; [apply Rabs_le; destruct top; lra|]. split; [reflexivity|apply Rabs_le; lra].
  - intros u U. destruct (C108_caps fsin fcos T top n c rx ry rz h u 0 N M X Y Z H U ltac:(lia)) as (X1 & Y1 & Z1). fold (p u 0%Z) in X1, Y1, Z1. unfold cap_point in *. cbv zeta in *. cbn [vx vy vz] in *.
    replace (PI / 2 * (IZR 0 / IZR c)) with 0 in * by (field; exact MZ). rewrite sin_0, cos_0, ?Rmult_0_l, ?Rmult_0_r, ?Rminus_0_r, ?Rmult_1_r in *. auto.
Qed.
Print Assumptions C108_closed.

(** The last ring of a half-sphere is close to the rim of the mantle: at the top column u to column n - u, at the bottom column u to column u. *)
Theorem C108_rims : forall fsin fcos, trigonometry8 fsin fcos -> forall (top : bool) n m c rx ry rz h u, (1 <= n <= 2 ^ 20)%Z -> (1 <= m <= 2 ^ 32)%Z -> (1 <= c <= 2 ^ 32)%Z -> sized rx -> sized ry -> sized rz -> sized h -> (0 <= u <= n)%Z ->
  let k := if top then (n - u)%Z else u in
  let p := exact_vec (fcap fsin fcos top n c rx ry rz h u c) in let q := exact_vec (fmantle fsin fcos n m rx rz h (Z.to_nat k) (if top then 0 else m)) in
  Rabs (vx p - vx q) <= bpow radix2 (-50) * (IZR k + 19) * Rabs (B2R rx) + bpow radix2 (-1069) /\
  Rabs (vy p - vy q) <= bpow radix2 (-45) * (Rabs (B2R ry) + Rabs (B2R h)) + bpow radix2 (-1069) /\
  Rabs (vz p - vz q) <= bpow radix2 (-50) * (IZR k + 19) * Rabs (B2R rz) + bpow radix2 (-1069).
Proof.
  intros fsin fcos T top n m c rx ry rz h u N M C X Y Z H U k p q. assert (NZ : IZR n <> 0) by (assert (1 <= IZR n) by (apply IZR_le; lia); lra). assert (MZ : IZR m <> 0) by (assert (1 <= IZR m) by (apply IZR_le; lia); lra). assert (CZ : IZR c <> 0) by (assert (1 <= IZR c) by (apply IZR_le; lia); lra).
  assert (E69 : bpow radix2 (-1069) = 2 * bpow radix2 (-1070)) by exact (double_pow (-1070)). assert (E46 : bpow radix2 (-46) = 16 * bpow radix2 (-50)) by (change (-46)%Z with (4 + -50)%Z; rewrite bpow_plus; reflexivity). assert (E45 : bpow radix2 (-45) = 32 * bpow radix2 (-50)) by (change (-45)%Z with (5 + -50)%Z; rewrite bpow_plus; reflexivity).
  assert (K : (0 <= k <= n)%Z) by (unfold k; destruct top; lia).
  destruct (C108_caps fsin fcos T top n c rx ry rz h u c ltac:(lia) C X Y Z H U ltac:(lia)) as (X1 & Y1 & Z1). destruct (C98_cylinder fsin fcos (trig_narrower _ _ T) n m rx rz h (Z.to_nat k) (if top then 0 else m) N M X Z H ltac:(lia) ltac:(destruct top; lia)) as (X0 & Y0 & Z0).
  fold p in X1, Y1, Z1. fold q in X0, Y0, Z0. rewrite INR_IZR_INZ, Z2Nat.id in * by lia. unfold cap_point, cylinder_point in *. cbv zeta in *. cbn [vx vy vz] in *. replace (PI / 2 * (IZR c / IZR c)) with (PI / 2) in * by (field; exact CZ). rewrite sin_PI2, cos_PI2 in *.
  assert (SK : sin (part n k) = if top then - sin (part n u) else sin (part n u)). { unfold k, part. destruct top; [|reflexivity]. rewrite minus_IZR. replace (2 * PI * ((IZR n - IZR u) / IZR n)) with (- (2 * PI * (IZR u / IZR n)) + 2 * PI) by (field; exact NZ). rewrite sin_plus, sin_2PI, cos_2PI, sin_neg. ring. }
  assert (CK : cos (part n k) = cos (part n u)). { unfold k, part. destruct top; [|reflexivity]. rewrite minus_IZR. replace (2 * PI * ((IZR n - IZR u) / IZR n)) with (- (2 * PI * (IZR u / IZR n)) + 2 * PI) by (field; exact NZ). rewrite cos_plus, sin_2PI, cos_2PI, cos_neg. ring. }
  rewrite SK in X0. rewrite CK in Z0. rewrite E46 in *. rewrite E45, E69. assert (HY : B2R h * (1 / 2 - IZR (if top then 0 else m) / IZR m) = if top then B2R h / 2 else - (B2R h / 2)) by (destruct top; field; exact MZ). rewrite HY in Y0.
  set (w := bpow radix2 (-50)) in *. assert (W0 : 0 < w) by apply bpow_gt_0. assert (RY : 0 <= w * Rabs (B2R ry)) by (apply Rmult_le_pos; [lra|apply Rabs_pos]). assert (RH : 0 <= w * Rabs (B2R h)) by (apply Rmult_le_pos; [lra|apply Rabs_pos]).
  apply Rabs_le_inv in X0, Y0, Z0, X1, Y1, Z1. split; [apply Rabs_le; lra|]. split; [apply Rabs_le; destruct top; lra|apply Rabs_le; lra].
Qed.
Print Assumptions C108_rims.

(** They are not the same: the cosine of the rounded quarter turn is not 0, so that the half-sphere of a capsule of height 1 with vertical radius 4 starts above the mantle. *)
Theorem C108_rims_refuted : exists n m c rx ry rz h, sized rx /\ sized ry /\ sized rz /\ sized h /\ (1 <= n <= 2 ^ 20)%Z /\ (1 <= m)%Z /\ (1 <= c)%Z /\ forall fsin fcos, trigonometry8 fsin fcos -> forall u k,
  vy (exact_vec (fmantle fsin fcos n m rx rz h k 0)) < vy (exact_vec (fcap fsin fcos true n c rx ry rz h u c)).
Proof.
  assert (S1 : sized b64_1) by apply C98_example. destruct (b64_int 4 ltac:(lia)) as [V4 F4].
  assert (S4 : sized (b64_of_Z 4)) by (split; [exact F4|rewrite V4, Rabs_pos_eq by lra; change 4 with (bpow radix2 2); apply bpow_le; lia]).
  exists 8%Z, 1%Z, 2%Z, b64_1, (b64_of_Z 4), b64_1, b64_1. split; [exact S1|]. split; [exact S4|]. split; [exact S1|]. split; [exact S1|]. split; [lia|]. split; [lia|]. split; [lia|]. intros fsin fcos (_ & TC & _) u k.
  destruct pi_near as (_ & PB & PE). destruct quarter as [FQ VQ]. assert (US := v_small). assert (ES := eta_small).
  assert (TH : fcap_theta 2 2 = fpi05) by (apply B2SF_inj; vm_compute; reflexivity). assert (HH : b64_mul (fhalf_height b64_1) (fside true) = fhalf) by (apply B2SF_inj; vm_compute; reflexivity). assert (MY : flerp (fhalf_height b64_1) (Bopp (fhalf_height b64_1)) (fshare 1 0) = fhalf) by (apply B2SF_inj; vm_compute; reflexivity).
  assert (VH : B2R fhalf = / 2) by (assert (E : fhalf = @B754_finite 53 1024 false 4503599627370496 (-53) eq_refl) by (apply B2SF_inj; vm_compute; reflexivity); rewrite E; cbn [B2R]; unfold F2R; cbn [Fnum Fexp cond_Zopp]; change (bpow radix2 (-53)) with (/ 9007199254740992); lra).
  unfold fmantle, fcap, exact_vec. cbv zeta. cbn [fx fy fz vy]. rewrite MY, TH, HH, VH. destruct (TC fpi05 FQ ltac:(rewrite VQ; apply Rabs_le; lra)) as [FC EC]. rewrite VQ in EC.
  assert (W2 : bpow radix2 (-52) = 2 * bpow radix2 (-53)) by exact (double_pow (-53)). assert (W3 : bpow radix2 (-1074) = 2 * bpow radix2 (-1075)) by exact (double_pow (-1075)). rewrite W2, W3 in EC. set (w := bpow radix2 (-53)) in *.
  set (d := PI / 2 - B2R fpi / 2). assert (CD : cos (B2R fpi / 2) = sin d) by (replace (B2R fpi / 2) with (PI / 2 - d) by (unfold d; ring); apply cos_shift). assert (DB : w / 2 <= d <= 0.75 * w) by (unfold d; lra). assert (SD := sin_small d ltac:(lra)). assert (SD2 : sin d <= d) by (left; apply sin_lt_x; lra).
  rewrite CD, (Rabs_pos_eq (sin d)) in EC by lra. assert (2 * w * sin d <= 2 * / 1000000 * sin d) by (apply Rmult_le_compat_r; lra). apply Rabs_le_inv in EC.
  destruct (side_value (fcos fpi05) true FC) as [FS VS]. fold (fside true) in FS, VS. set (x := b64_mul (fcos fpi05) (fside true)) in *.
  assert (BX : Rabs (B2R x * B2R (b64_of_Z 4)) <= 4 * w) by (rewrite VS, V4; apply Rabs_le; lra). assert (P3 : 4 * w <= bpow radix2 0) by (change (bpow radix2 0) with 1; lra). destruct (mul_fin x (b64_of_Z 4) 0 FS F4 ltac:(lia)) as [FM VM]; [lra|]. assert (RM := rnd_near _ _ BX). rewrite <- VM in RM. fold w in RM. rewrite VS, V4 in RM. set (y := b64_mul x (b64_of_Z 4)) in *. set (e := eta) in *.
  assert (WW : 0 <= w * (4 * w) <= / 1000000 * (4 * w)) by (split; [apply Rmult_le_pos; lra|apply Rmult_le_compat_r; lra]). apply Rabs_le_inv in RM. assert (YB : 0.9 * w <= B2R y <= 4 * w) by lra.
  assert (FH : is_finite fhalf = true) by (vm_compute; reflexivity). destruct (add_fin y fhalf 0 FM FH ltac:(lia)) as [_ VA]; [rewrite VH; change (bpow radix2 0) with 1; rewrite Rabs_pos_eq; lra|]. rewrite VA, VH.
  assert (GN : generic_format radix2 f64 (/ 2 + w)). { replace (/ 2 + w) with (F2R (Float radix2 4503599627370497 (-53))) by (unfold F2R; cbn [Fnum Fexp]; change w with (/ 9007199254740992); change (bpow radix2 (-53)) with (/ 9007199254740992); lra). apply generic_format_FLT. exists (Float radix2 4503599627370497 (-53)); [reflexivity|cbn; lia|cbn; lia]. }
  assert (L : / 2 + 0.8 * w <= rnd (B2R y + / 2)).
  { destruct (Rle_or_lt w (B2R y)) as [A|A].
    - apply Rle_trans with (/ 2 + w); [lra|]. rewrite <- (round_generic radix2 f64 ZnearestE _ GN). apply round_le; [apply FLT_exp_valid; reflexivity|apply valid_rnd_N|lra].
    - destruct (round_N_pt radix2 f64 (fun x => negb (Z.even x)) (B2R y + / 2)) as [_ K]. specialize (K _ GN). rewrite (Rabs_pos_eq (/ 2 + w - (B2R y + / 2))) in K by lra. apply Rabs_le_inv in K. lra. }
  lra.
Qed.
Print Assumptions C108_rims_refuted.

(** Numbers for which this holds: unit radii and height, with the rounded sine and cosine *)
Example C108_case : exists fsin fcos, trigonometry8 fsin fcos /\ sized b64_1 /\
  Rabs (vy (exact_vec (fcap fsin fcos true 12 5 b64_1 b64_1 b64_1 b64_1 7 0)) - (1 / 2 + 1)) <= bpow radix2 (-46) * 2 + bpow radix2 (-1070).
Proof.
  destruct C98_example as [(_ & _ & C0) S]. assert (K : forall g, (forall y, -1 <= g y <= 1) -> accurate8 (fun x => b64_of_R (g (B2R x))) g).
  { intros g G x F B. specialize (G (B2R x)). assert (A : Rabs (g (B2R x)) <= bpow radix2 0) by (change (bpow radix2 0) with 1; apply Rabs_le; exact G).
    destruct (of_R (g (B2R x))) as [V FV]; [apply Rle_lt_trans with (bpow radix2 0); [apply rnd_bound; [lia|exact A]|apply bpow_lt; lia]|]. split; [exact FV|]. rewrite V. eapply Rle_trans; [apply rnd_near, Rle_refl|].
    apply Rplus_le_compat; [apply Rmult_le_compat_r; [apply Rabs_pos|apply bpow_le; lia]|apply bpow_le; lia]. }
  assert (T : trigonometry8 (fun x => b64_of_R (sin (B2R x))) (fun x => b64_of_R (cos (B2R x)))) by (split; [apply K, SIN_bound|split; [apply K, COS_bound|exact C0]]).
  do 2 eexists. split; [exact T|]. split; [exact S|]. destruct (C108_closed _ _ T true 12 5 b64_1 b64_1 b64_1 b64_1 ltac:(lia) ltac:(lia) S S S S) as [_ P]. destruct (P 7%Z ltac:(lia)) as (_ & Y & _). destruct one_value as [V _]. rewrite V, Rabs_R1 in Y. replace (1 + 1) with 2 in Y by lra. exact Y.
Qed.
