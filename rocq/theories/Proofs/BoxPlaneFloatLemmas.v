(** Distances to planes in double precision. *)
From Coq Require Import ZArith Reals List Bool Lia Lra.
From Flocq Require Import Core IEEE754.BinarySingleNaN.
From Verif Require Import Model.Scalar Model.Vec Model.Plane Model.BoxFloat Model.PlaneFloat Model.ClipFloat Model.TriFloat Model.BoxPlaneFloat Spec.PlaneSpec Spec.FloatSpec Spec.ClipFloatSpec Spec.BoxPlaneFloatSpec
  Proofs.PlaneFloatLemmas Proofs.SplineFloat Proofs.ClipFloatLemmas Proofs.BoxRayFloatLemmas Proofs.BezierPatchFloatLemmas Proofs.BaryFloatLemmas.
Local Open Scope R_scope.

Lemma times_le k x y : 0 <= k -> x <= y -> k * x <= k * y.
Proof. intros K H. apply Rmult_le_compat_l; assumption. Qed.
Lemma abs_sum x y : Rabs (x + y) <= Rabs x + Rabs y.
Proof. apply Rabs_triang. Qed.

(** One coordinate of center and extent *)
Lemma middle_near lo hi m : tame lo -> tame hi -> Rabs (B2R lo) <= m -> Rabs (B2R hi) <= m ->
  tame (fmiddle lo hi) /\ Rabs (B2R (fmiddle lo hi) - (B2R lo + B2R hi) / 2) <= 3 * (u * m) + 2 * eta.
Proof.
  intros [F1 B1] [F2 B2] L H. destruct (b64_int 2 ltac:(lia)) as [V2 FT]. assert (D : bpow radix2 500 = 2 * bpow radix2 499) by exact (double_pow 499).
  assert (B : Rabs (B2R lo + B2R hi) <= bpow radix2 500) by (eapply Rle_trans; [apply Rabs_triang|lra]). destruct (add_fin lo hi 500 F1 F2 ltac:(lia) B) as [FS VS].
  assert (BS : Rabs (B2R (b64_add lo hi)) <= bpow radix2 500) by (rewrite VS; apply rnd_bound; [lia|exact B]).
  assert (BH : Rabs (B2R (b64_add lo hi) / B2R (b64_of_Z 2)) <= bpow radix2 499). { rewrite V2. unfold Rdiv. rewrite Rabs_mult, (Rabs_pos_eq (/ 2)) by lra. lra. }
  assert (N2 : B2R (b64_of_Z 2) <> 0) by (rewrite V2; lra).
  destruct (div_fin (b64_add lo hi) (b64_of_Z 2) 499 FS N2 ltac:(lia) BH) as [F V]. fold (fmiddle lo hi) in F, V.
  split; [split; [exact F|rewrite V; apply rnd_bound; [lia|exact BH]]|].
  assert (US := u_small). assert (E0 := bpow_gt_0 radix2 (-1075)). assert (M0 : 0 <= m) by (apply Rle_trans with (2 := L); apply Rabs_pos).
  assert (UM : 0 <= u * m) by (apply Rmult_le_pos; lra). assert (UM' : u * m <= / 1000 * m) by (apply Rmult_le_compat_r; lra). assert (UE : u * eta <= / 1000 * eta) by (apply Rmult_le_compat_r; lra).
  assert (S : Rabs (B2R lo + B2R hi) <= 2 * m) by (eapply Rle_trans; [apply Rabs_triang|lra]). assert (R1 := rnd_error _ _ S). rewrite <- VS in R1. apply Rabs_le_inv in S. set (s := B2R (b64_add lo hi)) in *. rewrite V2 in V.
  assert (S2 : Rabs (s / 2) <= 2 * m + eta) by (apply Rabs_le; lra). assert (R2 := rnd_error _ _ S2). rewrite <- V in R2. replace (u * (2 * m + eta)) with (2 * (u * m) + u * eta) in R2 by ring.
  apply Rabs_le. lra.
Qed.
Lemma extent_near lo hi m : tame lo -> tame hi -> Rabs (B2R lo) <= m -> Rabs (B2R hi) <= m ->
  moderate (b64_sub hi (fmiddle lo hi)) /\ Rabs (B2R (b64_sub hi (fmiddle lo hi)) - (B2R hi - B2R lo) / 2) <= 5 * (u * m) + 3 * eta.
Proof.
  intros L H BL BH. destruct (middle_near lo hi m L H BL BH) as [T E]. destruct (sub_relative hi (fmiddle lo hi) H T) as (_ & R & M). split; [exact M|].
  assert (US := u_small). assert (E0 := bpow_gt_0 radix2 (-1075)). assert (M0 : 0 <= m) by (apply Rle_trans with (2 := BL); apply Rabs_pos).
  assert (UM : 0 <= u * m) by (apply Rmult_le_pos; lra). assert (UU : u * (u * m) <= / 1000 * (u * m)) by (apply Rmult_le_compat_r; lra). assert (UE : u * eta <= / 1000 * eta) by (apply Rmult_le_compat_r; lra).
  apply Rabs_le_inv in E. apply Rabs_le_inv in BL. apply Rabs_le_inv in BH.
  assert (K : Rabs (B2R hi - B2R (fmiddle lo hi)) <= m + 3 * (u * m) + 2 * eta) by (apply Rabs_le; lra). assert (K' := times_le u _ _ (proj1 (conj (Rlt_le _ _ (proj1 US)) I)) K).
  replace (u * (m + 3 * (u * m) + 2 * eta)) with (u * m + 3 * (u * (u * m)) + 2 * (u * eta)) in K' by ring. apply Rabs_le_inv in R. apply Rabs_le. lra.
Qed.

(** Dot products with factors that are themselves rounded *)
Lemma term_near n k x y e : Rabs n <= k -> Rabs (x - y) <= e -> Rabs (n * x - n * y) <= k * e.
Proof. intros N E. replace (n * x - n * y) with (n * (x - y)) by ring. rewrite Rabs_mult. apply Rmult_le_compat; try apply Rabs_pos; assumption. Qed.
Lemma term_size n k x m : Rabs n <= k -> Rabs x <= m -> Rabs (n * x) <= k * m.
Proof. intros N E. rewrite Rabs_mult. apply Rmult_le_compat; try apply Rabs_pos; assumption. Qed.
Lemma near_size x y e m : Rabs (x - y) <= e -> Rabs y <= m -> Rabs x <= m + e.
Proof. intros E M. apply Rabs_le_inv in E. apply Rabs_le_inv in M. apply Rabs_le. lra. Qed.

Section Gap.
  Context (alt : bool) (p : fplane) (b : fbox) (k m : R) (HP : plane_of_size k p) (HB : box_of_size m b).
  Let n := fnormal p. Let d := B2R (fdistance p).
  Let km := k * m. Let ke := k * eta.
  Definition middle3 : vec3 := V3 ((B2R (fx (fmin b)) + B2R (fx (fmax b))) / 2) ((B2R (fy (fmin b)) + B2R (fy (fmax b))) / 2) ((B2R (fz (fmin b)) + B2R (fz (fmax b))) / 2).
  Definition half3 : vec3 := V3 ((B2R (fx (fmax b)) - B2R (fx (fmin b))) / 2) ((B2R (fy (fmax b)) - B2R (fy (fmin b))) / 2) ((B2R (fz (fmax b)) - B2R (fz (fmin b))) / 2).
  Definition radius3 : R := Rabs (B2R (fx n)) * vx half3 + Rabs (B2R (fy n)) * vy half3 + Rabs (B2R (fz n)) * vz half3.
  Lemma sizes : 0 <= k /\ 0 <= m /\ 0 <= km /\ 0 <= ke /\ 0 <= u * km /\ u * km <= / 1000 * km /\ u * ke <= / 1000 * ke /\ u * (u * km) <= / 1000 * (u * km) /\ u * eta <= / 1000 * eta /\ u * Rabs d <= / 1000 * Rabs d /\ 0 <= u * Rabs d /\ u * (u * Rabs d) <= / 1000 * (u * Rabs d).
  Proof.
    destruct HP as (_ & _ & N & _). destruct HB as (_ & _ & (M & _) & _). assert (K0 : 0 <= k) by (apply Rle_trans with (2 := N); apply Rabs_pos). assert (M0 : 0 <= m) by (apply Rle_trans with (2 := M); apply Rabs_pos).
    assert (US := u_small). assert (E0 := bpow_gt_0 radix2 (-1075)). assert (KM : 0 <= km) by (apply Rmult_le_pos; assumption). assert (KE : 0 <= ke) by (apply Rmult_le_pos; lra). assert (D0 := Rabs_pos d).
    assert (UKM : 0 <= u * km) by (apply Rmult_le_pos; lra). assert (UD : 0 <= u * Rabs d) by (apply Rmult_le_pos; lra). repeat split; try assumption; apply Rmult_le_compat_r; lra.
  Qed.
  Lemma radius_near : is_finite (fbox_radius p b) = true /\ Rabs (B2R (fbox_radius p b)) <= bpow radix2 1002 /\ Rabs (B2R (fbox_radius p b) - radius3) <= 26 * (u * km) + 10 * ke + 6 * eta.
  Proof.
    destruct sizes as (K0 & M0 & KM & KE & UKM & UKM' & UKE & UUKM & UE & UD & _). destruct HP as ((N1 & N2 & N3) & _ & S1 & S2 & S3). destruct HB as ((L1 & L2 & L3) & (H1 & H2 & H3) & (BL1 & BL2 & BL3) & (BH1 & BH2 & BH3) & _).
    destruct (extent_near _ _ m L1 H1 BL1 BH1) as [T1 E1]. destruct (extent_near _ _ m L2 H2 BL2 BH2) as [T2 E2]. destruct (extent_near _ _ m L3 H3 BL3 BH3) as [T3 E3].
    change (fbox_radius p b) with (fdot (fbox_extent b) (fvec_abs n)).
    assert (A : forall x, tame x -> moderate (Babs x)). { intros x [F B]. split; [rewrite is_finite_Babs; exact F|]. rewrite B2R_Babs, Rabs_Rabsolu. apply Rle_trans with (1 := B), bpow_le. lia. }
    destruct (dot_error (fbox_extent b) (fvec_abs n)) as (F & B & e & E & D); [repeat split; first [apply T1|apply T2|apply T3]|repeat split; first [apply (A _ N1)|apply (A _ N2)|apply (A _ N3)]|]. split; [exact F|]. split; [exact B|].
    assert (Z : forall lo hi x, Rabs lo <= m -> Rabs hi <= m -> Rabs (x - (hi - lo) / 2) <= 5 * (u * m) + 3 * eta -> Rabs x <= m + (5 * (u * m) + 3 * eta)).
    { intros lo hi x BL BH EX. apply (near_size _ _ _ _ EX). apply Rabs_le_inv in BL. apply Rabs_le_inv in BH. apply Rabs_le. lra. }
    assert (Z1 := Z _ _ _ BL1 BH1 E1). assert (Z2 := Z _ _ _ BL2 BH2 E2). assert (Z3 := Z _ _ _ BL3 BH3 E3).
    set (fd := B2R (fdot (fbox_extent b) (fvec_abs n))) in *. clearbody fd. unfold exact_vec, dot, fvec_abs, fbox_extent, fminus, fbox_center in D, E. cbn [fx fy fz vx vy vz] in D, E. rewrite !B2R_Babs in D, E. unfold radius3, half3. cbn [vx vy vz].
    fold n in S1, S2, S3. set (n1 := B2R (fx n)) in *. set (n2 := B2R (fy n)) in *. set (n3 := B2R (fz n)) in *.
    set (e1 := B2R (b64_sub (fx (fmax b)) (fmiddle (fx (fmin b)) (fx (fmax b))))) in *. set (e2 := B2R (b64_sub (fy (fmax b)) (fmiddle (fy (fmin b)) (fy (fmax b))))) in *. set (e3 := B2R (b64_sub (fz (fmax b)) (fmiddle (fz (fmin b)) (fz (fmax b))))) in *.
    assert (AN : forall x, Rabs x <= k -> Rabs (Rabs x) <= k) by (intros x X; rewrite Rabs_Rabsolu; exact X).
    assert (Q1 := term_near _ _ _ _ _ (AN _ S1) E1). assert (Q2 := term_near _ _ _ _ _ (AN _ S2) E2). assert (Q3 := term_near _ _ _ _ _ (AN _ S3) E3).
    assert (P1 := term_size _ _ _ _ (AN _ S1) Z1). assert (P2 := term_size _ _ _ _ (AN _ S2) Z2). assert (P3 := term_size _ _ _ _ (AN _ S3) Z3).
    rewrite (Rmult_comm e1), (Rmult_comm e2), (Rmult_comm e3) in E, D.
    replace (k * (5 * (u * m) + 3 * eta)) with (5 * (u * km) + 3 * ke) in Q1, Q2, Q3 by (unfold km, ke; ring). replace (k * (m + (5 * (u * m) + 3 * eta))) with (km + 5 * (u * km) + 3 * ke) in P1, P2, P3 by (unfold km, ke; ring).
    set (mg := Rabs (Rabs n1 * e1) + Rabs (Rabs n2 * e2) + Rabs (Rabs n3 * e3)) in *. assert (G : mg <= 3 * km + 15 * (u * km) + 9 * ke) by (unfold mg; lra).
    assert (G' := times_le u _ _ (Rlt_le _ _ (proj1 u_small)) G). replace (u * (3 * km + 15 * (u * km) + 9 * ke)) with (3 * (u * km) + 15 * (u * (u * km)) + 9 * (u * ke)) in G' by ring.
    fold u in E. replace (u * (3 + / 4) * mg) with ((3 + / 4) * (u * mg)) in E by ring.
    apply Rabs_le_inv in Q1. apply Rabs_le_inv in Q2. apply Rabs_le_inv in Q3. apply Rabs_le. lra.
  Qed.
  Lemma center_side_near : is_finite (fsgn_distance alt p (fbox_center b)) = true /\ Rabs (B2R (fsgn_distance alt p (fbox_center b))) <= bpow radix2 1003 /\ Rabs (B2R (fsgn_distance alt p (fbox_center b)) - side alt (exact_plane p) middle3) <= 34 * (u * km) + 8 * (u * Rabs d) + 7 * ke + 32 * eta.
  Proof.
    destruct sizes as (K0 & M0 & KM & KE & UKM & UKM' & UKE & UUKM & UE & UD & _). destruct HP as ((N1 & N2 & N3) & TD & S1 & S2 & S3). destruct HB as ((L1 & L2 & L3) & (H1 & H2 & H3) & (BL1 & BL2 & BL3) & (BH1 & BH2 & BH3) & _).
    destruct (middle_near _ _ m L1 H1 BL1 BH1) as [T1 E1]. destruct (middle_near _ _ m L2 H2 BL2 BH2) as [T2 E2]. destruct (middle_near _ _ m L3 H3 BL3 BH3) as [T3 E3].
    assert (MN : moderate_vec n) by (repeat split; first [apply (tame_moderate _ N1)|apply (tame_moderate _ N2)|apply (tame_moderate _ N3)]).
    assert (MC : moderate_vec (fbox_center b)) by (repeat split; first [apply (tame_moderate _ T1)|apply (tame_moderate _ T2)|apply (tame_moderate _ T3)]).
    destruct (distance_error alt p (fbox_center b) (conj MN (tame_moderate _ TD)) MC) as [F D]. split; [exact F|].
    split. { destruct (dot_error n (fbox_center b) MN MC) as (FD & BD & _). destruct (sub_value _ _ F) as (_ & _ & V). unfold fsgn_distance. rewrite V. apply rnd_bound; [lia|]. rewrite sign_value. unfold Rminus. eapply Rle_trans; [apply Rabs_triang|]. rewrite Rabs_Ropp, dsign_abs.
      assert (Q : bpow radix2 1003 = 2 * bpow radix2 1002) by exact (double_pow 1002). assert (Q' : Rabs (B2R (fdistance p)) <= bpow radix2 1002) by (apply Rle_trans with (1 := proj2 TD), bpow_le; lia). fold n. lra. }
    assert (Z : forall lo hi x, Rabs lo <= m -> Rabs hi <= m -> Rabs (x - (lo + hi) / 2) <= 3 * (u * m) + 2 * eta -> Rabs x <= m + (3 * (u * m) + 2 * eta)).
    { intros lo hi x BL BH EX. apply (near_size _ _ _ _ EX). apply Rabs_le_inv in BL. apply Rabs_le_inv in BH. apply Rabs_le. lra. }
    assert (Z1 := Z _ _ _ BL1 BH1 E1). assert (Z2 := Z _ _ _ BL2 BH2 E2). assert (Z3 := Z _ _ _ BL3 BH3 E3).
    rewrite side_dsign in D |- *. unfold slack, magnitude in D. cbn [exact_plane normal distance] in D |- *. unfold exact_vec, dot, fbox_center in D |- *. unfold middle3. cbn [fx fy fz vx vy vz] in D |- *. fold n d in D |- *.
    fold n in S1, S2, S3. set (n1 := B2R (fx n)) in *. set (n2 := B2R (fy n)) in *. set (n3 := B2R (fz n)) in *.
    set (c1 := B2R (fmiddle (fx (fmin b)) (fx (fmax b)))) in *. set (c2 := B2R (fmiddle (fy (fmin b)) (fy (fmax b)))) in *. set (c3 := B2R (fmiddle (fz (fmin b)) (fz (fmax b)))) in *.
    assert (Q1 := term_near _ _ _ _ _ S1 E1). assert (Q2 := term_near _ _ _ _ _ S2 E2). assert (Q3 := term_near _ _ _ _ _ S3 E3).
    assert (P1 := term_size _ _ _ _ S1 Z1). assert (P2 := term_size _ _ _ _ S2 Z2). assert (P3 := term_size _ _ _ _ S3 Z3).
    replace (k * (3 * (u * m) + 2 * eta)) with (3 * (u * km) + 2 * ke) in Q1, Q2, Q3 by (unfold km, ke; ring). replace (k * (m + (3 * (u * m) + 2 * eta))) with (km + 3 * (u * km) + 2 * ke) in P1, P2, P3 by (unfold km, ke; ring).
    set (mg := Rabs (n1 * c1) + Rabs (n2 * c2) + Rabs (n3 * c3) + Rabs d) in *. assert (G : mg <= 3 * km + 9 * (u * km) + 6 * ke + Rabs d) by (unfold mg; lra).
    assert (G' := times_le u _ _ (Rlt_le _ _ (proj1 u_small)) G). replace (u * (3 * km + 9 * (u * km) + 6 * ke + Rabs d)) with (3 * (u * km) + 9 * (u * (u * km)) + 6 * (u * ke) + u * Rabs d) in G' by ring.
    assert (Q : bpow radix2 (-50) = 8 * u) by (change (-50)%Z with (3 + -53)%Z; rewrite bpow_plus; reflexivity). rewrite Q, eta_slack in D. replace (8 * u * mg) with (8 * (u * mg)) in D by ring.
    apply Rabs_le_inv in Q1. apply Rabs_le_inv in Q2. apply Rabs_le_inv in Q3. apply Rabs_le. lra.
  Qed.
  (** The gap between plane and box, negative if they meet *)
  Definition gap : R := Rabs (side alt (exact_plane p) middle3) - radius3.
  Lemma radius_size : 0 <= radius3 <= 3 * km.
  Proof.
    destruct sizes as (K0 & M0 & _). destruct HP as (_ & _ & S1 & S2 & S3). destruct HB as (_ & _ & (BL1 & BL2 & BL3) & (BH1 & BH2 & BH3) & O1 & O2 & O3).
    assert (Z : forall lo hi s, Rabs s <= k -> Rabs lo <= m -> Rabs hi <= m -> lo <= hi -> 0 <= Rabs s * ((hi - lo) / 2) <= km).
    { intros lo hi s S BL BH O. apply Rabs_le_inv in BL. apply Rabs_le_inv in BH. assert (P := Rabs_pos s). split; [apply Rmult_le_pos; lra|]. apply Rmult_le_compat; lra. }
    assert (Z1 := Z _ _ _ S1 BL1 BH1 O1). assert (Z2 := Z _ _ _ S2 BL2 BH2 O2). assert (Z3 := Z _ _ _ S3 BL3 BH3 O3). unfold radius3, half3. cbn [vx vy vz]. fold n in Z1, Z2, Z3. lra.
  Qed.
  Lemma middle_size : Rabs (side alt (exact_plane p) middle3) <= 3 * km + Rabs d.
  Proof.
    destruct HP as (_ & _ & S1 & S2 & S3). destruct HB as (_ & _ & (BL1 & BL2 & BL3) & (BH1 & BH2 & BH3) & _).
    assert (Z : forall lo hi s, Rabs s <= k -> Rabs lo <= m -> Rabs hi <= m -> Rabs (s * ((lo + hi) / 2)) <= km). { intros lo hi s S BL BH. apply term_size; [exact S|]. apply Rabs_le_inv in BL. apply Rabs_le_inv in BH. apply Rabs_le. lra. }
    assert (Z1 := Z _ _ _ S1 BL1 BH1). assert (Z2 := Z _ _ _ S2 BL2 BH2). assert (Z3 := Z _ _ _ S3 BL3 BH3). rewrite side_dsign. cbn [exact_plane normal distance]. unfold exact_vec, dot, middle3. cbn [vx vy vz]. fold n d in Z1, Z2, Z3 |- *.
    assert (DD := dsign_abs alt d). apply Rabs_le_inv in Z1. apply Rabs_le_inv in Z2. apply Rabs_le_inv in Z3. assert (DA := Rle_abs (dsign alt d)). assert (DB := Rle_abs (- dsign alt d)). rewrite Rabs_Ropp in DB. apply Rabs_le. lra.
  Qed.
  Lemma gap_near : is_finite (fdistance_box alt p b) = true /\ Rabs (B2R (fdistance_box alt p b) - gap) <= gap_slack k m d.
  Proof.
    destruct sizes as (K0 & M0 & KM & KE & UKM & UKM' & UKE & UUKM & UE & UD & UD0 & UUD). destruct radius_near as (FR & BR & ER). destruct center_side_near as (FC & BC & EC). assert (RS := radius_size). assert (MS := middle_size).
    unfold fdistance_box, fdistance_point. set (s := fsgn_distance alt p (fbox_center b)) in *. set (r := fbox_radius p b) in *.
    assert (Q : bpow radix2 1004 = 2 * bpow radix2 1003) by exact (double_pow 1003). assert (Q2 : bpow radix2 1003 = 2 * bpow radix2 1002) by exact (double_pow 1002). assert (Q3 := bpow_gt_0 radix2 1002).
    assert (B : Rabs (B2R (Babs s) - B2R r) <= bpow radix2 1004). { rewrite B2R_Babs. unfold Rminus. eapply Rle_trans; [apply Rabs_triang|]. rewrite Rabs_Rabsolu, Rabs_Ropp. lra. }
    destruct (sub_fin (Babs s) r 1004 ltac:(rewrite is_finite_Babs; exact FC) FR ltac:(lia) B) as [F V]. split; [exact F|]. rewrite V, B2R_Babs. unfold gap.
    assert (AS : Rabs (Rabs (B2R s) - Rabs (side alt (exact_plane p) middle3)) <= 34 * (u * km) + 8 * (u * Rabs d) + 7 * ke + 32 * eta) by (eapply Rle_trans; [apply Rabs_triang_inv2|exact EC]).
    set (x := Rabs (B2R s)) in *. set (y := Rabs (side alt (exact_plane p) middle3)) in *. set (g := B2R r) in *. assert (YP : 0 <= y) by apply Rabs_pos.
    apply Rabs_le_inv in AS. apply Rabs_le_inv in ER. assert (E0 := bpow_gt_0 radix2 (-1075)). assert (DP := Rabs_pos d).
    set (X := 3 * km + Rabs d + 34 * (u * km) + 8 * (u * Rabs d) + 26 * (u * km) + 17 * ke + 38 * eta). assert (XB : Rabs (x - g) <= X) by (apply Rabs_le; unfold X; lra).
    assert (R := rnd_error _ _ XB). replace (u * X) with (3 * (u * km) + u * Rabs d + 60 * (u * (u * km)) + 8 * (u * (u * Rabs d)) + 17 * (u * ke) + 38 * (u * eta)) in R by (unfold X; ring).
    unfold gap_slack. assert (T : bpow radix2 (-47) = 64 * u) by (change (-47)%Z with (6 + -53)%Z; rewrite bpow_plus; reflexivity). assert (T' : bpow radix2 (-1069) = 64 * eta) by (change (-1069)%Z with (6 + -1075)%Z; rewrite bpow_plus; reflexivity).
    rewrite T, T'. fold km. replace (64 * u * (km + Rabs d) + 64 * eta * (1 + k)) with (64 * (u * km) + 64 * (u * Rabs d) + 64 * eta + 64 * ke) by (unfold ke; ring). apply Rabs_le. lra.
  Qed.
  (** No point of the box is closer to the plane, *)
  Lemma gap_lower x : in_box (exact_box b) x -> gap <= Rabs (side alt (exact_plane p) x).
  Proof.
    intros X. unfold in_box in X. cbn [exact_box exact_vec bmin bmax vx vy vz] in X. unfold gap. rewrite !side_dsign. cbn [exact_plane normal distance]. unfold exact_vec, dot, middle3, radius3, half3. cbn [vx vy vz]. fold n.
    set (n1 := B2R (fx n)). set (n2 := B2R (fy n)). set (n3 := B2R (fz n)). set (q := dsign alt (B2R (fdistance p))).
    assert (Z : forall s lo hi y, lo <= y <= hi -> Rabs (s * ((lo + hi) / 2) - s * y) <= Rabs s * ((hi - lo) / 2)).
    { intros s lo hi y Y. replace (s * ((lo + hi) / 2) - s * y) with (s * ((lo + hi) / 2 - y)) by ring. rewrite Rabs_mult. apply Rmult_le_compat_l; [apply Rabs_pos|]. apply Rabs_le. lra. }
    assert (Z1 := Z n1 (B2R (fx (fmin b))) (B2R (fx (fmax b))) (vx x) ltac:(tauto)). assert (Z2 := Z n2 (B2R (fy (fmin b))) (B2R (fy (fmax b))) (vy x) ltac:(tauto)). assert (Z3 := Z n3 (B2R (fz (fmin b))) (B2R (fz (fmax b))) (vz x) ltac:(tauto)).
    set (m1 := n1 * _) in *. set (m2 := n2 * ((_ + _) / 2)) in *. set (m3 := n3 * ((_ + _) / 2)) in *.
    assert (T := Rabs_triang_inv (m1 + m2 + m3 - q) (n1 * vx x + n2 * vy x + n3 * vz x - q)). assert (W : Rabs (m1 + m2 + m3 - q - (n1 * vx x + n2 * vy x + n3 * vz x - q)) <= Rabs (m1 - n1 * vx x) + Rabs (m2 - n2 * vy x) + Rabs (m3 - n3 * vz x)).
    { replace (m1 + m2 + m3 - q - (n1 * vx x + n2 * vy x + n3 * vz x - q)) with (m1 - n1 * vx x + (m2 - n2 * vy x) + (m3 - n3 * vz x)) by ring. eapply Rle_trans; [apply Rabs_triang|]. apply Rplus_le_compat_r, Rabs_triang. }
    lra.
  Qed.
  (** and one is as close as that, or on the plane. *)
  Lemma gap_attained : exists x, in_box (exact_box b) x /\ Rabs (side alt (exact_plane p) x) = Rmax 0 gap.
  Proof.
    set (S := side alt (exact_plane p) middle3). destruct radius_size as [R0 _].
    assert (L : exists l, -1 <= l <= 1 /\ Rabs (S + l * radius3) = Rmax 0 gap).
    { unfold gap. fold S. destruct (Rle_lt_dec (Rabs S) radius3) as [H|H].
      - rewrite Rmax_left by lra. destruct (Req_dec radius3 0) as [Z|Z].
        + exists 0. split; [lra|]. rewrite Rmult_0_l, Rplus_0_r. assert (P := Rabs_pos S). lra.
        + exists (- S / radius3). split; [|replace (S + - S / radius3 * radius3) with 0 by (field; exact Z); apply Rabs_R0].
          apply Rabs_le_inv in H. assert (P : 0 < radius3) by lra. split; apply Rmult_le_reg_r with radius3; try exact P; unfold Rdiv; rewrite ?Rmult_assoc, ?Rinv_l by exact Z; lra.
      - rewrite Rmax_right by lra. destruct (Rle_lt_dec 0 S) as [P|P].
        + exists (-1). split; [lra|]. rewrite (Rabs_pos_eq S) in * by exact P. rewrite Rabs_pos_eq; lra.
        + exists 1. split; [lra|]. rewrite (Rabs_left S) in * by exact P. rewrite Rabs_left; lra. }
    destruct L as (l & L & E). rewrite <- E. destruct HB as (_ & _ & _ & _ & O1 & O2 & O3).
    (* the sign of a component of the normal *)
    assert (G : forall s, exists g, -1 <= g <= 1 /\ s * g = Rabs s). { intros s. destruct (Rle_lt_dec 0 s) as [P|P]; [exists 1|exists (-1)]; (split; [lra|]); [rewrite Rabs_pos_eq by exact P|rewrite Rabs_left by exact P]; ring. }
    destruct (G (B2R (fx n))) as (g1 & G1 & E1). destruct (G (B2R (fy n))) as (g2 & G2 & E2). destruct (G (B2R (fz n))) as (g3 & G3 & E3).
    assert (B : forall lo hi g, lo <= hi -> -1 <= g <= 1 -> lo <= (lo + hi) / 2 + l * g * ((hi - lo) / 2) <= hi).
    { intros lo hi g O I. assert (Q : -1 <= l * g <= 1). { apply Rabs_le_inv. rewrite Rabs_mult. replace 1 with (1 * 1) by ring. apply Rmult_le_compat; try apply Rabs_pos; apply Rabs_le; lra. }
      assert (Q1 : -1 * ((hi - lo) / 2) <= l * g * ((hi - lo) / 2)) by (apply Rmult_le_compat_r; lra). assert (Q2 : l * g * ((hi - lo) / 2) <= 1 * ((hi - lo) / 2)) by (apply Rmult_le_compat_r; lra). lra. }
    exists (V3 (vx middle3 + l * g1 * vx half3) (vy middle3 + l * g2 * vy half3) (vz middle3 + l * g3 * vz half3)). split.
    - assert (X1 := B _ _ _ O1 G1). assert (X2 := B _ _ _ O2 G2). assert (X3 := B _ _ _ O3 G3). unfold in_box. cbn [exact_box exact_vec bmin bmax vx vy vz middle3 half3]. tauto.
    - f_equal. unfold S. rewrite !side_dsign. cbn [exact_plane normal distance]. unfold exact_vec, dot, radius3. cbn [vx vy vz]. fold n. rewrite <- E1, <- E2, <- E3. ring.
  Qed.
End Gap.

(** ** The closest point on a plane *)
Lemma foot_near (x n s : b64) S k m d : Rabs (B2R x) <= m -> Rabs (B2R n) <= k -> Rabs (B2R s - S) <= 25 * (u * (k * m)) + 8 * (u * d) + 32 * eta -> Rabs S <= 3 * (k * m) + d -> 0 <= d ->
  is_finite (b64_sub x (b64_mul n s)) = true -> Rabs (B2R (b64_sub x (b64_mul n s)) - (B2R x - B2R n * S)) <= 64 * (u * (m + k * (k * m + d))) + 64 * (eta * (1 + k)).
Proof.
  intros X N E B D F. destruct (sub_value _ _ F) as (_ & FM & V). rewrite V. assert (VM := mul_value _ _ FM). set (p := B2R (b64_mul n s)) in *. clear V F FM.
  assert (US := u_small). assert (E0 := bpow_gt_0 radix2 (-1075)). assert (K0 : 0 <= k) by (apply Rle_trans with (2 := N); apply Rabs_pos). assert (M0 : 0 <= m) by (apply Rle_trans with (2 := X); apply Rabs_pos).
  set (A := k * (k * m)). set (C := k * d). set (ke := k * eta). assert (A0 : 0 <= A) by (apply Rmult_le_pos; [exact K0|]; apply Rmult_le_pos; assumption). assert (C0 : 0 <= C) by (apply Rmult_le_pos; assumption). assert (KE : 0 <= ke) by (apply Rmult_le_pos; lra).
  assert (SM : forall z, 0 <= z -> 0 <= u * z <= / 1000 * z). { intros z Z. split; [apply Rmult_le_pos; lra|apply Rmult_le_compat_r; lra]. }
  assert (UA := SM _ A0). assert (UC := SM _ C0). assert (UK := SM _ KE). assert (UM := SM _ M0). assert (UE := SM _ (Rlt_le _ _ E0)). assert (UUA := SM _ (proj1 UA)). assert (UUC := SM _ (proj1 UC)). assert (UUK := SM _ (proj1 UK)). assert (UUUA := SM _ (proj1 UUA)). assert (UUUC := SM _ (proj1 UUC)).
  assert (T1 := term_near _ _ _ _ _ N E). replace (k * (25 * (u * (k * m)) + 8 * (u * d) + 32 * eta)) with (25 * (u * A) + 8 * (u * C) + 32 * ke) in T1 by (unfold A, C, ke; ring).
  assert (T2 := term_size _ _ _ _ N B). replace (k * (3 * (k * m) + d)) with (3 * A + C) in T2 by (unfold A, C; ring).
  apply Rabs_le_inv in T1. apply Rabs_le_inv in T2. apply Rabs_le_inv in X.
  assert (T3 : Rabs (B2R n * B2R s) <= 3 * A + C + 25 * (u * A) + 8 * (u * C) + 32 * ke) by (apply Rabs_le; lra). assert (R1 := rnd_error _ _ T3). rewrite <- VM in R1.
  replace (u * (3 * A + C + 25 * (u * A) + 8 * (u * C) + 32 * ke)) with (3 * (u * A) + u * C + 25 * (u * (u * A)) + 8 * (u * (u * C)) + 32 * (u * ke)) in R1 by ring. apply Rabs_le_inv in T3.
  assert (T4 : Rabs (B2R x - p) <= m + 4 * A + 2 * C + 34 * ke + eta) by (apply Rabs_le; lra). assert (R2 := rnd_error _ _ T4). replace (u * (m + 4 * A + 2 * C + 34 * ke + eta)) with (u * m + 4 * (u * A) + 2 * (u * C) + 34 * (u * ke) + u * eta) in R2 by ring.
  replace (64 * (u * (m + k * (k * m + d))) + 64 * (eta * (1 + k))) with (64 * (u * m) + 64 * (u * A) + 64 * (u * C) + 64 * eta + 64 * ke) by (unfold A, C, ke; ring). apply Rabs_le. lra.
Qed.
Lemma point_side_near alt p x k m : plane_of_size k p -> tame_vec x -> bounded_vec m x -> let S := side alt (exact_plane p) (exact_vec x) in let d := Rabs (B2R (fdistance p)) in
  is_finite (fsgn_distance alt p x) = true /\ Rabs (B2R (fsgn_distance alt p x) - S) <= 25 * (u * (k * m)) + 8 * (u * d) + 32 * eta /\ Rabs S <= 3 * (k * m) + d.
Proof.
  intros ((N1 & N2 & N3) & TD & S1 & S2 & S3) (T1 & T2 & T3) (B1 & B2 & B3). cbv zeta.
  assert (MN : moderate_vec (fnormal p)) by (repeat split; first [apply (tame_moderate _ N1)|apply (tame_moderate _ N2)|apply (tame_moderate _ N3)]). assert (MC : moderate_vec x) by (repeat split; first [apply (tame_moderate _ T1)|apply (tame_moderate _ T2)|apply (tame_moderate _ T3)]).
  destruct (distance_error alt p x (conj MN (tame_moderate _ TD)) MC) as [F D]. split; [exact F|]. assert (P1 := term_size _ _ _ _ S1 B1). assert (P2 := term_size _ _ _ _ S2 B2). assert (P3 := term_size _ _ _ _ S3 B3).
  split.
  - unfold slack, magnitude in D. cbn [exact_plane exact_vec normal distance vx vy vz] in D. set (mg := Rabs _ + Rabs _ + Rabs _ + Rabs _) in D. assert (G : mg <= 3 * (k * m) + Rabs (B2R (fdistance p))) by (unfold mg; lra).
    assert (US := u_small). assert (G' := times_le u _ _ (Rlt_le _ _ (proj1 US)) G). assert (Q : bpow radix2 (-50) = 8 * u) by (change (-50)%Z with (3 + -53)%Z; rewrite bpow_plus; reflexivity). rewrite Q, eta_slack in D.
    assert (KM : 0 <= u * (k * m)) by (apply Rmult_le_pos; [lra|]; apply Rle_trans with (2 := P1); apply Rabs_pos). apply Rabs_le. lra.
  - rewrite side_dsign. cbn [exact_plane exact_vec normal distance]. unfold exact_vec, dot. cbn [vx vy vz]. assert (DD := dsign_abs alt (B2R (fdistance p))). set (q := dsign alt _) in *. rewrite <- DD. assert (DA := Rle_abs q). assert (DB := Rle_abs (- q)). rewrite Rabs_Ropp in DB.
    apply Rabs_le_inv in P1. apply Rabs_le_inv in P2. apply Rabs_le_inv in P3. apply Rabs_le. lra.
Qed.
