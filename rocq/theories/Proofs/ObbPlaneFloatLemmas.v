(** Distances of oriented boxes to planes in double precision. *)
From Coq Require Import ZArith Reals List Bool Lia Lra.
From Flocq Require Import Core IEEE754.BinarySingleNaN.
From Verif Require Import Model.Scalar Model.Vec Model.Plane Model.BoxFloat Model.PlaneFloat Model.BoxPlaneFloat Model.ObbPlaneFloat Spec.PlaneSpec Spec.FloatSpec Spec.ClipFloatSpec Spec.BoxPlaneFloatSpec Spec.ObbPlaneFloatSpec
  Proofs.PlaneFloatLemmas Proofs.ClipFloatLemmas Proofs.BezierPatchFloatLemmas Proofs.BaryFloatLemmas Proofs.BoxPlaneFloatLemmas.
Local Open Scope R_scope.

Lemma tame_moderate_vec v : tame_vec v -> moderate_vec v.
Proof. intros (A & B & C). split; [|split]; apply tame_moderate; assumption. Qed.

(** Dot products of vectors with components up to [k] and [a] *)
Lemma dot_coarse n x k a : tame_vec n -> tame_vec x -> bounded_vec k n -> bounded_vec a x ->
  is_finite (fdot n x) = true /\ Rabs (B2R (fdot n x) - dot (exact_vec n) (exact_vec x)) <= 10 * (u * (k * a)) + 6 * eta /\ Rabs (dot (exact_vec n) (exact_vec x)) <= 3 * (k * a).
Proof.
  intros N X (S1 & S2 & S3) (B1 & B2 & B3). destruct (dot_error n x (tame_moderate_vec _ N) (tame_moderate_vec _ X)) as (F & _ & e & E & D). split; [exact F|].
  assert (P1 := term_size _ _ _ _ S1 B1). assert (P2 := term_size _ _ _ _ S2 B2). assert (P3 := term_size _ _ _ _ S3 B3). split.
  - set (mg := Rabs _ + Rabs _ + Rabs _) in E. assert (G : mg <= 3 * (k * a)) by (unfold mg; lra). assert (US := u_small). assert (G' := times_le u _ _ (Rlt_le _ _ (proj1 US)) G). replace (u * (3 + / 4) * mg) with ((3 + / 4) * (u * mg)) in E by ring.
    assert (KA : 0 <= u * (k * a)) by (apply Rmult_le_pos; [lra|]; apply Rle_trans with (2 := P1); apply Rabs_pos). apply Rabs_le. lra.
  - unfold dot, exact_vec. cbn [vx vy vz]. apply Rabs_le_inv in P1. apply Rabs_le_inv in P2. apply Rabs_le_inv in P3. apply Rabs_le. lra.
Qed.
Lemma abs_near x y e : Rabs (x - y) <= e -> Rabs (Rabs x - Rabs y) <= e.
Proof. intros H. eapply Rle_trans; [apply Rabs_triang_inv2|exact H]. Qed.

Section Gap.
  Context (alt : bool) (p : fplane) (b : fobb) (k m a h : R) (HP : plane_of_size k p) (HB : obb_of_size m a h b) (HK : k <= bpow radix2 249) (HA : a <= bpow radix2 249).
  Let n := fnormal p. Let d := B2R (fdistance p). Let H := h * (k * a). Let km := k * m. Let he := h * eta.
  Let d1 := dot (exact_vec n) (exact_vec (foaxx b)). Let d2 := dot (exact_vec n) (exact_vec (foaxy b)). Let d3 := dot (exact_vec n) (exact_vec (foaxz b)).
  Let h1 := B2R (fx (fohalf b)). Let h2 := B2R (fy (fohalf b)). Let h3 := B2R (fz (fohalf b)).
  Definition obb_radius3 : R := h1 * Rabs d1 + h2 * Rabs d2 + h3 * Rabs d3.
  Lemma signs : 0 <= k /\ 0 <= m /\ 0 <= a /\ 0 <= h.
  Proof.
    destruct HP as (_ & _ & N & _). destruct HB as ((_ & M & _) & (_ & A & _) & _ & _ & (_ & Q & _) & _). repeat split; [apply Rle_trans with (2 := N)|apply Rle_trans with (2 := M)|apply Rle_trans with (2 := A)|apply Rle_trans with (2 := Q)]; apply Rabs_pos.
  Qed.
  Lemma ka_size : 0 <= k * a <= bpow radix2 498.
  Proof. destruct signs as (K & _ & A & _). split; [apply Rmult_le_pos; assumption|]. change 498%Z with (249 + 249)%Z. rewrite bpow_plus. apply Rmult_le_compat; assumption. Qed.
  Lemma axis_near x : tame_vec x -> bounded_vec a x -> moderate (Babs (fdot n x)) /\ Rabs (B2R (Babs (fdot n x)) - Rabs (dot (exact_vec n) (exact_vec x))) <= 10 * (u * (k * a)) + 6 * eta /\ Rabs (dot (exact_vec n) (exact_vec x)) <= 3 * (k * a).
  Proof.
    intros T B. destruct HP as (TN & _ & BN). destruct (dot_coarse n x k a TN T BN B) as (F & E & S). split; [|split; [rewrite B2R_Babs; apply abs_near; exact E|exact S]].
    split; [rewrite is_finite_Babs; exact F|]. rewrite B2R_Babs, Rabs_Rabsolu. destruct ka_size as [K0 K1]. assert (US := u_small). assert (E0 := bpow_gt_0 radix2 (-1075)). assert (Q := near_size _ _ _ _ E S).
    assert (UK : u * (k * a) <= / 1000 * (k * a)) by (apply Rmult_le_compat_r; lra). assert (D : bpow radix2 500 = 4 * bpow radix2 498) by (change 500%Z with (2 + 498)%Z; rewrite bpow_plus; reflexivity).
    assert (EE : eta <= bpow radix2 490) by (apply bpow_le; lia). assert (D' : bpow radix2 498 = 256 * bpow radix2 490) by (change 498%Z with (8 + 490)%Z; rewrite bpow_plus; reflexivity). lra.
  Qed.
  Lemma obb_radius_near : is_finite (fobb_radius p b) = true /\ Rabs (B2R (fobb_radius p b)) <= bpow radix2 1002 /\ Rabs (B2R (fobb_radius p b) - obb_radius3) <= 61 * (u * H) + 19 * he + 6 * eta /\ 0 <= obb_radius3 <= 9 * H.
  Proof.
    destruct signs as (K0 & M0 & A0 & H0). destruct HB as (_ & (T1 & B1) & (T2 & B2) & (T3 & B3) & (TH & BH1 & BH2 & BH3) & O1 & O2 & O3).
    destruct (axis_near _ T1 B1) as (M1 & E1 & S1). destruct (axis_near _ T2 B2) as (M2 & E2 & S2). destruct (axis_near _ T3 B3) as (M3 & E3 & S3). fold d1 in E1, S1. fold d2 in E2, S2. fold d3 in E3, S3. fold h1 in BH1, O1. fold h2 in BH2, O2. fold h3 in BH3, O3.
    change (fobb_radius p b) with (fdot (fohalf b) (FV (Babs (fdot n (foaxx b))) (Babs (fdot n (foaxy b))) (Babs (fdot n (foaxz b))))).
    destruct (dot_error (fohalf b) (FV (Babs (fdot n (foaxx b))) (Babs (fdot n (foaxy b))) (Babs (fdot n (foaxz b)))) (tame_moderate_vec _ TH) (conj M1 (conj M2 M3))) as (F & B & e & E & D).
    split; [exact F|]. split; [exact B|]. set (fd := B2R (fdot _ _)) in D |- *. clearbody fd. unfold exact_vec, dot in D. cbn [fx fy fz vx vy vz] in D, E. fold h1 h2 h3 in D, E.
    set (c1 := B2R (Babs (fdot n (foaxx b)))) in *. set (c2 := B2R (Babs (fdot n (foaxy b)))) in *. set (c3 := B2R (Babs (fdot n (foaxz b)))) in *.
    assert (AA : forall x, Rabs x <= 3 * (k * a) -> Rabs (Rabs x) <= 3 * (k * a)) by (intros x X; rewrite Rabs_Rabsolu; exact X).
    assert (Q1 := term_near _ _ _ _ _ BH1 E1). assert (Q2 := term_near _ _ _ _ _ BH2 E2). assert (Q3 := term_near _ _ _ _ _ BH3 E3).
    assert (P1 := term_size _ _ _ _ BH1 (near_size _ _ _ _ E1 (AA _ S1))). assert (P2 := term_size _ _ _ _ BH2 (near_size _ _ _ _ E2 (AA _ S2))). assert (P3 := term_size _ _ _ _ BH3 (near_size _ _ _ _ E3 (AA _ S3))).
    assert (R1 := term_size _ _ _ _ BH1 (AA _ S1)). assert (R2 := term_size _ _ _ _ BH2 (AA _ S2)). assert (R3 := term_size _ _ _ _ BH3 (AA _ S3)).
    replace (h * (10 * (u * (k * a)) + 6 * eta)) with (10 * (u * H) + 6 * he) in Q1, Q2, Q3 by (unfold H, he; ring). replace (h * (3 * (k * a) + (10 * (u * (k * a)) + 6 * eta))) with (3 * H + 10 * (u * H) + 6 * he) in P1, P2, P3 by (unfold H, he; ring).
    replace (h * (3 * (k * a))) with (3 * H) in R1, R2, R3 by (unfold H; ring).
    set (mg := Rabs (h1 * c1) + Rabs (h2 * c2) + Rabs (h3 * c3)) in *. assert (G : mg <= 9 * H + 30 * (u * H) + 18 * he) by (unfold mg; lra).
    assert (US := u_small). assert (E0 := bpow_gt_0 radix2 (-1075)). assert (G' := times_le u _ _ (Rlt_le _ _ (proj1 US)) G). replace (u * (9 * H + 30 * (u * H) + 18 * he)) with (9 * (u * H) + 30 * (u * (u * H)) + 18 * (u * he)) in G' by ring.
    replace (u * (3 + / 4) * mg) with ((3 + / 4) * (u * mg)) in E by ring. assert (HP0 : 0 <= H) by (apply Rmult_le_pos; [exact H0|apply ka_size]). assert (HE0 : 0 <= he) by (apply Rmult_le_pos; lra).
    assert (UH : 0 <= u * H) by (apply Rmult_le_pos; lra). assert (UUH : u * (u * H) <= / 1000 * (u * H)) by (apply Rmult_le_compat_r; lra). assert (UHE : u * he <= / 1000 * he) by (apply Rmult_le_compat_r; lra).
    apply Rabs_le_inv in Q1. apply Rabs_le_inv in Q2. apply Rabs_le_inv in Q3. apply Rabs_le_inv in R1. apply Rabs_le_inv in R2. apply Rabs_le_inv in R3. unfold obb_radius3.
    assert (Z1 : 0 <= h1 * Rabs d1) by (apply Rmult_le_pos; [exact O1|apply Rabs_pos]). assert (Z2 : 0 <= h2 * Rabs d2) by (apply Rmult_le_pos; [exact O2|apply Rabs_pos]). assert (Z3 : 0 <= h3 * Rabs d3) by (apply Rmult_le_pos; [exact O3|apply Rabs_pos]).
    split; [apply Rabs_le; lra|lra].
  Qed.
  (** The gap between plane and box, negative if they meet *)
  Definition obb_gap : R := Rabs (side alt (exact_plane p) (exact_vec (focenter b))) - obb_radius3.
  Lemma obb_gap_near : is_finite (fdistance_obb alt p b) = true /\ Rabs (B2R (fdistance_obb alt p b) - obb_gap) <= obb_slack k m a h d.
  Proof.
    destruct signs as (K0 & M0 & A0 & H0). destruct obb_radius_near as (FR & BR & ER & RS). destruct HB as ((TC & BC) & _). destruct (point_side_near alt p (focenter b) k m HP TC BC) as (FS & ES & MS). fold d km in ES, MS.
    unfold fdistance_obb, fdistance_point. set (s := fsgn_distance alt p (focenter b)) in *. set (r := fobb_radius p b) in *.
    assert (BS : Rabs (B2R s) <= bpow radix2 1003). { destruct HP as (TN & TD & _). destruct (dot_error n (focenter b) (tame_moderate_vec _ TN) (tame_moderate_vec _ TC)) as (_ & BD & _). unfold s in *. destruct (sub_value _ _ FS) as (_ & _ & V). unfold fsgn_distance. rewrite V. apply rnd_bound; [lia|]. rewrite sign_value. unfold Rminus. eapply Rle_trans; [apply Rabs_triang|]. rewrite Rabs_Ropp, dsign_abs.
      assert (Q : bpow radix2 1003 = 2 * bpow radix2 1002) by exact (double_pow 1002). assert (Q' : Rabs (B2R (fdistance p)) <= bpow radix2 1002) by (apply Rle_trans with (1 := proj2 TD), bpow_le; lia). fold n. lra. }
    assert (Q : bpow radix2 1004 = 2 * bpow radix2 1003) by exact (double_pow 1003). assert (Q2 : bpow radix2 1003 = 2 * bpow radix2 1002) by exact (double_pow 1002). assert (Q3 := bpow_gt_0 radix2 1002).
    assert (B : Rabs (B2R (Babs s) - B2R r) <= bpow radix2 1004). { rewrite B2R_Babs. unfold Rminus. eapply Rle_trans; [apply Rabs_triang|]. rewrite Rabs_Rabsolu, Rabs_Ropp. lra. }
    destruct (sub_fin (Babs s) r 1004 ltac:(rewrite is_finite_Babs; exact FS) FR ltac:(lia) B) as [F V]. split; [exact F|]. rewrite V, B2R_Babs. unfold obb_gap. apply abs_near in ES.
    set (x := Rabs (B2R s)) in *. set (y := Rabs (side alt (exact_plane p) (exact_vec (focenter b)))) in *. set (g := B2R r) in *. assert (YP : 0 <= y) by apply Rabs_pos.
    apply Rabs_le_inv in ES. apply Rabs_le_inv in ER. assert (US := u_small). assert (E0 := bpow_gt_0 radix2 (-1075)). assert (DP := Rabs_pos d).
    assert (SM : forall z, 0 <= z -> 0 <= u * z <= / 1000 * z). { intros z Z. split; [apply Rmult_le_pos; lra|apply Rmult_le_compat_r; lra]. }
    assert (KM : 0 <= km) by (apply Rmult_le_pos; assumption). assert (HH : 0 <= H) by (apply Rmult_le_pos; [exact H0|apply ka_size]). assert (HE : 0 <= he) by (apply Rmult_le_pos; lra).
    assert (UKM := SM _ KM). assert (UH := SM _ HH). assert (UHE := SM _ HE). assert (UD := SM _ DP). assert (UE := SM _ (Rlt_le _ _ E0)).
    set (X := 4 * km + 2 * Rabs d + 10 * H + 20 * he + 38 * eta). assert (XB : Rabs (x - g) <= X) by (apply Rabs_le; unfold X; lra).
    assert (R := rnd_error _ _ XB). replace (u * X) with (4 * (u * km) + 2 * (u * Rabs d) + 10 * (u * H) + 20 * (u * he) + 38 * (u * eta)) in R by (unfold X; ring).
    unfold obb_slack. assert (T : bpow radix2 (-46) = 128 * u) by (change (-46)%Z with (7 + -53)%Z; rewrite bpow_plus; reflexivity). assert (T' : bpow radix2 (-1069) = 64 * eta) by (change (-1069)%Z with (6 + -1075)%Z; rewrite bpow_plus; reflexivity).
    rewrite T, T'. fold km H. replace (128 * u * (km + H + Rabs d) + 64 * eta * (1 + h)) with (128 * (u * km) + 128 * (u * H) + 128 * (u * Rabs d) + 64 * eta + 64 * he) by (unfold he; ring). apply Rabs_le. lra.
  Qed.
  Lemma side_move x y z : let q := vadd (exact_vec (focenter b)) (vadd (vscale x (exact_vec (foaxx b))) (vadd (vscale y (exact_vec (foaxy b))) (vscale z (exact_vec (foaxz b))))) in
    side alt (exact_plane p) q = side alt (exact_plane p) (exact_vec (focenter b)) + (x * d1 + y * d2 + z * d3).
  Proof. cbv zeta. rewrite !side_dsign. unfold d1, d2, d3, dot, vadd, vscale, exact_vec. cbn [exact_plane normal distance exact_vec vx vy vz]. fold n. unfold exact_vec. cbn [vx vy vz]. ring. Qed.
  Lemma obb_gap_lower x : in_obb (exact_obb b) x -> obb_gap <= Rabs (side alt (exact_plane p) x).
  Proof.
    intros (t & v & w & T & V & W & ->). cbn [exact_obb ohalf ocenter oaxx oaxy oaxz exact_vec vx vy vz] in T, V, W |- *. rewrite side_move. unfold obb_gap, obb_radius3. fold h1 in T. fold h2 in V. fold h3 in W.
    set (S := side alt _ _). assert (Z : forall s r e, Rabs s <= r -> Rabs (s * e) <= r * Rabs e) by (intros s r e Y; rewrite Rabs_mult; apply Rmult_le_compat_r; [apply Rabs_pos|exact Y]).
    assert (Z1 := Z _ _ d1 T). assert (Z2 := Z _ _ d2 V). assert (Z3 := Z _ _ d3 W). assert (TR := Rabs_triang_inv S (- (t * d1 + v * d2 + w * d3))). rewrite Rabs_Ropp in TR. replace (S - - (t * d1 + v * d2 + w * d3)) with (S + (t * d1 + v * d2 + w * d3)) in TR by ring.
    assert (W1 : Rabs (t * d1 + v * d2 + w * d3) <= Rabs (t * d1) + Rabs (v * d2) + Rabs (w * d3)) by (eapply Rle_trans; [apply Rabs_triang|]; apply Rplus_le_compat_r, Rabs_triang). lra.
  Qed.
  Lemma obb_gap_attained : exists x, in_obb (exact_obb b) x /\ Rabs (side alt (exact_plane p) x) = Rmax 0 obb_gap.
  Proof.
    set (S := side alt (exact_plane p) (exact_vec (focenter b))). destruct obb_radius_near as (_ & _ & _ & R0 & _).
    assert (L : exists l, -1 <= l <= 1 /\ Rabs (S + l * obb_radius3) = Rmax 0 obb_gap).
    { unfold obb_gap. fold S. destruct (Rle_lt_dec (Rabs S) obb_radius3) as [Y|Y].
      - rewrite Rmax_left by lra. destruct (Req_dec obb_radius3 0) as [Z|Z].
        + exists 0. split; [lra|]. rewrite Rmult_0_l, Rplus_0_r. assert (P := Rabs_pos S). lra.
        + exists (- S / obb_radius3). split; [|replace (S + - S / obb_radius3 * obb_radius3) with 0 by (field; exact Z); apply Rabs_R0].
          apply Rabs_le_inv in Y. assert (P : 0 < obb_radius3) by lra. split; apply Rmult_le_reg_r with obb_radius3; try exact P; unfold Rdiv; rewrite ?Rmult_assoc, ?Rinv_l by exact Z; lra.
      - rewrite Rmax_right by lra. destruct (Rle_lt_dec 0 S) as [P|P].
        + exists (-1). split; [lra|]. rewrite (Rabs_pos_eq S) in * by exact P. rewrite Rabs_pos_eq; lra.
        + exists 1. split; [lra|]. rewrite (Rabs_left S) in * by exact P. rewrite Rabs_left; lra. }
    destruct L as (l & L & E). rewrite <- E. destruct HB as (_ & _ & _ & _ & _ & O1 & O2 & O3). fold h1 in O1. fold h2 in O2. fold h3 in O3.
    assert (G : forall s, exists g, -1 <= g <= 1 /\ s * g = Rabs s). { intros s. destruct (Rle_lt_dec 0 s) as [P|P]; [exists 1|exists (-1)]; (split; [lra|]); [rewrite Rabs_pos_eq by exact P|rewrite Rabs_left by exact P]; ring. }
    destruct (G d1) as (g1 & G1 & E1). destruct (G d2) as (g2 & G2 & E2). destruct (G d3) as (g3 & G3 & E3).
    assert (B : forall r g, 0 <= r -> -1 <= g <= 1 -> Rabs (l * g * r) <= r). { intros r g O I. rewrite !Rabs_mult, (Rabs_pos_eq r O). assert (Q : Rabs l * Rabs g <= 1 * 1) by (apply Rmult_le_compat; try apply Rabs_pos; apply Rabs_le; lra). assert (Q' := Rmult_le_compat_r r _ _ O Q). lra. }
    eexists. split.
    - exists (l * g1 * h1), (l * g2 * h2), (l * g3 * h3). cbn [exact_obb ohalf ocenter oaxx oaxy oaxz exact_vec vx vy vz]. fold h1 h2 h3. split; [apply B; assumption|]. split; [apply B; assumption|]. split; [apply B; assumption|]. reflexivity.
    - cbn [exact_obb ocenter oaxx oaxy oaxz]. rewrite side_move. fold S. f_equal. unfold obb_radius3. rewrite <- E1, <- E2, <- E3. ring.
  Qed.
End Gap.
