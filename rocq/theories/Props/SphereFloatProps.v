(** * C99: rays against spheres in double precision *)
From Coq Require Import ZArith Reals List Bool Lia Lra.
From Flocq Require Import Core IEEE754.BinarySingleNaN.
From Verif Require Import Model.Scalar Model.Vec Model.BoxFloat Model.Plane Model.PlaneFloat Model.ClipFloat Model.FrustumFloat Model.TriFloat Model.SphereFloat
  Spec.PlaneSpec Spec.CollSpec Spec.FloatSpec Spec.FrustumFloatSpec Spec.TriFloatSpec Spec.SphereFloatSpec
  Proofs.VecLemmas Proofs.PlaneFloatLemmas Proofs.ClipFloatLemmas Proofs.FrustumFloatLemmas Proofs.TriFloatLemmas Proofs.MeshFloatLemmas Proofs.SphereFloatLemmas Props.TriFloatProps.
Local Open Scope R_scope.

Lemma square_slack_enough (s : fsphere) (o : fvec) : let D := vsub (exact_vec o) (exact_vec (fsorigin s)) in let y := len D + bpow radix2 (-430) in
  76 * (u * (y * y)) + 5 * (u * (B2R (fsradius s) * B2R (fsradius s))) < square_slack (exact_sphere s) (exact_vec o).
Proof.
  intros D y. destruct (hit_small s o) as (W & K & Q0 & QQ & Y0 & _ & _ & YY & _). fold D in Q0, QQ, Y0, YY. fold y in Y0, YY. unfold square_slack, from_center, exact_sphere. cbn [sorigin sradius]. fold D.
  assert (E : bpow radix2 (-46) = 128 * u) by (change (-46)%Z with (7 + -53)%Z; rewrite bpow_plus; reflexivity). rewrite E.
  set (k := bpow radix2 (-430)) in *. assert (KK : 16384 * (u * (k * k)) < bpow radix2 (-850)) by (change 16384 with (bpow radix2 14); unfold k; rewrite <- !bpow_plus; apply bpow_lt; lia).
  assert (R0 : 0 <= u * (B2R (fsradius s) * B2R (fsradius s))) by (apply Rmult_le_pos; [lra|apply Rle_0_sqr]). assert (D0 : 0 <= u * dot D D) by (apply Rmult_le_pos; [lra|rewrite <- QQ; apply Rle_0_sqr]). assert (K0 : 0 <= u * (k * k)) by (apply Rmult_le_pos; [lra|apply Rle_0_sqr]). lra.
Qed.
Lemma away_slack_enough (s : fsphere) (o : fvec) : let D := vsub (exact_vec o) (exact_vec (fsorigin s)) in 7.3 * (u * (len D + bpow radix2 (-430))) < away_slack (exact_sphere s) (exact_vec o).
Proof.
  intros D. unfold away_slack, from_center, exact_sphere. cbn [sorigin]. fold D. assert (E : bpow radix2 (-50) = 8 * u) by (change (-50)%Z with (3 + -53)%Z; rewrite bpow_plus; reflexivity). rewrite E.
  pose proof v_small as US. pose proof (len_ge D) as L0. assert (0 <= u * len D) by (apply Rmult_le_pos; lra). assert (8 * (u * bpow radix2 (-430)) < bpow radix2 (-400)) by (change 8 with (bpow radix2 3); rewrite <- !bpow_plus; apply bpow_lt; lia). pose proof (bpow_gt_0 radix2 (-430)). assert (0 <= u * bpow radix2 (-430)) by (apply Rmult_le_pos; lra). lra.
Qed.

(** What a report means, and its parameter *)
Lemma hit_cases (s : fsphere) (r : fray) t : mild_sphere s -> mild_ray r -> nearly_unit (exact_vec (frdirection r)) -> fsphere_interp s (frorigin r) (frdirection r) = Some t ->
  0 <= B2R (fouter s (frorigin r)) /\ B2R (fahead s (frorigin r) (frdirection r)) <= 0 /\ 0 <= B2R (fdisc s (frorigin r) (frdirection r)) /\ t = b64_sub (Bopp (fahead s (frorigin r) (frdirection r))) (b64_sqrt (fdisc s (frorigin r) (frdirection r))).
Proof.
  intros MS [MO MD] U H. destruct (outer_near s (frorigin r) MS MO) as (FC & _). destruct (ahead_near s (frorigin r) (frdirection r) MS MO MD U) as (FB & _). destruct (disc_near s (frorigin r) (frdirection r) MS MO MD U) as (FD & _).
  unfold fsphere_interp in H. destruct (Bltb (fouter s (frorigin r)) b64_0) eqn:E1; [discriminate|]. destruct (Bltb b64_0 (fahead s (frorigin r) (frdirection r))) eqn:E2; [discriminate|]. destruct (Bltb (fdisc s (frorigin r) (frdirection r)) b64_0) eqn:E3; [discriminate|].
  apply blt_false in E1; [|exact FC|reflexivity]. apply blt_false in E2; [|reflexivity|exact FB]. apply blt_false in E3; [|exact FD|reflexivity]. change (B2R b64_0) with 0 in *. injection H as <-. now repeat split.
Qed.

(** A ray that is reported to hit a sphere starts outside of it, does not move away and enters it, up to the slack. The parameter is a finite number, not negative but for underflow, and not beyond the point nearest to the center: the ray enters there. *)
Theorem C99_reported : forall s r t, mild_sphere s -> mild_ray r -> nearly_unit (rdirection (exact_ray r)) -> fsphere_interp s (frorigin r) (frdirection r) = Some t ->
  let S := exact_sphere s in let o := rorigin (exact_ray r) in
  - square_slack S o < outside S o /\ away S (exact_ray r) < away_slack S o /\ - square_slack S o < depth S (exact_ray r) /\ is_finite t = true /\ - bpow radix2 (-530) <= B2R t < - away S (exact_ray r) + away_slack S o.
Proof.
  intros s r t MS MR U H S o. destruct (hit_cases s r t MS MR U H) as (C0 & B0 & D0 & ->). destruct MR as [MO MD]. unfold exact_ray in *. cbn [rorigin rdirection] in *. subst S o.
  destruct (outer_near s _ MS MO) as (_ & _ & EC). destruct (ahead_near s _ _ MS MO MD U) as (_ & _ & EB & _). pose proof (depth_near s _ _ MS MO MD U) as ED. destruct (parameter_near s _ _ MS MO MD U C0 B0 D0) as (FT & LT & _ & NT & _).
  pose proof (square_slack_enough s (frorigin r)) as SS. pose proof (away_slack_enough s (frorigin r)) as AS. cbv zeta in SS, AS, EC, EB, ED, NT. unfold depth, away, outside, from_center, exact_sphere. cbn [sorigin sradius rorigin rdirection].
  change (mkSphere (exact_vec (fsorigin s)) (B2R (fsradius s))) with (exact_sphere s).
  assert (W2 : forall a, 0 <= u * (a * a)) by (intros a; apply Rmult_le_pos; [apply bpow_ge_0|apply Rle_0_sqr]). pose proof (W2 (B2R (fsradius s))) as P1. pose proof (W2 (len (vsub (exact_vec (frorigin r)) (exact_vec (fsorigin s))) + bpow radix2 (-430))) as P2.
  assert (WY : 0 <= u * (len (vsub (exact_vec (frorigin r)) (exact_vec (fsorigin s))) + bpow radix2 (-430))) by (apply Rmult_le_pos; [apply bpow_ge_0|]; pose proof (len_ge (vsub (exact_vec (frorigin r)) (exact_vec (fsorigin s)))); pose proof (bpow_ge_0 radix2 (-430)); lra).
  apply Rabs_le_inv in EC. apply Rabs_le_inv in EB. apply Rabs_le_inv in ED.
  split; [lra|]. split; [lra|]. split; [lra|]. split; [exact FT|]. split; [exact LT|lra].
Qed.
Print Assumptions C99_reported.

(** A ray for which all this holds by the slack is reported to hit. *)
Theorem C99_sure_hit : forall s r, mild_sphere s -> mild_ray r -> nearly_unit (rdirection (exact_ray r)) -> let S := exact_sphere s in let o := rorigin (exact_ray r) in
  square_slack S o <= outside S o -> away S (exact_ray r) <= - away_slack S o -> square_slack S o <= depth S (exact_ray r) -> exists t, fsphere_interp s (frorigin r) (frdirection r) = Some t.
Proof.
  intros s r MS [MO MD] U S o H1 H2 H3. unfold exact_ray in *. cbn [rorigin rdirection] in *. subst S o.
  destruct (outer_near s _ MS MO) as (FC & _ & EC). destruct (ahead_near s _ _ MS MO MD U) as (FB & _ & EB & _). pose proof (depth_near s _ _ MS MO MD U) as ED. destruct (disc_near s _ _ MS MO MD U) as (FD & _).
  pose proof (square_slack_enough s (frorigin r)) as SS. pose proof (away_slack_enough s (frorigin r)) as AS. cbv zeta in SS, AS, EC, EB, ED. set (D := vsub (exact_vec (frorigin r)) (exact_vec (fsorigin s))) in *. set (v := exact_vec (frdirection r)) in *.
  change (square_slack (exact_sphere s) (exact_vec (frorigin r)) <= dot D D - B2R (fsradius s) * B2R (fsradius s)) in H1. change (dot D v <= - away_slack (exact_sphere s) (exact_vec (frorigin r))) in H2.
  change (square_slack (exact_sphere s) (exact_vec (frorigin r)) <= dot D v * dot D v - (dot D D - B2R (fsradius s) * B2R (fsradius s))) in H3.
  assert (W2 : forall a, 0 <= u * (a * a)) by (intros a; apply Rmult_le_pos; [apply bpow_ge_0|apply Rle_0_sqr]). pose proof (W2 (B2R (fsradius s))) as P1. pose proof (W2 (len D + bpow radix2 (-430))) as P2.
  apply Rabs_le_inv in EC. apply Rabs_le_inv in EB. apply Rabs_le_inv in ED. unfold fsphere_interp.
  assert (E1 : Bltb (fouter s (frorigin r)) b64_0 = false) by (apply blt_false; [exact FC|reflexivity|change (B2R b64_0) with 0; lra]).
  assert (E2 : Bltb b64_0 (fahead s (frorigin r) (frdirection r)) = false) by (apply blt_false; [reflexivity|exact FB|change (B2R b64_0) with 0; lra]).
  assert (E3 : Bltb (fdisc s (frorigin r) (frdirection r)) b64_0 = false) by (apply blt_false; [exact FD|reflexivity|change (B2R b64_0) with 0; lra]).
  rewrite E1, E2, E3. eexists. reflexivity.
Qed.
Print Assumptions C99_sure_hit.

(** The reported parameter leads to a point of the sphere, up to the slack: also for rays that graze it. *)
Theorem C99_on_sphere : forall s r t, mild_sphere s -> mild_ray r -> nearly_unit (rdirection (exact_ray r)) -> fsphere_interp s (frorigin r) (frdirection r) = Some t ->
  Rabs (outside (exact_sphere s) (ray_at (exact_ray r) (B2R t))) <= square_slack (exact_sphere s) (rorigin (exact_ray r)).
Proof.
  intros s r t MS MR U H. destruct (hit_cases s r t MS MR U H) as (C0 & B0 & D0 & ->). destruct MR as [MO MD]. unfold exact_ray in *. cbn [rorigin rdirection] in *.
  destruct (parameter_near s _ _ MS MO MD U C0 B0 D0) as (_ & _ & _ & _ & E). set (t := b64_sub _ _) in *. pose proof (square_slack_enough s (frorigin r)) as SS. cbv zeta in SS, E.
  assert (W2 : forall a, 0 <= u * (a * a)) by (intros a; apply Rmult_le_pos; [apply bpow_ge_0|apply Rle_0_sqr]). pose proof (W2 (B2R (fsradius s))) as P1. pose proof (W2 (len (vsub (exact_vec (frorigin r)) (exact_vec (fsorigin s))) + bpow radix2 (-430))) as P2.
  eapply Rle_trans; [apply Req_le|apply Rlt_le, Rle_lt_trans with (2 := SS), Rle_trans with (1 := E); lra]. f_equal. unfold outside, from_center, ray_at, exact_sphere. cbn [sorigin sradius rorigin rdirection].
  generalize (exact_vec (frorigin r)) (exact_vec (frdirection r)) (exact_vec (fsorigin s)) (B2R t) (B2R (fsradius s)). intros a b c x y. vunfold. ring.
Qed.
Print Assumptions C99_on_sphere.

(** The reported point is the one of the parameter up to two roundings. *)
Theorem C99_point : forall s r p, mild_sphere s -> mild_ray r -> nearly_unit (rdirection (exact_ray r)) -> fsphere_ray s r = Some p -> exists t,
  - bpow radix2 (-530) <= t < - away (exact_sphere s) (exact_ray r) + away_slack (exact_sphere s) (rorigin (exact_ray r)) /\ Rabs (outside (exact_sphere s) (ray_at (exact_ray r) t)) <= square_slack (exact_sphere s) (rorigin (exact_ray r)) /\
  let o := rorigin (exact_ray r) in let d := rdirection (exact_ray r) in
  let near a c := Rabs (a - (c o + t * c d)) <= bpow radix2 (-51) * (Rabs (c o) + Rabs (t * c d)) + bpow radix2 (-1070) in
  near (B2R (fx p)) vx /\ near (B2R (fy p)) vy /\ near (B2R (fz p)) vz.
Proof.
  intros s r p MS MR U H. unfold fsphere_ray in H. destruct (fsphere_interp s (frorigin r) (frdirection r)) as [t|] eqn:E; [|discriminate]. injection H as <-. exists (B2R t).
  destruct (C99_reported s r t MS MR U E) as (_ & _ & _ & FT & LT). split; [exact LT|]. split; [exact (C99_on_sphere s r t MS MR U E)|].
  assert (TB : Rabs (B2R t) <= bpow radix2 220).
  { destruct (hit_cases s r t MS MR U E) as (C0 & B0 & D0 & ET). destruct MR as [MO MD]. destruct (parameter_near s _ _ MS MO MD U C0 B0 D0) as (_ & _ & T & _). rewrite <- ET in T. eapply Rle_trans; [exact T|].
    pose proof (dif_close s (frorigin r) MS MO) as (X & Y & Z). destruct X as (_ & _ & X & _). destruct Y as (_ & _ & Y & _). destruct Z as (_ & _ & Z & _). set (D := vsub (exact_vec (frorigin r)) (exact_vec (fsorigin s))) in *.
    assert (L : len D <= 2 * bpow radix2 202).
    { unfold len. rewrite <- (sqrt_square (2 * bpow radix2 202)) by (pose proof (bpow_ge_0 radix2 202); lra). apply sqrt_le_1_alt. unfold dot. assert (K : forall a, Rabs a <= bpow radix2 202 -> a * a <= bpow radix2 202 * bpow radix2 202) by (intros a A; replace (a * a) with (Rabs a * Rabs a) by (rewrite <- Rabs_mult; apply Rabs_pos_eq, Rle_0_sqr); apply Rmult_le_compat; auto using Rabs_pos).
      apply K in X. apply K in Y. apply K in Z. assert (0 <= bpow radix2 202 * bpow radix2 202) by apply Rle_0_sqr. lra. }
    assert (P1 : bpow radix2 (-430) <= bpow radix2 202) by (apply bpow_le; lia). assert (P2 : bpow radix2 220 = 262144 * bpow radix2 202) by (change 262144 with (bpow radix2 18); now rewrite <- bpow_plus). pose proof (bpow_gt_0 radix2 202). lra. }
  assert (K : forall a b : b64, mild a -> mild b -> Rabs (B2R (b64_add (b64_mul a t) b) - (B2R b + B2R t * B2R a)) <= bpow radix2 (-51) * (Rabs (B2R b) + Rabs (B2R t * B2R a)) + bpow radix2 (-1070)).
  { intros a b [FA BA] [FB BB]. assert (P : Rabs (B2R a * B2R t) <= bpow radix2 420) by (rewrite Rabs_mult; change 420%Z with (200 + 220)%Z; rewrite bpow_plus; apply Rmult_le_compat; auto using Rabs_pos).
    destruct (mul_fin a t 420 FA FT ltac:(lia) P) as [FM VM]. assert (BM : Rabs (B2R (b64_mul a t)) <= bpow radix2 420) by (rewrite VM; apply rnd_bound; [lia|exact P]). pose proof (rnd_near _ _ (Rle_refl (Rabs (B2R a * B2R t)))) as RM. rewrite <- VM in RM. set (m := b64_mul a t) in *.
    assert (P2 : bpow radix2 421 = 2 * bpow radix2 420) by exact (double_pow 420). assert (P3 : bpow radix2 200 <= bpow radix2 420) by (apply bpow_le; lia). destruct (add_fin m b 421 FM FB ltac:(lia)) as [_ VS]; [eapply Rle_trans; [apply Rabs_triang|]; lra|].
    assert (RS : rel u (B2R (b64_add m b)) (B2R m + B2R b)) by (rewrite VS; apply sum_relative; apply generic_format_B2R). unfold rel in RS.
    assert (W : bpow radix2 (-51) = 4 * u) by (change (-51)%Z with (2 + -53)%Z; rewrite bpow_plus; reflexivity). rewrite W, eta_slack. rewrite (Rmult_comm (B2R t)). pose proof v_small as US. pose proof eta_small as ES. set (w := bpow radix2 (-53)) in *. set (h := bpow radix2 (-1075)) in *. set (x := B2R a * B2R t) in *.
    pose proof (Rabs_pos x) as X0. pose proof (Rabs_pos (B2R b)) as Y0. pose proof (far_from _ _ _ RM) as FM2. pose proof (Rabs_triang (B2R m) (B2R b)) as TR. assert (WX : 0 <= w * Rabs x <= / 1000000 * Rabs x) by (split; [apply Rmult_le_pos; lra|apply Rmult_le_compat_r; lra]). assert (WY : 0 <= w * Rabs (B2R b)) by (apply Rmult_le_pos; lra). assert (WH : 0 <= w * h <= / 1000000 * h) by (split; [apply Rmult_le_pos; lra|apply Rmult_le_compat_r; lra]).
    assert (N : w * Rabs (B2R m + B2R b) <= w * (1.01 * Rabs x + h + Rabs (B2R b))) by (apply Rmult_le_compat_l; lra). apply Rabs_le_inv in RM. apply Rabs_le_inv in RS. apply Rabs_le. lra. }
  destruct MR as [(O1 & O2 & O3) (D1 & D2 & D3)]. cbv zeta. unfold fray_lerp, exact_ray, exact_vec. cbn [fx fy fz vx vy vz rorigin rdirection]. auto.
Qed.
Print Assumptions C99_point.

Lemma int_sphere a b c n : (Z.abs a <= 2 ^ 53)%Z -> (Z.abs b <= 2 ^ 53)%Z -> (Z.abs c <= 2 ^ 53)%Z -> (Z.abs n <= 2 ^ 53)%Z ->
  exact_sphere (mkFSphere (int_vec a b c) (b64_of_Z n)) = mkSphere (V3 (IZR a) (IZR b) (IZR c)) (IZR n) /\ mild_sphere (mkFSphere (int_vec a b c) (b64_of_Z n)).
Proof.
  intros A B C N. destruct (int_vec_exact a b c A B C) as [V M]. destruct (b64_integer n N) as [VN FN]. split; [unfold exact_sphere; cbn [fsorigin fsradius]; now rewrite V, VN|]. split; [exact M|]. split; [exact FN|]. cbn [fsradius]. rewrite VN, <- abs_IZR. apply Rle_trans with (bpow radix2 53); [|apply bpow_le; lia]. change (bpow radix2 53) with (IZR (2 ^ 53)). apply IZR_le. exact N.
Qed.
Lemma forward_unit : nearly_unit (V3 1 0 0).
Proof. unfold nearly_unit, dot. cbn [vx vy vz]. replace (1 * 1 + 0 * 0 + 0 * 0 - 1) with 0 by ring. rewrite Rabs_R0. apply bpow_ge_0. Qed.

(** A ball of radius 5 around (1, 2, 3), hit from (-12, 2, 6): at (-3, 2, 6). *)
Example C99_example : exists s r p, mild_sphere s /\ mild_ray r /\ nearly_unit (rdirection (exact_ray r)) /\ exact_sphere s = mkSphere (V3 1 2 3) 5 /\ exact_ray r = mkRay (V3 (-12) 2 6) (V3 1 0 0) /\
  square_slack (exact_sphere s) (rorigin (exact_ray r)) <= outside (exact_sphere s) (rorigin (exact_ray r)) /\ away (exact_sphere s) (exact_ray r) <= - away_slack (exact_sphere s) (rorigin (exact_ray r)) /\ square_slack (exact_sphere s) (rorigin (exact_ray r)) <= depth (exact_sphere s) (exact_ray r) /\
  fsphere_ray s r = Some p /\ exact_vec p = V3 (-3) 2 6.
Proof.
  set (s := mkFSphere (int_vec 1 2 3) (b64_of_Z 5)). set (r := mkFRay (int_vec (-12) 2 6) (int_vec 1 0 0)).
  destruct (int_sphere 1 2 3 5) as [ES MS]; try lia. fold s in ES, MS. assert (ER : exact_ray r = mkRay (V3 (-12) 2 6) (V3 1 0 0)) by (unfold exact_ray, r; cbn [frorigin frdirection]; int_exact; reflexivity).
  assert (MR : mild_ray r) by (split; apply int_vec_exact; lia). assert (C : match fsphere_ray s r with Some p => Beqb (fx p) (b64_of_Z (-3)) && Beqb (fy p) (b64_of_Z 2) && Beqb (fz p) (b64_of_Z 6) | None => false end = true) by (vm_compute; reflexivity).
  destruct (fsphere_ray s r) as [p|] eqn:E; [|discriminate]. exists s, r, p. rewrite ES, ER. cbn [rorigin rdirection]. split; [exact MS|]. split; [exact MR|]. split; [exact forward_unit|]. split; [reflexivity|]. split; [reflexivity|].
  assert (S1 : bpow radix2 (-46) <= / 1024) by (change (/ 1024) with (bpow radix2 (-10)); apply bpow_le; lia). assert (S2 : bpow radix2 (-850) <= / 1024) by (change (/ 1024) with (bpow radix2 (-10)); apply bpow_le; lia). assert (S3 : bpow radix2 (-50) <= / 1024) by (change (/ 1024) with (bpow radix2 (-10)); apply bpow_le; lia). assert (S4 : bpow radix2 (-400) <= / 1024) by (change (/ 1024) with (bpow radix2 (-10)); apply bpow_le; lia).
  assert (DD : dot (vsub (V3 (-12) 2 6) (V3 1 2 3)) (vsub (V3 (-12) 2 6) (V3 1 2 3)) = 178) by (vunfold; ring). assert (L : len (vsub (V3 (-12) 2 6) (V3 1 2 3)) <= 14) by (unfold len; rewrite DD; rewrite <- (sqrt_square 14) by lra; apply sqrt_le_1_alt; lra).
  assert (AV : dot (vsub (V3 (-12) 2 6) (V3 1 2 3)) (V3 1 0 0) = -13) by (vunfold; ring). unfold depth, outside, away, square_slack, away_slack, from_center. cbn [sorigin sradius rorigin rdirection]. rewrite DD, AV.
  assert (SS : bpow radix2 (-46) * (178 + 5 * 5) <= / 1024 * (178 + 5 * 5)) by (apply Rmult_le_compat_r; lra). pose proof (len_ge (vsub (V3 (-12) 2 6) (V3 1 2 3))) as L0. pose proof (bpow_ge_0 radix2 (-50)) as P5.
  assert (SL : bpow radix2 (-50) * len (vsub (V3 (-12) 2 6) (V3 1 2 3)) <= / 1024 * 14) by (apply Rmult_le_compat; lra).
  split; [lra|]. split; [lra|]. split; [lra|]. split; [exact E|].
  apply andb_true_iff in C. destruct C as [C C3]. apply andb_true_iff in C. destruct C as [C1 C2].
  assert (K : forall (a : b64) n, (Z.abs n <= 2 ^ 53)%Z -> Beqb a (b64_of_Z n) = true -> is_finite a = true -> B2R a = IZR n) by (intros a n N H F; destruct (b64_integer n N) as [V G]; rewrite (Beqb_correct 53 1024 a (b64_of_Z n) F G), V in H; destruct (Req_bool_spec (B2R a) (IZR n)); [assumption|discriminate]).
  assert (FP : is_finite (fx p) && is_finite (fy p) && is_finite (fz p) = true). { assert (G : match fsphere_ray s r with Some p => is_finite (fx p) && is_finite (fy p) && is_finite (fz p) | None => false end = true) by (vm_compute; reflexivity). rewrite E in G. exact G. }
  apply andb_true_iff in FP. destruct FP as [FP F3]. apply andb_true_iff in FP. destruct FP as [F1 F2]. unfold exact_vec. rewrite (K _ (-3)%Z ltac:(lia) C1 F1), (K _ 2%Z ltac:(lia) C2 F2), (K _ 6%Z ltac:(lia) C3 F3). reflexivity.
Qed.

(** From far away, near the edge of the sphere: a ray that meets the inside is reported to miss, and a ray that misses is reported to hit. *)
Theorem C99_graze_refuted : exists s r s' r', mild_sphere s /\ mild_ray r /\ unit (rdirection (exact_ray r)) /\ (exists x, on_ray (exact_ray r) x /\ dist x (sorigin (exact_sphere s)) < sradius (exact_sphere s)) /\
  sradius (exact_sphere s) < dist (rorigin (exact_ray r)) (sorigin (exact_sphere s)) /\ fsphere_ray s r = None /\
  mild_sphere s' /\ mild_ray r' /\ unit (rdirection (exact_ray r')) /\ 0 < sradius (exact_sphere s') /\ (forall x, on_ray (exact_ray r') x -> ~ in_ball (exact_sphere s') x) /\ fsphere_ray s' r' <> None.
Proof.
  set (s := mkFSphere (int_vec 0 0 0) (b64_of_Z 132)). set (r := mkFRay (int_vec (- 2 ^ 33) 93 93) (int_vec 1 0 0)). set (s' := mkFSphere (int_vec 0 0 0) (b64_of_Z 64)). set (r' := mkFRay (int_vec (- 2 ^ 33) 80 0) (int_vec 1 0 0)).
  exists s, r, s', r'. destruct (int_sphere 0 0 0 132) as [ES MS]; try lia. fold s in ES, MS. destruct (int_sphere 0 0 0 64) as [ES' MS']; try lia. fold s' in ES', MS'.
  assert (ER : exact_ray r = mkRay (V3 (- 8589934592) 93 93) (V3 1 0 0)) by (unfold exact_ray, r; cbn [frorigin frdirection]; int_exact; reflexivity). assert (ER' : exact_ray r' = mkRay (V3 (- 8589934592) 80 0) (V3 1 0 0)) by (unfold exact_ray, r'; cbn [frorigin frdirection]; int_exact; reflexivity).
  assert (U : unit (V3 1 0 0)) by (unfold unit; vunfold; ring). rewrite ES, ES', ER, ER'. cbn [sorigin sradius rorigin rdirection].
  split; [exact MS|]. split; [split; apply int_vec_exact; lia|]. split; [exact U|]. split.
  { exists (V3 0 93 93). split; [exists 8589934592; split; [lra|cbn [rorigin rdirection]; vring]|]. unfold dist, len. replace (dot _ _) with 17298 by (vunfold; ring). rewrite <- (sqrt_square 132) by lra. apply sqrt_lt_1_alt. lra. }
  split. { unfold dist, len. replace (dot _ _) with (73786976294838223762) by (vunfold; ring). rewrite <- (sqrt_square 132) at 1 by lra. apply sqrt_lt_1_alt. lra. }
  split. { assert (C : match fsphere_ray s r with Some _ => false | None => true end = true) by (vm_compute; reflexivity). destruct (fsphere_ray s r); [discriminate|reflexivity]. }
  split; [exact MS'|]. split; [split; apply int_vec_exact; lia|]. split; [exact U|]. split; [lra|]. split.
  { intros x (t & T & ->). unfold in_ball, dist, len. cbn [rorigin rdirection sorigin sradius]. replace (dot _ _) with ((t - 8589934592) * (t - 8589934592) + 6400) by (vunfold; ring). intros H. assert (80 <= sqrt ((t - 8589934592) * (t - 8589934592) + 6400)); [|lra].
    rewrite <- (sqrt_square 80) at 1 by lra. apply sqrt_le_1_alt. assert (0 <= (t - 8589934592) * (t - 8589934592)) by apply Rle_0_sqr. lra. }
  assert (C : match fsphere_ray s' r' with Some _ => true | None => false end = true) by (vm_compute; reflexivity). destruct (fsphere_ray s' r'); [discriminate|discriminate].
Qed.
Print Assumptions C99_graze_refuted.
