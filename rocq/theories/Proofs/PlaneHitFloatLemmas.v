(** Where lines and rays meet planes in double precision. *)
From Coq Require Import ZArith Reals List Bool Arith Lia Lra Psatz.
From Flocq Require Import Core IEEE754.BinarySingleNaN.
From Verif Require Import Model.Scalar Model.Vec Model.BoxFloat Model.Plane Model.PlaneFloat Model.ClipFloat Model.KeyframeFloat Model.BezierFloat Model.TriFloat Model.SphereFloat Model.LineFloat Model.PlaneHitFloat.
From Verif Require Import Spec.PlaneSpec Spec.FloatSpec Spec.ClipFloatSpec Spec.UniformSplineFloatSpec Spec.PlaneHitFloatSpec.
From Verif Require Import Proofs.VecLemmas Proofs.PlaneFloatLemmas Proofs.SplineFloat Proofs.BoxRayFloatLemmas Proofs.ClipFloatLemmas Proofs.KeyframeFloatLemmas Proofs.MeshFloatLemmas Proofs.TriFloatLemmas Proofs.BezierPatchFloatLemmas Proofs.UniformSplineFloatEval.
Local Open Scope R_scope.

Lemma div_value (x y : b64) : is_finite x = true -> is_finite y = true -> is_finite (b64_div x y) = true -> B2R y <> 0 /\ B2R (b64_div x y) = rnd (B2R x / B2R y).
Proof.
  intros Fx Fy F. destruct (Req_dec (B2R y) 0) as [Z|Z].
  - exfalso. destruct y as [sy| | |sy my ey Hy]; try discriminate.
    + destruct x as [sx| | |sx mx ex Hx]; try discriminate.
    + cbn in Z. apply eq_0_F2R in Z. destruct sy; discriminate Z.
  - split; [exact Z|]. assert (C := Bdiv_correct 53 1024 b64_prec_gt_0 b64_prec_lt_emax mode_NE x y Z). fold (b64_div x y) in C. change (SpecFloat.fexp 53 1024) with f64 in C. cbn [round_mode] in C.
    destruct (Rlt_bool _ _); [exact (proj1 C)|]. cbn in C. destruct (b64_div x y) as [s|s| |s m e H]; try discriminate F; discriminate C.
Qed.
Lemma rnd_err x m : Rabs x <= m -> Rabs (rnd x - x) <= u * m + eta.
Proof. intros H. apply Rabs_le. now apply rnd_error. Qed.

(** Interpolation *)
Lemma lerp_near a b t : 0 <= t <= 1 -> Rabs (lerp_value a b t - (a + t * (b - a))) <= 4 * u * (Rabs a + Rabs b) + 4 * eta.
Proof.
  intros T. unfold lerp_value. set (S := Rabs a + Rabs b). assert (U := v_small). assert (ET := bpow_gt_0 radix2 (-1075)). set (h := eta) in *. set (v := u) in *.
  assert (D : Rabs (b - a) <= S) by (unfold Rminus, S; apply Rle_trans with (1 := Rabs_triang _ _); rewrite Rabs_Ropp; lra). assert (S0 : 0 <= S) by (apply Rle_trans with (2 := D), Rabs_pos).
  assert (E1 := rnd_err _ _ D). fold v h in E1. set (d := rnd (b - a)) in *.
  assert (Ed : Rabs (d * t - t * (b - a)) <= v * S + h).
  { replace (d * t - t * (b - a)) with (t * (d - (b - a))) by ring. rewrite Rabs_mult, (Rabs_pos_eq t) by lra. assert (P := Rabs_pos (d - (b - a))). assert (t * Rabs (d - (b - a)) <= 1 * Rabs (d - (b - a))) by (apply Rmult_le_compat_r; lra). lra. }
  assert (Dt : Rabs (t * (b - a)) <= S). { rewrite Rabs_mult, (Rabs_pos_eq t) by lra. assert (P := Rabs_pos (b - a)). assert (t * Rabs (b - a) <= 1 * Rabs (b - a)) by (apply Rmult_le_compat_r; lra). lra. }
  assert (Bd : Rabs (d * t) <= S + v * S + h) by (apply Rabs_le_inv in Ed, Dt; apply Rabs_le; lra).
  assert (E2 := rnd_err _ _ Bd). fold v h in E2. set (m := rnd (d * t)) in *.
  assert (vS : v * (v * S) <= / 1000000 * (v * S)) by (apply Rmult_le_compat_r; [apply Rmult_le_pos; lra|lra]). assert (vh : v * h <= / 1000000 * h) by (apply Rmult_le_compat_r; lra).
  assert (Em : Rabs (m - t * (b - a)) <= 2.01 * v * S + 2.01 * h) by (apply Rabs_le_inv in Ed, E2; apply Rabs_le; lra).
  assert (L : Rabs (a + t * (b - a)) <= S).
  { unfold S. replace (a + t * (b - a)) with ((1 - t) * a + t * b) by ring. apply Rle_trans with (1 := Rabs_triang _ _). rewrite !Rabs_mult, (Rabs_pos_eq (1 - t)), (Rabs_pos_eq t) by lra.
    assert (P := Rabs_pos a). assert (Q := Rabs_pos b). assert ((1 - t) * Rabs a <= 1 * Rabs a) by (apply Rmult_le_compat_r; lra). assert (t * Rabs b <= 1 * Rabs b) by (apply Rmult_le_compat_r; lra). lra. }
  assert (vS1 : v * S <= / 1000000 * S) by (apply Rmult_le_compat_r; lra).
  assert (Bm : Rabs (m + a) <= 1.01 * S + 2.01 * h) by (apply Rabs_le_inv in Em, L; apply Rabs_le; lra).
  assert (E3 := rnd_err _ _ Bm). fold v h in E3. assert (0 <= v * S) by (apply Rmult_le_pos; lra). apply Rabs_le_inv in Em, E3. apply Rabs_le. lra.
Qed.

(** How far from the plane a point is whose coordinates are a bit off *)
Lemma side_shift alt p q r e1 e2 e3 : Rabs (vx q - vx r) <= e1 -> Rabs (vy q - vy r) <= e2 -> Rabs (vz q - vz r) <= e3 ->
  Rabs (side alt p q - side alt p r) <= Rabs (vx (normal p)) * e1 + Rabs (vy (normal p)) * e2 + Rabs (vz (normal p)) * e3.
Proof.
  intros H1 H2 H3. replace (side alt p q - side alt p r) with (vx (normal p) * (vx q - vx r) + vy (normal p) * (vy q - vy r) + vz (normal p) * (vz q - vz r)) by (rewrite !side_dsign; unfold dot; ring).
  apply Rle_trans with (1 := Rabs_triang _ _). apply Rplus_le_compat; [apply Rle_trans with (1 := Rabs_triang _ _); apply Rplus_le_compat|]; rewrite Rabs_mult; apply Rmult_le_compat_l; auto using Rabs_pos.
Qed.

Section Segment.
Variables (alt : bool) (p : fplane) (a b : fvec).
Hypothesis (P : moderate_plane p) (A : tame_vec a) (B : tame_vec b).
Let pl := exact_plane p.
Let Da := side alt pl (exact_vec a).
Let Db := side alt pl (exact_vec b).
Let Ma := magnitude (Plane.normal pl) (exact_vec a) (distance pl).
Let Mb := magnitude (Plane.normal pl) (exact_vec b) (distance pl).
Let t := fplane_interp alt p a (fvsub b a).

Lemma unit_crossing : in_unit t = true -> is_finite t = true /\ 0 <= B2R t <= 1 /\ Rabs (Da + B2R t * (Db - Da)) <= 20 * u * (Ma + Mb) + 80 * eta.
Proof.
  intros I. assert (F := unit_is_finite t I). assert (T := proj1 (unit_finite t F) I). split; [exact F|]. split; [exact T|].
  destruct (distances alt p a b P A B) as (Fa & _ & Ea & _). destruct (divisor alt p a b P A B) as (Fy & Ey). destruct (mag_bounds alt p a b) as [Ba Bb]. destruct (M_pos alt p a b) as [PA PB].
  fold pl in Ea, Ey, Ba, Bb, PA, PB. fold Da Db Ma Mb in Ea, Ey, Ba, Bb, PA, PB. destruct (opp_value (fsgn_distance alt p a)) as [Fo Vo].
  destruct (div_value (Bopp (fsgn_distance alt p a)) (fdot (fnormal p) (fvsub b a))) as [NY V]; [rewrite Fo; exact Fa|exact Fy|exact F|]. fold (fplane_interp alt p a (fvsub b a)) in V. fold t in V. rewrite Vo in V.
  set (x := B2R (fsgn_distance alt p a)) in *. set (y := B2R (fdot (fnormal p) (fvsub b a))) in *.
  assert (U := v_small). assert (ET := MeshFloatLemmas.eta_small). assert (Eq := rnd_err (- x / y) _ (Rle_refl _)). rewrite <- V in Eq. set (s := B2R t) in *. set (v := u) in *. set (h := eta) in *.
  assert (Q : Rabs (s * y + x) <= v * Rabs x + h * Rabs y).
  { replace (s * y + x) with ((s - - x / y) * y) by (field; exact NY). rewrite Rabs_mult. apply Rle_trans with ((v * Rabs (- x / y) + h) * Rabs y); [apply Rmult_le_compat_r; [apply Rabs_pos|exact Eq]|].
    right. unfold Rdiv. rewrite Rabs_mult, Rabs_Ropp, (Rabs_inv y). field. now apply Rabs_no_R0. }
  assert (Bx : Rabs x <= 1.01 * Ma + 32 * h). { assert (8 * v * Ma <= / 100 * Ma) by (apply Rmult_le_compat_r; lra). apply Rabs_le_inv in Ea, Ba. apply Rabs_le. lra. }
  assert (By : Rabs y <= 1.01 * (Ma + Mb) + 32 * h). { assert (8 * v * (Ma + Mb) <= / 100 * (Ma + Mb)) by (apply Rmult_le_compat_r; lra). apply Rabs_le_inv in Ey, Ba, Bb. apply Rabs_le. lra. }
  assert (K1 : v * Rabs x <= v * (1.01 * Ma + 32 * h)) by (apply Rmult_le_compat_l; lra). assert (K2 : h * Rabs y <= (/ 1000000 * v) * (1.01 * (Ma + Mb) + 32 * h)) by (apply Rmult_le_compat; try lra; apply Rabs_pos).
  assert (K3 : v * h <= / 1000000 * h) by (apply Rmult_le_compat_r; lra).
  assert (K4 : Rabs (s * (Db - Da - y)) <= 8 * v * (Ma + Mb) + 32 * h).
  { rewrite Rabs_mult, (Rabs_pos_eq s) by lra. rewrite Rabs_minus_sym in Ey. assert (Z := Rabs_pos (Db - Da - y)). assert (s * Rabs (Db - Da - y) <= 1 * Rabs (Db - Da - y)) by (apply Rmult_le_compat_r; lra). lra. }
  replace (Da + s * (Db - Da)) with (- (x - Da) + (s * y + x) + s * (Db - Da - y)) by ring.
  assert (0 <= v * Ma) by (apply Rmult_le_pos; lra). assert (0 <= v * Mb) by (apply Rmult_le_pos; lra). apply Rabs_le_inv in Ea, Q, K4. apply Rabs_le. lra.
Qed.

Lemma coordinate_near f c : coordinates f c -> is_finite t = true -> 0 <= B2R t <= 1 ->
  is_finite (f (flerp3 a b t)) = true /\ Rabs (B2R (f (flerp3 a b t)) - (c (exact_vec a) + B2R t * (c (exact_vec b) - c (exact_vec a)))) <= 4 * u * (Rabs (c (exact_vec a)) + Rabs (c (exact_vec b))) + 4 * eta.
Proof.
  intros C F T. assert (Ta : tame (f a)) by (destruct A as (? & ? & ?), C as [[-> _]|[[-> _]|[-> _]]]; assumption). assert (Tb : tame (f b)) by (destruct B as (? & ? & ?), C as [[-> _]|[[-> _]|[-> _]]]; assumption).
  replace (f (flerp3 a b t)) with (flerp (f a) (f b) t) by (destruct C as [[-> _]|[[-> _]|[-> _]]]; reflexivity). destruct (flerp_value (f a) (f b) t Ta Tb F T) as [Fl ->]. split; [exact Fl|].
  rewrite !(coordinates_exact f c) by exact C. now apply lerp_near.
Qed.
Lemma segment_hit q : fplane_line alt p (mkFLine a b) = Some q -> exists s, 0 <= s <= 1 /\ in_unit t = true /\
  (forall f c, coordinates f c -> is_finite (f q) = true /\ Rabs (B2R (f q) - (c (exact_vec a) + s * (c (exact_vec b) - c (exact_vec a)))) <= 4 * u * (Rabs (c (exact_vec a)) + Rabs (c (exact_vec b))) + 4 * eta) /\
  Rabs (side alt pl (exact_vec q)) <= edge_slack pl (exact_vec a) (exact_vec b) + underflow (Plane.normal pl).
Proof.
  unfold fplane_line. cbn [fla flb]. change (fplane_interp alt p a (fminus b a)) with t. fold (in_unit t). intros H. destruct (in_unit t) eqn:I; [|discriminate]. injection H as <-. destruct (unit_crossing I) as (F & T & X).
  exists (B2R t). split; [exact T|]. split; [reflexivity|]. split; [intros f c C; now apply coordinate_near|].
  destruct (coordinate_near fx vx ltac:(left; auto) F T) as [_ E1]. destruct (coordinate_near fy vy ltac:(right; left; auto) F T) as [_ E2]. destruct (coordinate_near fz vz ltac:(right; right; auto) F T) as [_ E3].
  set (s := B2R t) in *. set (va := exact_vec a) in *. set (vb := exact_vec b) in *. set (q := flerp3 a b t) in *.
  set (r := V3 (vx va + s * (vx vb - vx va)) (vy va + s * (vy vb - vy va)) (vz va + s * (vz vb - vz va))).
  assert (Sr : side alt pl r = Da + s * (Db - Da)) by (unfold Da, Db, r; rewrite !side_dsign; unfold dot; cbn [vx vy vz]; fold va vb; ring).
  assert (G := side_shift alt pl (exact_vec q) r _ _ _ E1 E2 E3). rewrite Sr in G.
  unfold edge_slack, underflow. rewrite scale47, scale1066, scale1072. fold va vb. fold Ma Mb.
  assert (U := v_small). assert (ET := bpow_gt_0 radix2 (-1075)). set (v := u) in *. set (h := eta) in *. set (n := Plane.normal pl) in *.
  assert (M1 : Rabs (vx n) * (4 * v * (Rabs (vx va) + Rabs (vx vb)) + 4 * h) + Rabs (vy n) * (4 * v * (Rabs (vy va) + Rabs (vy vb)) + 4 * h) + Rabs (vz n) * (4 * v * (Rabs (vz va) + Rabs (vz vb)) + 4 * h) <= 4 * v * (Ma + Mb) + 4 * h * (Rabs (vx n) + Rabs (vy n) + Rabs (vz n))).
  { unfold Ma, Mb, magnitude. fold n va vb. rewrite !Rabs_mult. assert (Z := Rabs_pos (distance pl)). assert (0 <= v * Rabs (distance pl)) by (apply Rmult_le_pos; lra). lra. }
  assert (N0 : 0 <= Rabs (vx n) + Rabs (vy n) + Rabs (vz n)) by (repeat apply Rplus_le_le_0_compat; apply Rabs_pos). assert (0 <= h * (Rabs (vx n) + Rabs (vy n) + Rabs (vz n))) by (apply Rmult_le_pos; lra).
  destruct (M_pos alt p a b) as [PA PB]. fold pl in PA, PB. fold n va vb in PA, PB. unfold va, vb in *. fold n in Ma, Mb. assert (0 <= v * Ma) by (apply Rmult_le_pos; [lra|exact PA]). assert (0 <= v * Mb) by (apply Rmult_le_pos; [lra|exact PB]).
  fold Ma in M1, X. fold Mb in M1, X. apply Rabs_le_inv in G, X. apply Rabs_le. lra.
Qed.

(** Clearly on the same side, or on different ones *)
Lemma clear_sides s : s = 1 \/ s = -1 -> 2 * edge_slack pl (exact_vec a) (exact_vec b) < s * Da -> edge_slack pl (exact_vec a) (exact_vec b) < s * B2R (fsgn_distance alt p a).
Proof.
  intros S H. destruct (distances alt p a b P A B) as (_ & _ & Ea & _). fold pl in Ea. fold Da Ma in Ea. destruct (M_pos alt p a b) as [PA PB]. fold pl in PA, PB. fold Ma Mb in PA, PB.
  assert (W : edge_slack pl (exact_vec a) (exact_vec b) = 64 * u * (Ma + Mb) + 512 * eta) by (unfold edge_slack; rewrite scale47, scale1066; reflexivity). rewrite W in *.
  assert (U := v_small). assert (ET := bpow_gt_0 radix2 (-1075)). assert (0 <= u * Ma) by (apply Rmult_le_pos; lra). assert (0 <= u * Mb) by (apply Rmult_le_pos; lra). apply Rabs_le_inv in Ea. destruct S as [-> | ->]; lra.
Qed.
End Segment.

(** Rays *)
Lemma div_sign (x y : b64) : is_finite x = true -> is_finite y = true -> B2R y <> 0 ->
  (is_finite (b64_div x y) = true /\ B2R (b64_div x y) = rnd (B2R x / B2R y)) \/ (exists s, b64_div x y = B754_infinity s /\ (if s then B2R x / B2R y < 0 else 0 < B2R x / B2R y)).
Proof.
  intros Fx Fy Z. assert (C := Bdiv_correct 53 1024 b64_prec_gt_0 b64_prec_lt_emax mode_NE x y Z). fold (b64_div x y) in C. change (SpecFloat.fexp 53 1024) with f64 in C. cbn [round_mode] in C.
  destruct (Rlt_bool_spec (Rabs (rnd (B2R x / B2R y))) (bpow radix2 1024)) as [H|H].
  - left. destruct C as (V & F & _). rewrite F. auto.
  - right. exists (xorb (Bsign x) (Bsign y)). split.
    + apply B2SF_inj. rewrite C. reflexivity.
    + assert (NX : B2R x <> 0). { intros E. rewrite E in H. unfold Rdiv in H. rewrite Rmult_0_l, rnd_0, Rabs_R0 in H. assert (P := bpow_gt_0 radix2 1024). lra. }
      assert (Sg : forall z : b64, is_finite z = true -> B2R z <> 0 -> if Bsign z then B2R z < 0 else 0 < B2R z).
      { intros z Fz Nz. destruct z as [| | |s m e Hz]; try discriminate Fz; [exfalso; apply Nz; reflexivity|]. cbn [Bsign B2R]. destruct s; [apply F2R_lt_0|apply F2R_gt_0]; reflexivity. }
      assert (Sx := Sg x Fx NX). assert (Sy := Sg y Fy Z). destruct (Bsign x), (Bsign y); cbn [xorb]; unfold Rdiv.
      * assert (/ B2R y < 0) by (now apply Rinv_lt_0_compat). nra.
      * assert (0 < / B2R y) by (now apply Rinv_0_lt_compat). nra.
      * assert (/ B2R y < 0) by (now apply Rinv_lt_0_compat). nra.
      * assert (0 < / B2R y) by (now apply Rinv_0_lt_compat). nra.
Qed.

Section Ray.
Variables (alt : bool) (p : fplane) (o d : fvec).
Hypothesis (P : moderate_plane p) (O : moderate_vec o) (D : moderate_vec d).
Let pl := exact_plane p.
Let So := side alt pl (exact_vec o).
Let Mo := magnitude (Plane.normal pl) (exact_vec o) (distance pl).
Let N := climb pl (exact_vec d).
Let C := climb_magnitude pl (exact_vec d).
Let t := fplane_interp alt p o d.
Let x := fsgn_distance alt p o.
Let y := fdot (fnormal p) d.

Lemma scale51 : bpow radix2 (-51) = 4 * u.
Proof. change (-51)%Z with (2 + -53)%Z. rewrite bpow_plus. reflexivity. Qed.
Lemma scale49 : bpow radix2 (-49) = 16 * u.
Proof. change (-49)%Z with (4 + -53)%Z. rewrite bpow_plus. reflexivity. Qed.
Lemma scale1069 : bpow radix2 (-1069) = 64 * eta.
Proof. change (-1069)%Z with (6 + -1075)%Z. rewrite bpow_plus. reflexivity. Qed.
Lemma scale1074 : bpow radix2 (-1074) = 2 * eta.
Proof. change (-1074)%Z with (1 + -1075)%Z. rewrite bpow_plus. reflexivity. Qed.
Lemma scale1073 : bpow radix2 (-1073) = 4 * eta.
Proof. change (-1073)%Z with (2 + -1075)%Z. rewrite bpow_plus. reflexivity. Qed.

Lemma ray_parts : is_finite x = true /\ is_finite y = true /\ Rabs (B2R x - So) <= slack pl (exact_vec o) /\ Rabs (B2R y - N) <= climb_slack pl (exact_vec d) /\
  Rabs So <= Mo /\ Rabs N <= C /\ 0 <= Mo /\ 0 <= C.
Proof.
  destruct (distance_error alt p o P O) as (Fx & Ex). destruct (dot_error (fnormal p) d (proj1 P) D) as (Fy & _ & Ey). fold x in Fx, Ex. fold y in Fy, Ey.
  split; [exact Fx|]. split; [exact Fy|]. split; [apply Rabs_le; exact Ex|]. assert (ET := bpow_gt_0 radix2 (-1075)). assert (U := v_small).
  assert (CP : 0 <= C). { unfold C, climb_magnitude, magnitude. repeat apply Rplus_le_le_0_compat; apply Rabs_pos. }
  assert (MP : 0 <= Mo). { unfold Mo, magnitude. repeat apply Rplus_le_le_0_compat; apply Rabs_pos. }
  split.
  - unfold climb_slack. rewrite scale51, scale1072. fold C. assert (0 <= u * C) by (apply Rmult_le_pos; lra).
    assert (CE : mag3 (fnormal p) d = C) by (unfold C, climb_magnitude, magnitude; rewrite Rabs_R0, Rplus_0_r; reflexivity). rewrite CE in Ey.
    destruct Ey as (e & E1 & E2). change (dot (exact_vec (fnormal p)) (exact_vec d)) with N in E2. apply Rabs_le. lra.
  - split; [|split; [|split; assumption]].
    + unfold So, Mo, magnitude. rewrite side_dsign. unfold dot. rewrite <- (dsign_abs alt (distance pl)). unfold Rminus. apply Rle_trans with (1 := Rabs_triang _ _). rewrite Rabs_Ropp. apply Rplus_le_compat_r. apply Rle_trans with (1 := Rabs_triang _ _). apply Rplus_le_compat_r. apply Rabs_triang.
    + unfold N, climb, C, climb_magnitude, magnitude, dot. rewrite Rabs_R0, Rplus_0_r. apply Rle_trans with (1 := Rabs_triang _ _). apply Rplus_le_compat_r. apply Rabs_triang.
Qed.

(** Towards the plane, and away from it *)
Lemma x_far s : s = 1 \/ s = -1 -> 2 * slack pl (exact_vec o) < s * So -> 0 < s * So / 2 <= s * B2R x.
Proof. intros Hs H. destruct ray_parts as (_ & _ & Ex & _). assert (K := slack_pos pl (exact_vec o)). apply Rabs_le_inv in Ex. destruct Hs as [-> | ->]; lra. Qed.
Lemma y_far s : s = 1 \/ s = -1 -> climb_slack pl (exact_vec d) < s * N -> 0 < s * B2R y <= 2 * Rabs N.
Proof. intros Hs H. destruct ray_parts as (_ & _ & _ & Ey & _). apply Rabs_le_inv in Ey. assert (K := Rle_abs N). assert (K2 := Rle_abs (- N)). rewrite Rabs_Ropp in K2. destruct Hs as [-> | ->]; lra. Qed.

Lemma towards_hits s : s = 1 \/ s = -1 -> slack pl (exact_vec o) < s * So -> climb_slack pl (exact_vec d) < - s * N -> Bleb b64_0 t = true.
Proof.
  intros Hs HS HN. destruct ray_parts as (Fx & Fy & Ex & _). destruct (opp_value x) as [Fo Vo].
  assert (X : 0 < s * B2R x) by (apply Rabs_le_inv in Ex; destruct Hs as [-> | ->]; lra).
  assert (Y : 0 < - s * B2R y). { refine (proj1 (y_far (- s) _ HN)). destruct Hs as [-> | ->]; [right|left]; lra. }
  assert (NY : B2R y <> 0) by (intros E; rewrite E, Rmult_0_r in Y; lra).
  assert (Q : 0 < - B2R x / B2R y).
  { replace (- B2R x / B2R y) with ((s * B2R x) / (- s * B2R y)) by (destruct Hs as [-> | ->]; field; exact NY). now apply Rdiv_lt_0_compat. }
  unfold t, fplane_interp. fold x y. destruct (div_sign (Bopp x) y) as [[F V]|(e & E & Sg)]; [rewrite Fo; exact Fx|exact Fy|exact NY| |].
  - apply ble; [reflexivity|exact F|]. rewrite V, Vo. change (B2R b64_0) with 0. rewrite <- rnd_0. apply rnd_mono. lra.
  - rewrite E. rewrite Vo in Sg. destruct e; [exfalso; lra|reflexivity].
Qed.
Lemma away_misses s : s = 1 \/ s = -1 -> 2 * slack pl (exact_vec o) < s * So -> climb_slack pl (exact_vec d) < s * N -> bpow radix2 (-1000) * Rabs N <= Rabs So -> Bleb b64_0 t = false.
Proof.
  intros Hs HS HN HR. destruct ray_parts as (Fx & Fy & _). destruct (opp_value x) as [Fo Vo]. destruct (x_far s Hs HS) as [X1 X2]. destruct (y_far s Hs HN) as [Y1 Y2].
  assert (NY : B2R y <> 0) by (intros E; rewrite E, Rmult_0_r in Y1; lra). assert (AS : s * So = Rabs So).
  { assert (K := slack_pos pl (exact_vec o)). destruct Hs as [-> | ->]; [rewrite Rabs_pos_eq|rewrite Rabs_left1]; lra. }
  assert (Q : - B2R x / B2R y <= - bpow radix2 (-1002)).
  { replace (- B2R x / B2R y) with (- ((s * B2R x) / (s * B2R y))) by (destruct Hs as [-> | ->]; field; exact NY). apply Ropp_le_contravar. apply Rmult_le_reg_r with (s * B2R y); [exact Y1|]. unfold Rdiv. rewrite Rmult_assoc, Rinv_l, Rmult_1_r by lra.
    assert (W : bpow radix2 (-1000) = 4 * bpow radix2 (-1002)) by (change (-1000)%Z with (2 + -1002)%Z; rewrite bpow_plus; reflexivity).
    assert (B0 := bpow_gt_0 radix2 (-1002)). apply Rle_trans with (bpow radix2 (-1002) * (2 * Rabs N)); [apply Rmult_le_compat_l; lra|]. rewrite W in HR. lra. }
  assert (B0 := bpow_gt_0 radix2 (-1002)).
  unfold t, fplane_interp. fold x y. destruct (div_sign (Bopp x) y) as [[F V]|(e & E & Sg)]; [rewrite Fo; exact Fx|exact Fy|exact NY| |].
  - apply ble_false; [reflexivity|exact F|]. rewrite V, Vo. change (B2R b64_0) with 0. apply Rle_lt_trans with (- bpow radix2 (-1002)); [|lra].
    apply round_le_generic; [now apply FLT_exp_valid|typeclasses eauto|apply generic_format_opp, generic_format_bpow; unfold f64, SpecFloat.fexp, FLT_exp; vm_compute; discriminate|exact Q].
  - rewrite E. rewrite Vo in Sg. destruct e; [reflexivity|exfalso; lra].
Qed.

(** A point of a ray *)
Lemma mul_finite_right (e f : b64) : is_finite (b64_mul e f) = true -> is_finite f = true.
Proof. destruct e as [?|?| |? ? ? ?], f as [?|?| |? ? ? ?]; intros F; try reflexivity; discriminate F. Qed.
Lemma ray_point f c : coordinates f c -> is_finite (f (fray_lerp (mkFRay o d) t)) = true -> is_finite t = true /\
  Rabs (B2R (f (fray_lerp (mkFRay o d) t)) - (c (exact_vec o) + B2R t * c (exact_vec d))) <= 2.1 * u * (Rabs (c (exact_vec o)) + Rabs (B2R t * c (exact_vec d))) + 2.1 * eta.
Proof.
  intros K F. replace (f (fray_lerp (mkFRay o d) t)) with (b64_add (b64_mul (f d) t) (f o)) in * by (destruct K as [[-> _]|[[-> _]|[-> _]]]; reflexivity).
  destruct (add_value _ _ F) as (Fm & _ & V). assert (Ft := mul_finite_right _ _ Fm). split; [exact Ft|]. rewrite V, (mul_value _ _ Fm), !(coordinates_exact f c) by exact K.
  set (e := B2R (f d)) in *. set (w := B2R (f o)) in *. rewrite (Rmult_comm e). set (m := B2R t * e). clearbody m. clear V. assert (E1 := rnd_err m _ (Rle_refl _)). assert (U := v_small). assert (ET := bpow_gt_0 radix2 (-1075)).
  assert (A1 := Rabs_pos m). assert (A2 := Rabs_pos w). assert (UM : u * Rabs m <= / 1000000 * Rabs m) by (apply Rmult_le_compat_r; lra).
  assert (G1 := Rle_abs m). assert (G2 := Rle_abs (- m)). assert (G3 := Rle_abs w). assert (G4 := Rle_abs (- w)). rewrite Rabs_Ropp in G2, G4.
  assert (B1 : Rabs (rnd m + w) <= 1.01 * (Rabs m + Rabs w) + eta) by (apply Rabs_le_inv in E1; apply Rabs_le; lra).
  assert (E2 := rnd_err _ _ B1). assert (0 <= u * Rabs m) by (apply Rmult_le_pos; lra). assert (0 <= u * Rabs w) by (apply Rmult_le_pos; lra). assert (u * eta <= / 1000000 * eta) by (apply Rmult_le_compat_r; lra).
  apply Rabs_le_inv in E1, E2. apply Rabs_le. lra.
Qed.

Lemma ray_hit q : fplane_ray alt p (mkFRay o d) = Some q -> finite_vec q -> exists s, 0 <= s /\
  (forall f c, coordinates f c -> Rabs (B2R (f q) - (c (exact_vec o) + s * c (exact_vec d))) <= 2.1 * u * (Rabs (c (exact_vec o)) + Rabs (s * c (exact_vec d))) + 2.1 * eta) /\
  Rabs (side alt pl (exact_vec q)) <= ray_slack pl (exact_vec o) (exact_vec d) s.
Proof.
  unfold fplane_ray. cbn [frorigin frdirection]. fold t. intros H Fq. destruct (Bleb b64_0 t) eqn:I; [|discriminate]. injection H as <-. destruct Fq as (F1 & F2 & F3).
  destruct (ray_point fx vx ltac:(left; auto) F1) as [F E1]. destruct (ray_point fy vy ltac:(right; left; auto) F2) as [_ E2]. destruct (ray_point fz vz ltac:(right; right; auto) F3) as [_ E3].
  apply (proj1 (ble b64_0 t eq_refl F)) in I. change (B2R b64_0) with 0 in I. exists (B2R t). split; [exact I|]. split.
  { intros f c K. apply ray_point; [exact K|]. destruct K as [[-> _]|[[-> _]|[-> _]]]; assumption. }
  destruct ray_parts as (Fx & Fy & Ex & Ey & BS & BN & PM & PC). destruct (opp_value x) as [Fo Vo].
  destruct (div_value (Bopp x) y) as [NY V]; [rewrite Fo; exact Fx|exact Fy|exact F|]. fold (fplane_interp alt p o d) in V. change (b64_div (Bopp x) y) with t in V. rewrite Vo in V.
  assert (Eq := rnd_err (- B2R x / B2R y) _ (Rle_refl _)). rewrite <- V in Eq. clear V. set (s := B2R t) in *. set (xr := B2R x) in *. set (yr := B2R y) in *. set (q := fray_lerp (mkFRay o d) t) in *.
  unfold slack in Ex. unfold climb_slack in Ey. rewrite scale50, eta_slack in Ex. rewrite scale51, scale1072 in Ey. fold Mo in Ex. fold C in Ey.
  unfold ray_slack. rewrite scale49, scale1069, scale1074, scale1073. fold C. fold Mo.
  assert (U := v_small). assert (ET := MeshFloatLemmas.eta_small). set (v := u) in *. set (h := eta) in *.
  set (r := V3 (vx (exact_vec o) + s * vx (exact_vec d)) (vy (exact_vec o) + s * vy (exact_vec d)) (vz (exact_vec o) + s * vz (exact_vec d))).
  assert (Sr : side alt pl r = So + s * N) by (unfold So, N, climb, r; rewrite !side_dsign; unfold dot; cbn [vx vy vz]; ring).
  assert (G := side_shift alt pl (exact_vec q) r _ _ _ E1 E2 E3). rewrite Sr in G.
  set (n := Plane.normal pl) in *. set (vo := exact_vec o) in *. set (vd := exact_vec d) in *.
  assert (M1 : Rabs (vx n) * (2.1 * v * (Rabs (vx vo) + Rabs (s * vx vd)) + 2.1 * h) + Rabs (vy n) * (2.1 * v * (Rabs (vy vo) + Rabs (s * vy vd)) + 2.1 * h) + Rabs (vz n) * (2.1 * v * (Rabs (vz vo) + Rabs (s * vz vd)) + 2.1 * h) <= 2.1 * v * (Mo + s * C) + 2.1 * h * (Rabs (vx n) + Rabs (vy n) + Rabs (vz n))).
  { unfold Mo, C, climb_magnitude, magnitude. fold n vo vd. rewrite !Rabs_mult, (Rabs_pos_eq s), Rabs_R0 by exact I. assert (Z := Rabs_pos (distance pl)). assert (0 <= v * Rabs (distance pl)) by (apply Rmult_le_pos; lra). lra. }
  assert (Q : Rabs (s * yr + xr) <= v * Rabs xr + h * Rabs yr).
  { replace (s * yr + xr) with ((s - - xr / yr) * yr) by (field; exact NY). rewrite Rabs_mult. apply Rle_trans with ((v * Rabs (- xr / yr) + h) * Rabs yr); [apply Rmult_le_compat_r; [apply Rabs_pos|exact Eq]|].
    right. unfold Rdiv. rewrite Rabs_mult, Rabs_Ropp, (Rabs_inv yr). field. now apply Rabs_no_R0. }
  assert (Bx : Rabs xr <= 1.01 * Mo + 32 * h). { assert (8 * v * Mo <= / 100 * Mo) by (apply Rmult_le_compat_r; lra). apply Rabs_le_inv in Ex, BS. apply Rabs_le. lra. }
  assert (By : Rabs yr <= 1.01 * C + 8 * h). { assert (4 * v * C <= / 100 * C) by (apply Rmult_le_compat_r; lra). apply Rabs_le_inv in Ey, BN. apply Rabs_le. lra. }
  assert (K1 : v * Rabs xr <= v * (1.01 * Mo + 32 * h)) by (apply Rmult_le_compat_l; lra). assert (K2 : h * Rabs yr <= h * (1.01 * C + 8 * h)) by (apply Rmult_le_compat_l; lra).
  assert (K3 : v * h <= / 1000000 * h) by (apply Rmult_le_compat_r; lra). assert (K5 : h * h <= / 1000000 * h) by (apply Rmult_le_compat_r; lra).
  assert (K4 : Rabs (s * (N - yr)) <= s * (4 * v * C + 8 * h)). { rewrite Rabs_mult, (Rabs_pos_eq s) by lra. rewrite Rabs_minus_sym in Ey. apply Rmult_le_compat_l; lra. }
  assert (X : Rabs (So + s * N) <= 10 * v * Mo + 40 * h + 1.01 * (h * C) + s * (4 * v * C + 8 * h)).
  { replace (So + s * N) with (- (xr - So) + (s * yr + xr) + s * (N - yr)) by ring. assert (0 <= v * Mo) by (apply Rmult_le_pos; lra). apply Rabs_le_inv in Ex, Q, K4. apply Rabs_le. lra. }
  assert (N0 : 0 <= Rabs (vx n) + Rabs (vy n) + Rabs (vz n)) by (repeat apply Rplus_le_le_0_compat; apply Rabs_pos). assert (0 <= h * (Rabs (vx n) + Rabs (vy n) + Rabs (vz n))) by (apply Rmult_le_pos; lra).
  assert (0 <= v * Mo) by (apply Rmult_le_pos; lra). assert (0 <= h * C) by (apply Rmult_le_pos; lra). assert (0 <= s * h) by (apply Rmult_le_pos; lra). assert (0 <= v * (s * C)) by (repeat apply Rmult_le_pos; lra).
  apply Rabs_le_inv in G, X. apply Rabs_le. lra.
Qed.
End Ray.

(** The nearest point of a plane *)
Section Closest.
Variables (alt : bool) (p : fplane) (x : fvec) (M : R).
Hypothesis (HM : bpow radix2 (-900) <= M <= bpow radix2 400) (HN : point_within 2 (fnormal p)) (NU : nearly_unit (exact_vec (fnormal p))) (FD : is_finite (fdistance p) = true) (HD : Rabs (B2R (fdistance p)) <= M) (HX : point_within M x).
Let pl := exact_plane p.
Let n := Plane.normal pl.
Let q := dot n n.
Let S := side alt pl (exact_vec x).
Definition foot : vec3 := vsub (exact_vec x) (vscale (S / q) n).

Lemma q_near : Rabs (q - 1) <= 16 * u /\ 0.99 <= q <= 1.01.
Proof. assert (K := NU). unfold nearly_unit in K. rewrite scale49 in K. change (dot (exact_vec (fnormal p)) (exact_vec (fnormal p))) with q in K. split; [exact K|]. assert (U := v_small). apply Rabs_le_inv in K. lra. Qed.
Lemma foot_nearest : nearest_on alt pl (exact_vec x) foot.
Proof.
  destruct q_near as [_ Q]. split.
  - unfold foot, S. rewrite !side_dsign. fold n. replace (dot n (vsub (exact_vec x) (vscale ((dot n (exact_vec x) - dsign alt (distance pl)) / q) n))) with (dot n (exact_vec x) - (dot n (exact_vec x) - dsign alt (distance pl)) / q * q) by (unfold q, dot, vsub, vscale; cbn [vx vy vz]; ring). field. lra.
  - intros y Y. rewrite side_dsign in Y. fold n in Y. replace (vsub (exact_vec x) foot) with (vscale (S / q) n) by (unfold foot, vsub, vscale; cbn [vx vy vz]; f_equal; ring).
    set (w := vsub (exact_vec x) y). assert (W : dot n w = S) by (unfold S; rewrite side_dsign; fold n; unfold w; replace (dsign alt (distance pl)) with (dot n y) by lra; unfold dot, vsub; cbn [vx vy vz]; ring).
    replace (dot (vscale (S / q) n) (vscale (S / q) n)) with (S * S / q) by (replace (dot (vscale (S / q) n) (vscale (S / q) n)) with (S / q * (S / q) * q) by (unfold q, dot, vscale; cbn [vx vy vz]; ring); field; lra).
    rewrite <- W. apply Rmult_le_reg_r with q; [lra|]. unfold Rdiv. rewrite Rmult_assoc, Rinv_l, Rmult_1_r by lra. unfold q. rewrite (Rmult_comm (dot w w)).
    assert (0 <= (vx n * vy w - vy n * vx w) ^ 2) by apply pow2_ge_0. assert (0 <= (vx n * vz w - vz n * vx w) ^ 2) by apply pow2_ge_0. assert (0 <= (vy n * vz w - vz n * vy w) ^ 2) by apply pow2_ge_0. unfold dot. lra.
Qed.
Lemma M_some : 0 < M.
Proof. assert (K := bpow_gt_0 radix2 (-900)). lra. Qed.
Lemma M_eta : eta <= / 1000000 * (u * M).
Proof.
  apply Rle_trans with (/ 1000000 * (u * bpow radix2 (-900))). 2: { apply Rmult_le_compat_l; [lra|]. apply Rmult_le_compat_l; [apply bpow_ge_0|lra]. }
  rewrite <- bpow_plus. apply Rmult_le_reg_l with 1000000; [lra|]. rewrite <- Rmult_assoc, Rinv_r, Rmult_1_l by lra. apply Rle_trans with (bpow radix2 20 * bpow radix2 (-1075)); [apply Rmult_le_compat_r; [apply bpow_ge_0|]|rewrite <- bpow_plus; apply bpow_le; lia].
  change (bpow radix2 20) with 1048576. lra.
Qed.
Lemma normal_size f c : coordinates f c -> Rabs (c n) <= 1.01.
Proof.
  intros K. destruct q_near as [_ Q]. apply Rabs_le. assert (0 <= vx n * vx n) by apply Rle_0_sqr. assert (0 <= vy n * vy n) by apply Rle_0_sqr. assert (0 <= vz n * vz n) by apply Rle_0_sqr.
  unfold q, dot in Q. destruct K as [[_ ->]|[[_ ->]|[_ ->]]]; split; nra.
Qed.
Lemma normal_sum : Rabs (vx n) + Rabs (vy n) + Rabs (vz n) <= 1.742.
Proof.
  destruct q_near as [_ Q]. unfold q, dot in Q. assert (E : forall a, a * a = Rabs a * Rabs a) by (intros a; rewrite <- Rabs_mult; symmetry; apply Rabs_pos_eq, Rle_0_sqr).
  rewrite (E (vx n)), (E (vy n)), (E (vz n)) in Q. assert (A := Rabs_pos (vx n)). assert (B := Rabs_pos (vy n)). assert (C := Rabs_pos (vz n)). set (a := Rabs (vx n)) in *. set (b := Rabs (vy n)) in *. set (c := Rabs (vz n)) in *. clearbody a b c.
  destruct (Rle_lt_dec (a + b + c) 1.742) as [H|H]; [exact H|exfalso]. assert (1.742 * 1.742 < (a + b + c) * (a + b + c)) by (apply Rmult_le_0_lt_compat; lra).
  assert (0 <= (a - b) * (a - b)) by apply Rle_0_sqr. assert (0 <= (a - c) * (a - c)) by apply Rle_0_sqr. assert (0 <= (b - c) * (b - c)) by apply Rle_0_sqr. lra.
Qed.
Lemma within_moderate v : point_within M v -> moderate_vec v.
Proof.
  intros (A & B & C). assert (K : bpow radix2 400 <= bpow radix2 500) by (apply bpow_le; lia). unfold moderate_vec, moderate. repeat split; try tauto; lra.
Qed.
Lemma distance_size : let d := fsgn_distance alt p x in is_finite d = true /\ Rabs (B2R d - S) <= 22 * (u * M) /\ Rabs S <= 2.742 * M.
Proof.
  assert (P : moderate_plane p). { assert (K1 : 2 <= bpow radix2 500) by (change 2 with (bpow radix2 1); apply bpow_le; lia). assert (K2 : bpow radix2 400 <= bpow radix2 500) by (apply bpow_le; lia). destruct HN as (A & B & C). unfold moderate_plane, moderate_vec, moderate. repeat split; try tauto; lra. }
  destruct (distance_error alt p x P (within_moderate x HX)) as [F E]. cbv zeta. split; [exact F|]. fold pl in E. fold S in E. unfold slack in E. rewrite scale50, eta_slack in E. fold n in E.
  assert (MP := M_some). assert (ME := M_eta). assert (U := v_small). assert (NS := normal_sum).
  assert (G : magnitude n (exact_vec x) (distance pl) <= 2.742 * M).
  { unfold magnitude. rewrite !Rabs_mult. destruct HX as ((_ & X1) & (_ & X2) & (_ & X3)).
    assert (Rabs (vx n) * Rabs (vx (exact_vec x)) <= Rabs (vx n) * M) by (apply Rmult_le_compat_l; [apply Rabs_pos|exact X1]). assert (Rabs (vy n) * Rabs (vy (exact_vec x)) <= Rabs (vy n) * M) by (apply Rmult_le_compat_l; [apply Rabs_pos|exact X2]). assert (Rabs (vz n) * Rabs (vz (exact_vec x)) <= Rabs (vz n) * M) by (apply Rmult_le_compat_l; [apply Rabs_pos|exact X3]).
    assert ((Rabs (vx n) + Rabs (vy n) + Rabs (vz n)) * M <= 1.742 * M) by (apply Rmult_le_compat_r; lra). change (Rabs (distance pl)) with (Rabs (B2R (fdistance p))). lra. }
  assert (G2 : u * magnitude n (exact_vec x) (distance pl) <= u * (2.742 * M)) by (apply Rmult_le_compat_l; lra). assert (UM : 0 <= u * M) by (apply Rmult_le_pos; lra).
  split; [apply Rabs_le; lra|]. apply Rle_trans with (2 := G). unfold S, magnitude. rewrite side_dsign. fold n. unfold dot. rewrite <- (dsign_abs alt (distance pl)). unfold Rminus. apply Rle_trans with (1 := Rabs_triang _ _). rewrite Rabs_Ropp. apply Rplus_le_compat_r. apply Rle_trans with (1 := Rabs_triang _ _). apply Rplus_le_compat_r. apply Rabs_triang.
Qed.
Lemma closest_coordinate f c : coordinates f c -> is_finite (f (fclosest_on_plane alt p x)) = true /\ Rabs (B2R (f (fclosest_on_plane alt p x)) - c foot) <= 80 * (u * M).
Proof.
  intros K. destruct distance_size as (Fd & Ed & BS). set (d := fsgn_distance alt p x) in *. replace (f (fclosest_on_plane alt p x)) with (b64_sub (f x) (b64_mul (f (fnormal p)) d)) by (destruct K as [[-> _]|[[-> _]|[-> _]]]; reflexivity).
  assert (NC := normal_size f c K). assert (EX : c n = B2R (f (fnormal p))) by (unfold n, pl; cbn [exact_plane Plane.normal]; now apply coordinates_exact).
  assert (FN : is_finite (f (fnormal p)) = true) by (destruct HN as ((? & _) & (? & _) & (? & _)), K as [[-> _]|[[-> _]|[-> _]]]; assumption).
  assert (XX : is_finite (f x) = true /\ Rabs (B2R (f x)) <= M) by (destruct HX as (? & ? & ?), K as [[-> _]|[[-> _]|[-> _]]]; assumption). destruct XX as [FX BX].
  assert (FC : c foot = B2R (f x) - S / q * B2R (f (fnormal p))) by (unfold foot; rewrite <- EX, <- (coordinates_exact f c x K); destruct K as [[_ ->]|[[_ ->]|[_ ->]]]; reflexivity). rewrite FC. clear FC.
  rewrite <- EX. set (k := c n) in *. assert (MP := M_some). assert (ME := M_eta). assert (U := v_small). assert (ET := bpow_gt_0 radix2 (-1075)). assert (UM : 0 <= u * M <= / 1000000 * M) by (split; [apply Rmult_le_pos; lra|apply Rmult_le_compat_r; lra]).
  assert (BD : Rabs (B2R d) <= 2.743 * M) by (apply Rabs_le_inv in Ed, BS; apply Rabs_le; lra).
  assert (BP : Rabs (k * B2R d) <= 2.771 * M). { rewrite Rabs_mult. apply Rle_trans with (1.01 * (2.743 * M)); [apply Rmult_le_compat; try apply Rabs_pos; assumption|lra]. }
  assert (TOP : 8 * M <= bpow radix2 403) by (change 403%Z with (3 + 400)%Z; rewrite bpow_plus; change (bpow radix2 3) with 8; lra).
  destruct (mul_fin (f (fnormal p)) d 403) as (Fm & Vm); [exact FN|exact Fd|lia|rewrite <- EX; fold k; lra|]. rewrite <- EX in Vm. fold k in Vm.
  assert (E1 := rnd_err _ _ BP). rewrite <- Vm in E1. set (m := B2R (b64_mul (f (fnormal p)) d)) in *.
  assert (BM : Rabs m <= 2.772 * M) by (apply Rabs_le_inv in E1, BP; apply Rabs_le; lra). assert (BB : Rabs (B2R (f x) - m) <= 3.772 * M) by (apply Rabs_le_inv in BM, BX; apply Rabs_le; lra).
  destruct (sub_fin (f x) (b64_mul (f (fnormal p)) d) 403) as (Fs & Vs); [exact FX|exact Fm|lia|fold m; lra|]. split; [exact Fs|]. fold m in Vs. assert (E2 := rnd_err _ _ BB). rewrite <- Vs in E2.
  destruct q_near as [Q1 Q2].
  assert (E3 : Rabs (k * (B2R d - S)) <= 22.22 * (u * M)). { rewrite Rabs_mult. apply Rle_trans with (1.01 * (22 * (u * M))); [apply Rmult_le_compat; try apply Rabs_pos; assumption|lra]. }
  assert (E4 : Rabs (k * S * ((q - 1) / q)) <= 45.3 * (u * M)).
  { rewrite !Rabs_mult. unfold Rdiv. rewrite Rabs_mult, (Rabs_pos_eq (/ q)) by (left; apply Rinv_0_lt_compat; lra). assert (IQ : / q <= 1.0102). { apply Rmult_le_reg_r with q; [lra|]. rewrite Rinv_l by lra. lra. }
    assert (I0 : 0 < / q) by (apply Rinv_0_lt_compat; lra). assert (Z1 : Rabs k * Rabs S <= 1.01 * (2.742 * M)) by (apply Rmult_le_compat; try apply Rabs_pos; assumption). assert (Z2 : Rabs (q - 1) * / q <= 16 * u * 1.0102) by (apply Rmult_le_compat; try lra; apply Rabs_pos).
    apply Rle_trans with (1.01 * (2.742 * M) * (16 * u * 1.0102)); [apply Rmult_le_compat; try assumption; apply Rmult_le_pos; try apply Rabs_pos; lra|]. lra. }
  assert (ID : k * S - S / q * k = k * S * ((q - 1) / q)) by (field; lra).
  apply Rabs_le_inv in E1, E2, E3, E4. apply Rabs_le. lra.
Qed.
Lemma closest_near : at_most_off (80 * unit_of M) (fclosest_on_plane alt p x) foot.
Proof. split; [|split]; apply closest_coordinate; [left|right; left|right; right]; auto. Qed.
End Closest.
