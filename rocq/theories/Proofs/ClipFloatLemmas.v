(** Rounding errors of cutting a triangle. *)
From Coq Require Import ZArith Reals List Bool Lia Lra.
From Flocq Require Import Core IEEE754.BinarySingleNaN.
From Flocq Require Import Relative Plus_error.
From Verif Require Import Model.Scalar Model.BoxFloat Model.Vec Model.Plane Model.PlaneFloat Model.ClipFloat Spec.PlaneSpec Spec.FloatSpec Spec.InterpSpec Spec.ClipFloatSpec
  Proofs.PlaneLemmas Proofs.PlaneFloatLemmas Proofs.SplineFloat Proofs.BoxRayFloatLemmas.
From Verif Require Model.Clip.
Import ListNotations.
Local Open Scope R_scope.

Lemma u_small : 0 < u <= / 1000.
Proof.
  split; [apply bpow_gt_0|]. apply Rle_trans with (bpow radix2 (-10)); [apply bpow_le; lia|]. change (bpow radix2 (-10)) with (/ 1024). lra.
Qed.
Lemma sub_relative (x y : b64) : tame x -> tame y -> is_finite (b64_sub x y) = true /\ Rabs (B2R (b64_sub x y) - (B2R x - B2R y)) <= u * Rabs (B2R x - B2R y) /\ moderate (b64_sub x y).
Proof.
  intros [Fx Bx] [Fy By].
  assert (S : Rabs (B2R x - B2R y) <= bpow radix2 500).
  { assert (Q : bpow radix2 500 = 2 * bpow radix2 499) by exact (double_pow 499). rewrite Q. unfold Rminus. apply Rle_trans with (1 := Rabs_triang _ _). rewrite Rabs_Ropp. lra. }
  destruct (sub_fin x y 500 Fx Fy ltac:(lia) S) as [F V]. split; [exact F|]. split.
  - rewrite V. destruct (@FLT_plus_error_N_ex radix2 (3 - 1024 - 53) 53 b64_prec_gt_0 (fun x => negb (Z.even x)) (B2R x) (- B2R y) (generic_format_B2R 53 1024 x) (generic_format_opp _ _ _ (generic_format_B2R 53 1024 y))) as (e & E & R).
    change (B2R x + - B2R y) with (B2R x - B2R y) in R. change (round radix2 (FLT_exp (3 - 1024 - 53) 53) (Znearest (fun x => negb (Z.even x))) (B2R x - B2R y)) with (rnd (B2R x - B2R y)) in R. rewrite R.
    replace ((B2R x - B2R y) * (1 + e) - (B2R x - B2R y)) with (e * (B2R x - B2R y)) by ring. rewrite Rabs_mult. apply Rmult_le_compat_r; [apply Rabs_pos|].
    apply Rle_trans with (1 := E). assert (U : u_ro radix2 53 = u). { unfold u_ro. change (- (53) + 1)%Z with (1 + -53)%Z. rewrite bpow_plus. change (bpow radix2 1) with 2. field. }
    rewrite U. pose proof u_small as P. apply Rmult_le_reg_r with (1 + u); [lra|]. unfold Rdiv. rewrite Rmult_assoc, Rinv_l by lra. nra.
  - split; [exact F|]. rewrite V. apply rnd_bound; [lia|exact S].
Qed.

(** Quotients *)
Lemma one_value : B2R b64_1 = 1 /\ is_finite b64_1 = true.
Proof. destruct (b64_int 1 ltac:(lia)) as [V F]. split; assumption. Qed.
Lemma unit_infinite s : in_unit (B754_infinity s) = false.
Proof. unfold in_unit. destruct one_value as [_ F]. destruct s; [reflexivity|]. apply andb_false_intro2. revert F. generalize b64_1. intros x F. destruct x as [sg|sg| |sg m e H]; try discriminate; destruct sg; reflexivity. Qed.
Lemma unit_finite (t : b64) : is_finite t = true -> in_unit t = true <-> 0 <= B2R t <= 1.
Proof.
  intros F. destruct one_value as [V1 F1]. unfold in_unit. rewrite andb_true_iff, !Bleb_correct by (exact F || exact F1 || reflexivity). rewrite V1. change (B2R b64_0) with 0.
  split; [intros [H K]|intros [H K]].
  - split; [destruct (Rle_bool_spec 0 (B2R t)); [assumption|discriminate]|destruct (Rle_bool_spec (B2R t) 1); [assumption|discriminate]].
  - split; apply Rle_bool_true; assumption.
Qed.
Lemma div_cases (x y : b64) : is_finite x = true -> B2R x <> 0 -> is_finite y = true ->
  in_unit (b64_div x y) = false \/ B2R y <> 0 /\ is_finite (b64_div x y) = true /\ B2R (b64_div x y) = rnd (B2R x / B2R y).
Proof.
  intros Fx Nx Fy. destruct (Req_dec (B2R y) 0) as [Z|Z].
  - left. assert (exists s, b64_div x y = B754_infinity s) as [s ->]; [|apply unit_infinite].
    destruct y as [sy| | |sy my ey Hy]; try discriminate.
    + destruct x as [sx| | |sx mx ex Hx]; try discriminate; [exfalso; apply Nx; reflexivity|]. exists (xorb sx sy). reflexivity.
    + exfalso. cbn in Z. apply eq_0_F2R in Z. destruct sy; discriminate Z.
  - assert (C := Bdiv_correct 53 1024 b64_prec_gt_0 b64_prec_lt_emax mode_NE x y Z). fold (b64_div x y) in C. change (SpecFloat.fexp 53 1024) with f64 in C. cbn [round_mode] in C.
    destruct (Rlt_bool _ _).
    + right. destruct C as (V & F & _). rewrite Fx in F. auto.
    + left. cbn in C. destruct (b64_div x y) as [ |s| | ]; try discriminate C. apply unit_infinite.
Qed.
Lemma rnd_at_most x v : generic_format radix2 f64 v -> x <= v -> rnd x <= v.
Proof. intros. apply round_le_generic; auto with typeclass_instances. Qed.
Lemma rnd_at_least x v : generic_format radix2 f64 v -> v <= x -> v <= rnd x.
Proof. intros. apply round_ge_generic; auto with typeclass_instances. Qed.
Lemma format_1 : generic_format radix2 f64 1.
Proof. change 1 with (bpow radix2 0). apply generic_format_FLT_bpow; [reflexivity|lia]. Qed.
Lemma format_next : generic_format radix2 f64 (1 + 2 * u).
Proof.
  apply generic_format_FLT. exists (Float radix2 (2 ^ 52 + 1) (-52)).
  - unfold F2R. cbn [Fnum Fexp]. rewrite plus_IZR. replace (IZR (2 ^ 52)) with (bpow radix2 52) by reflexivity. rewrite Rmult_plus_distr_r, <- bpow_plus, Rmult_1_l.
    change (52 + -52)%Z with 0%Z. change (bpow radix2 0) with 1. f_equal. change (-52)%Z with (1 + -53)%Z. rewrite bpow_plus. reflexivity.
  - cbn. lia.
  - cbn. lia.
Qed.
Lemma format_minus_u : generic_format radix2 f64 (- u).
Proof. apply generic_format_opp, generic_format_FLT_bpow; [reflexivity|lia]. Qed.

(** No crossing is found between corners on the same side. *)
Lemma quotient_outside (v eta' Ma Mb eps x Da Db xb y : R) : 0 < v <= / 1000 -> 0 < eta' -> 0 <= Ma -> 0 <= Mb ->
  Rabs Da <= Ma -> Rabs Db <= Mb -> Rabs (x - Da) <= 8 * v * Ma + 32 * eta' -> Rabs (xb - Db) <= 8 * v * Mb + 32 * eta' ->
  Rabs (y - (Db - Da)) <= 8 * v * (Ma + Mb) + 32 * eta' -> 64 * v * (Ma + Mb) + 512 * eta' <= eps -> eps < x -> eps < xb -> y <> 0 -> - x / y <= - v \/ 1 + 2 * v <= - x / y.
Proof.
  intros U ET PA PB BA BB EX EB EY W HX HB NZ. apply Rabs_le_inv in BA, BB, EX, EB, EY.
  assert (VA : 0 <= v * Ma) by (apply Rmult_le_pos; lra). assert (VB : 0 <= v * Mb) by (apply Rmult_le_pos; lra).
  assert (VA' : v * Ma <= / 1000 * Ma) by (apply Rmult_le_compat_r; lra). assert (VB' : v * Mb <= / 1000 * Mb) by (apply Rmult_le_compat_r; lra).
  assert (VE : v * eta' <= / 1000 * eta') by (apply Rmult_le_compat_r; lra).
  assert (YU : - (2 * (Ma + Mb) + 32 * eta') <= y <= 2 * (Ma + Mb) + 32 * eta') by (split; lra).
  destruct (Rdichotomy _ _ NZ) as [N|N].
  - right. apply Rmult_le_reg_r with (- y); [lra|]. replace (- x / y * - y) with x by (field; exact NZ).
    assert (v * - y <= v * (2 * (Ma + Mb) + 32 * eta')) by (apply Rmult_le_compat_l; lra). nra.
  - left. apply Rmult_le_reg_r with y; [lra|]. replace (- x / y * y) with (- x) by (field; exact NZ).
    assert (v * y <= v * (2 * (Ma + Mb) + 32 * eta')) by (apply Rmult_le_compat_l; lra). nra.
Qed.
(** A crossing is found between corners on different sides, and it is near to the plane. *)
Lemma quotient_inside (v eta' Ma Mb eps x Da Db xb y : R) : 0 < v <= / 1000 -> 0 < eta' -> 0 <= Ma -> 0 <= Mb ->
  Rabs Da <= Ma -> Rabs Db <= Mb -> Rabs (x - Da) <= 8 * v * Ma + 32 * eta' -> Rabs (xb - Db) <= 8 * v * Mb + 32 * eta' ->
  Rabs (y - (Db - Da)) <= 8 * v * (Ma + Mb) + 32 * eta' -> 64 * v * (Ma + Mb) + 512 * eta' <= eps -> eps < x -> xb < - eps ->
  y < 0 /\ 0 < - x / y < 1 /\ forall t s, Rabs (t - - x / y) <= v + eta' -> Rabs (s - (1 - t)) <= v -> eta' <= v ->
    Rabs (Da + t * (Db - Da)) <= 32 * v * (Ma + Mb) + 128 * eta'.
Proof.
  intros U ET PA PB BA BB EX EB EY W HX HB. apply Rabs_le_inv in BA, BB, EX, EB, EY.
  assert (VA : 0 <= v * Ma) by (apply Rmult_le_pos; lra). assert (VB : 0 <= v * Mb) by (apply Rmult_le_pos; lra).
  assert (Y : y < - x) by lra. assert (Y0 : y < 0) by lra. set (q := - x / y). assert (QY : q * y = - x) by (unfold q; field; lra).
  split; [exact Y0|]. assert (Q : 0 < q < 1).
  { unfold q. split; [apply Rmult_lt_reg_r with (- y); [lra|]|apply Rmult_lt_reg_r with (- y); [lra|]]; replace (- x / y * - y) with x by (field; lra); lra. }
  split; [exact Q|]. intros t s T _ EV. apply Rabs_le_inv in T.
  set (e2 := y - (Db - Da)) in *. replace (Da + t * (Db - Da)) with ((Da - x) + - (q * e2) + (t - q) * (Db - Da)).
  2:{ replace (Db - Da) with (y - e2) by (unfold e2; ring). replace (Da - x + - (q * e2) + (t - q) * (y - e2)) with (Da - x - q * y + t * (y - e2)) by ring. rewrite QY. ring. }
  assert (Q2 : Rabs (q * e2) <= 8 * v * (Ma + Mb) + 32 * eta').
  { rewrite Rabs_mult. rewrite (Rabs_right q) by lra. apply Rle_trans with (1 * Rabs e2); [apply Rmult_le_compat_r; [apply Rabs_pos|lra]|]. rewrite Rmult_1_l. apply Rabs_le. exact EY. }
  assert (Q3 : Rabs ((t - q) * (Db - Da)) <= 2 * v * (Ma + Mb)).
  { rewrite Rabs_mult. apply Rmult_le_compat; try apply Rabs_pos; apply Rabs_le; split; lra. }
  apply Rabs_le_inv in Q2, Q3. apply Rabs_le. split; lra.
Qed.

Section Edge.
Variables (alt : bool) (p : fplane) (a b : fvec).
Hypothesis (P : moderate_plane p) (A : tame_vec a) (B : tame_vec b).
Let pl := exact_plane p.
Let Da := side alt pl (exact_vec a).
Let Db := side alt pl (exact_vec b).
Let Ma := magnitude (Plane.normal pl) (exact_vec a) (distance pl).
Let Mb := magnitude (Plane.normal pl) (exact_vec b) (distance pl).
Let xa := fsgn_distance alt p a.
Let xb := fsgn_distance alt p b.
Let y := fdot (fnormal p) (fvsub b a).

Lemma tame_moderate x : tame x -> moderate x.
Proof. intros [F H]. split; [exact F|]. apply Rle_trans with (1 := H). apply bpow_le. lia. Qed.
Lemma tame_moderate_vec v : tame_vec v -> moderate_vec v.
Proof. intros (X & Y & Z). repeat split; apply tame_moderate; assumption. Qed.
Lemma scale47 : bpow radix2 (-47) = 64 * u.
Proof. change (-47)%Z with (6 + -53)%Z. rewrite bpow_plus. reflexivity. Qed.
Lemma scale50 : bpow radix2 (-50) = 8 * u.
Proof. change (-50)%Z with (3 + -53)%Z. rewrite bpow_plus. reflexivity. Qed.
Lemma scale1066 : bpow radix2 (-1066) = 512 * eta.
Proof. change (-1066)%Z with (9 + -1075)%Z. rewrite bpow_plus. reflexivity. Qed.
Lemma mag_bounds : Rabs Da <= Ma /\ Rabs Db <= Mb.
Proof.
  unfold Da, Db, Ma, Mb. rewrite !side_dsign. unfold magnitude, dot. split;
    (unfold Rminus; apply Rle_trans with (1 := Rabs_triang _ _); rewrite Rabs_Ropp, dsign_abs; apply Rplus_le_compat_r;
     apply Rle_trans with (1 := Rabs_triang _ _); apply Rplus_le_compat_r; apply Rabs_triang).
Qed.
Lemma distances : is_finite xa = true /\ is_finite xb = true /\ Rabs (B2R xa - Da) <= 8 * u * Ma + 32 * eta /\ Rabs (B2R xb - Db) <= 8 * u * Mb + 32 * eta.
Proof.
  destruct (distance_error alt p a P (tame_moderate_vec _ A)) as [F1 E1]. destruct (distance_error alt p b P (tame_moderate_vec _ B)) as [F2 E2].
  split; [exact F1|]. split; [exact F2|]. unfold slack in E1, E2. rewrite eta_slack, scale50 in E1, E2. split; apply Rabs_le; assumption.
Qed.
Lemma term_error n x y' (d : b64) : tame x -> tame y' -> d = b64_sub x y' -> Rabs (n * B2R d - (n * B2R x - n * B2R y')) <= u * (Rabs (n * B2R x) + Rabs (n * B2R y')).
Proof.
  intros X Y ->. destruct (sub_relative x y' X Y) as (_ & E & _). replace (n * B2R (b64_sub x y') - (n * B2R x - n * B2R y')) with (n * (B2R (b64_sub x y') - (B2R x - B2R y'))) by ring.
  rewrite Rabs_mult. apply Rle_trans with (Rabs n * (u * Rabs (B2R x - B2R y'))); [apply Rmult_le_compat_l; [apply Rabs_pos|exact E]|].
  replace (Rabs n * (u * Rabs (B2R x - B2R y'))) with (u * Rabs (n * (B2R x - B2R y'))) by (rewrite Rabs_mult; ring). apply Rmult_le_compat_l; [apply bpow_ge_0|].
  replace (n * (B2R x - B2R y')) with (n * B2R x + - (n * B2R y')) by ring. apply Rle_trans with (1 := Rabs_triang _ _). rewrite Rabs_Ropp. lra.
Qed.
Lemma divisor : is_finite y = true /\ Rabs (B2R y - (Db - Da)) <= 8 * u * (Ma + Mb) + 32 * eta.
Proof.
  destruct A as (A1 & A2 & A3), B as (B1 & B2 & B3), P as [N D].
  destruct (sub_relative _ _ B1 A1) as (_ & _ & S1). destruct (sub_relative _ _ B2 A2) as (_ & _ & S2). destruct (sub_relative _ _ B3 A3) as (_ & _ & S3).
  destruct (dot_error (fnormal p) (fvsub b a) N (conj S1 (conj S2 S3))) as (F & _ & e & E & H). fold y in F, H. split; [exact F|].
  assert (DD : Db - Da = dot (exact_vec (fnormal p)) (exact_vec b) - dot (exact_vec (fnormal p)) (exact_vec a)) by (unfold Da, Db; rewrite !side_dsign; unfold pl, exact_plane; cbn [Plane.normal]; ring).
  rewrite DD. unfold Ma, Mb, magnitude, pl, exact_plane. cbn [Plane.normal distance]. unfold dot, exact_vec in *. cbn [vx vy vz fvsub fx fy fz] in *.
  pose proof (term_error (B2R (fx (fnormal p))) _ _ _ B1 A1 eq_refl) as T1. pose proof (term_error (B2R (fy (fnormal p))) _ _ _ B2 A2 eq_refl) as T2. pose proof (term_error (B2R (fz (fnormal p))) _ _ _ B3 A3 eq_refl) as T3.
  set (d1 := b64_sub (fx b) (fx a)) in *. set (d2 := b64_sub (fy b) (fy a)) in *. set (d3 := b64_sub (fz b) (fz a)) in *.
  pose proof (Rabs_pos (B2R (fdistance p))) as DP. pose proof u_small as U. pose proof (bpow_gt_0 radix2 (-1075)) as ET.
  assert (G : forall t x y' : R, Rabs (t - (x - y')) <= u * (Rabs x + Rabs y') -> Rabs t <= (1 + u) * (Rabs x + Rabs y')).
  { intros t x y' Q. replace t with ((t - (x - y')) + (x + - y')) by ring. apply Rle_trans with (1 := Rabs_triang _ _). pose proof (Rabs_triang x (- y')) as R. rewrite Rabs_Ropp in R. lra. }
  pose proof (G _ _ _ T1) as G1. pose proof (G _ _ _ T2) as G2. pose proof (G _ _ _ T3) as G3. clear G.
  apply Rabs_le_inv in T1, T2, T3. apply Rabs_le.
  set (q1 := B2R (fx (fnormal p)) * B2R d1) in *. set (q2 := B2R (fy (fnormal p)) * B2R d2) in *. set (q3 := B2R (fz (fnormal p)) * B2R d3) in *.
  set (b1 := Rabs (B2R (fx (fnormal p)) * B2R (fx b))) in *. set (b2 := Rabs (B2R (fy (fnormal p)) * B2R (fy b))) in *. set (b3 := Rabs (B2R (fz (fnormal p)) * B2R (fz b))) in *.
  set (a1 := Rabs (B2R (fx (fnormal p)) * B2R (fx a))) in *. set (a2 := Rabs (B2R (fy (fnormal p)) * B2R (fy a))) in *. set (a3 := Rabs (B2R (fz (fnormal p)) * B2R (fz a))) in *.
  assert (0 <= b1) by apply Rabs_pos. assert (0 <= b2) by apply Rabs_pos. assert (0 <= b3) by apply Rabs_pos.
  assert (0 <= a1) by apply Rabs_pos. assert (0 <= a2) by apply Rabs_pos. assert (0 <= a3) by apply Rabs_pos.
  set (M := a1 + a2 + a3 + b1 + b2 + b3). assert (MP : 0 <= M) by (unfold M; lra).
  assert (Q : Rabs q1 + Rabs q2 + Rabs q3 <= (1 + u) * M) by (unfold M; lra).
  assert (E' : e <= 6 * eta + u * (3 + / 4) * ((1 + u) * M)).
  { apply Rle_trans with (1 := proj2 E). apply Rplus_le_compat_l. apply Rmult_le_compat_l; [lra|exact Q]. }
  assert (E2 : u * (3 + / 4) * ((1 + u) * M) <= 4 * (u * M)). { replace (u * (3 + / 4) * ((1 + u) * M)) with ((3 + / 4) * (1 + u) * (u * M)) by ring. apply Rmult_le_compat_r; [apply Rmult_le_pos; lra|lra]. }
  assert (UM : 0 <= u * M) by (apply Rmult_le_pos; lra).
  assert (UD : 0 <= u * Rabs (B2R (fdistance p))) by (apply Rmult_le_pos; lra).
  replace (8 * u * (a1 + a2 + a3 + Rabs (B2R (fdistance p)) + (b1 + b2 + b3 + Rabs (B2R (fdistance p))))) with (8 * (u * M) + 16 * (u * Rabs (B2R (fdistance p)))) by (unfold M; ring).
  assert (TM : u * (b1 + a1) + u * (b2 + a2) + u * (b3 + a3) = u * M) by (unfold M; ring).
  split; lra.
Qed.

Let W := edge_slack pl (exact_vec a) (exact_vec b).
Lemma W_value : W = 64 * u * (Ma + Mb) + 512 * eta.
Proof. unfold W, edge_slack. rewrite scale47, scale1066. reflexivity. Qed.
Lemma M_pos : 0 <= Ma /\ 0 <= Mb.
Proof. destruct mag_bounds as [H K]. pose proof (Rabs_pos Da). pose proof (Rabs_pos Db). lra. Qed.
Variable eps : R.
Hypothesis HW : W <= eps.

Lemma opp_value (x : b64) : is_finite (Bopp x) = is_finite x /\ B2R (Bopp x) = - B2R x.
Proof. split; [apply is_finite_Bopp|apply B2R_Bopp]. Qed.

Lemma same_side (s : R) : s = 1 \/ s = -1 -> eps < s * B2R xa -> eps < s * B2R xb -> in_unit (fplane_interp alt p a (fvsub b a)) = false.
Proof.
  intros S XA XB. destruct distances as (Fa & Fb & Ea & Eb). destruct divisor as (Fy & Ey). destruct mag_bounds as [Ba Bb]. destruct M_pos as [PA PB]. rewrite W_value in HW.
  pose proof u_small as U. pose proof (bpow_gt_0 radix2 (-1075)) as ET. unfold fplane_interp. fold xa y. destruct (opp_value xa) as [Fo Vo].
  assert (E0 : 0 < eps). { apply Rlt_le_trans with (2 := HW). assert (0 <= 64 * u * (Ma + Mb)) by (apply Rmult_le_pos; lra). lra. }
  assert (NX : B2R xa <> 0) by (intros Z; rewrite Z, Rmult_0_r in XA; lra).
  destruct (div_cases (Bopp xa) y) as [C|(NY & F & V)]; [rewrite Fo; exact Fa|rewrite Vo; lra|exact Fy|exact C|].
  destruct (in_unit (b64_div (Bopp xa) y)) eqn:Q; [|reflexivity]. exfalso. apply (unit_finite _ F) in Q. rewrite V, Vo in Q.
  assert (AS : forall r, Rabs (s * r) = Rabs r) by (intros r; rewrite Rabs_mult; destruct S as [-> | ->]; [rewrite Rabs_R1|rewrite Rabs_left by lra]; ring).
  assert (SY : s * B2R y <> 0) by (destruct S as [-> | ->]; lra).
  destruct (quotient_outside u eta Ma Mb eps (s * B2R xa) (s * Da) (s * Db) (s * B2R xb) (s * B2R y)) as [L|L]; try assumption.
  - rewrite AS. exact Ba.
  - rewrite AS. exact Bb.
  - replace (s * B2R xa - s * Da) with (s * (B2R xa - Da)) by ring. rewrite AS. exact Ea.
  - replace (s * B2R xb - s * Db) with (s * (B2R xb - Db)) by ring. rewrite AS. exact Eb.
  - replace (s * B2R y - (s * Db - s * Da)) with (s * (B2R y - (Db - Da))) by ring. rewrite AS. exact Ey.
  - replace (- (s * B2R xa) / (s * B2R y)) with (- B2R xa / B2R y) in L by (destruct S as [-> | ->]; field; exact NY). pose proof (rnd_at_most _ _ format_minus_u L). lra.
  - replace (- (s * B2R xa) / (s * B2R y)) with (- B2R xa / B2R y) in L by (destruct S as [-> | ->]; field; exact NY). pose proof (rnd_at_least _ _ format_next L). lra.
Qed.

Lemma other_side (s : R) : s = 1 \/ s = -1 -> eps < s * B2R xa -> s * B2R xb < - eps ->
  let t := fplane_interp alt p a (fvsub b a) in
  in_unit t = true /\ is_finite t = true /\ 0 <= B2R t <= 1 /\ Rabs (Da + B2R t * (Db - Da)) <= 32 * u * (Ma + Mb) + 128 * eta.
Proof.
  intros S XA XB. destruct distances as (Fa & Fb & Ea & Eb). destruct divisor as (Fy & Ey). destruct mag_bounds as [Ba Bb]. destruct M_pos as [PA PB]. rewrite W_value in HW.
  pose proof u_small as U. pose proof (bpow_gt_0 radix2 (-1075)) as ET. unfold fplane_interp. fold xa y. destruct (opp_value xa) as [Fo Vo].
  assert (E0 : 0 < eps). { apply Rlt_le_trans with (2 := HW). assert (0 <= 64 * u * (Ma + Mb)) by (apply Rmult_le_pos; lra). lra. }
  assert (AS : forall r, Rabs (s * r) = Rabs r) by (intros r; rewrite Rabs_mult; destruct S as [-> | ->]; [rewrite Rabs_R1|rewrite Rabs_left by lra]; ring).
  destruct (quotient_inside u eta Ma Mb eps (s * B2R xa) (s * Da) (s * Db) (s * B2R xb) (s * B2R y)) as (Y0 & Q & R); try assumption.
  - rewrite AS. exact Ba.
  - rewrite AS. exact Bb.
  - replace (s * B2R xa - s * Da) with (s * (B2R xa - Da)) by ring. rewrite AS. exact Ea.
  - replace (s * B2R xb - s * Db) with (s * (B2R xb - Db)) by ring. rewrite AS. exact Eb.
  - replace (s * B2R y - (s * Db - s * Da)) with (s * (B2R y - (Db - Da))) by ring. rewrite AS. exact Ey.
  - assert (NY : B2R y <> 0) by (intros Z; rewrite Z, Rmult_0_r in Y0; lra).
    assert (QE : - (s * B2R xa) / (s * B2R y) = - B2R xa / B2R y) by (destruct S as [-> | ->]; field; exact NY). rewrite QE in Q, R.
    destruct (div_fin (Bopp xa) y 0) as [F V]; [rewrite Fo; exact Fa|exact NY|lia|rewrite Vo; change (bpow radix2 0) with 1; rewrite Rabs_right; lra|]. rewrite Vo in V. set (q := - B2R xa / B2R y) in *.
    assert (TB : 0 <= B2R (b64_div (Bopp xa) y) <= 1).
    { rewrite V. split; [apply rnd_at_least; [apply generic_format_0|lra]|apply rnd_at_most; [apply format_1|lra]]. }
    cbv zeta. split; [now apply unit_finite|]. split; [exact F|]. split; [exact TB|].
    pose proof (rnd_error q 1 ltac:(rewrite Rabs_right; lra)) as RE.
    specialize (R (B2R (b64_div (Bopp xa) y)) (1 - B2R (b64_div (Bopp xa) y))). rewrite <- AS. 
    replace (s * (Da + B2R (b64_div (Bopp xa) y) * (Db - Da))) with (s * Da + B2R (b64_div (Bopp xa) y) * (s * Db - s * Da)) by ring. apply R.
    + rewrite V. apply Rabs_le. lra.
    + rewrite Rminus_diag_eq, Rabs_R0 by reflexivity. lra.
    + apply bpow_le. lia.
Qed.
End Edge.

Lemma clear_relation alt p x eps : moderate_plane p -> tame_vec x -> is_finite eps = true -> 0 <= B2R eps -> clear_of alt (exact_plane p) (B2R eps) (exact_vec x) ->
  frelation_point alt p x eps = (if in_front_of alt (exact_plane p) (exact_vec x) then InFrontOf else Behind) /\
  B2R eps < (if in_front_of alt (exact_plane p) (exact_vec x) then 1 else -1) * B2R (fsgn_distance alt p x).
Proof.
  intros P X F E C. destruct (distance_error alt p x P (tame_moderate_vec _ X)) as [Fd Ed]. unfold clear_of in C. unfold frelation_point, in_front_of.
  set (d := fsgn_distance alt p x) in *. set (k := slack (exact_plane p) (exact_vec x)) in *. set (s := side alt (exact_plane p) (exact_vec x)) in *.
  assert (FO : is_finite (Bopp eps) = true) by now rewrite is_finite_Bopp. destruct (Rlt_dec 0 s) as [L|L].
  - rewrite Rabs_right in C by lra. assert (Q : B2R eps < B2R d) by lra. split; [|lra]. rewrite (proj2 (blt eps d F Fd)) by exact Q. reflexivity.
  - rewrite Rabs_left1 in C by lra. assert (Q : B2R d < - B2R eps) by lra. split; [|lra]. rewrite (proj2 (blt_false eps d F Fd)) by lra.
    rewrite (proj2 (blt d (Bopp eps) Fd FO)) by (rewrite B2R_Bopp; exact Q). reflexivity.
Qed.

Lemma tame_unit (t : b64) : is_finite t = true -> 0 <= B2R t <= 1 -> tame t.
Proof.
  intros F H. split; [exact F|]. rewrite Rabs_right by lra. apply Rle_trans with 1; [lra|]. change 1 with (bpow radix2 0). apply bpow_le. lia.
Qed.
(** The other weight *)
Lemma rest_weight (t : b64) : is_finite t = true -> 0 <= B2R t <= 1 -> 0 <= B2R (b64_sub b64_1 t) <= 1 /\ Rabs (B2R (b64_sub b64_1 t) + B2R t - 1) <= u.
Proof.
  intros F H. destruct one_value as [V1 F1]. pose proof (tame_unit t F H) as T.
  assert (T1 : tame b64_1) by (apply tame_unit; [exact F1|rewrite V1; lra]).
  destruct (sub_relative b64_1 t T1 T) as (_ & E & _). rewrite V1 in E. split.
  - destruct (sub_fin b64_1 t 0 F1 F ltac:(lia)) as [_ ->]; rewrite V1; [change (bpow radix2 0) with 1; rewrite Rabs_right; lra|].
    split; [apply rnd_at_least; [apply generic_format_0|lra]|apply rnd_at_most; [apply format_1|lra]].
  - replace (B2R (b64_sub b64_1 t) + B2R t - 1) with (B2R (b64_sub b64_1 t) - (1 - B2R t)) by ring. apply Rle_trans with (1 := E). rewrite Rabs_right by lra.
    pose proof u_small. nra.
Qed.

(** Both edges of a change of sides *)
Lemma crossing alt p a b eps (s : R) : moderate_plane p -> tame_vec a -> tame_vec b -> edge_slack (exact_plane p) (exact_vec a) (exact_vec b) <= eps ->
  s = 1 \/ s = -1 -> eps < s * B2R (fsgn_distance alt p a) -> s * B2R (fsgn_distance alt p b) < - eps ->
  let t := fplane_interp alt p a (fvsub b a) in
  in_unit t = true /\ 0 <= B2R (b64_sub b64_1 t) <= 1 /\ 0 <= B2R t <= 1 /\ Rabs (B2R (b64_sub b64_1 t) + B2R t - 1) <= bpow radix2 (-53) /\
  Rabs (side alt (exact_plane p) (vadd (vscale (B2R (b64_sub b64_1 t)) (exact_vec a)) (vscale (B2R t) (exact_vec b)))) <=
    33 * u * (magnitude (Plane.normal (exact_plane p)) (exact_vec a) (distance (exact_plane p)) + magnitude (Plane.normal (exact_plane p)) (exact_vec b) (distance (exact_plane p))) + 128 * eta.
Proof.
  intros P A B HW S XA XB. destruct (other_side alt p a b P A B eps HW s S XA XB) as (I & F & T & R). cbv zeta. set (t := fplane_interp alt p a (fvsub b a)) in *.
  destruct (rest_weight t F T) as [W1 W2]. split; [exact I|]. split; [exact W1|]. split; [exact T|]. split; [exact W2|].
  destruct (mag_bounds alt p a b) as [MA MB]. destruct (M_pos alt p a b) as [PA PB].
  set (pl := exact_plane p) in *. set (Ma := magnitude (Plane.normal pl) (exact_vec a) (distance pl)) in *. set (Mb := magnitude (Plane.normal pl) (exact_vec b) (distance pl)) in *.
  set (w := B2R (b64_sub b64_1 t)) in *. set (r := B2R t) in *.
  assert (ND : Rabs (dot (Plane.normal pl) (exact_vec a)) <= Ma).
  { unfold Ma, magnitude, dot. pose proof (Rabs_pos (distance pl)). apply Rle_trans with (1 := Rabs_triang _ _).
    pose proof (Rabs_triang (vx (Plane.normal pl) * vx (exact_vec a)) (vy (Plane.normal pl) * vy (exact_vec a))). lra. }
  replace (side alt pl (vadd (vscale w (exact_vec a)) (vscale r (exact_vec b)))) with
    (side alt pl (exact_vec a) + r * (side alt pl (exact_vec b) - side alt pl (exact_vec a)) + (w + r - 1) * dot (Plane.normal pl) (exact_vec a))
    by (rewrite !side_dsign; unfold dot, vadd, vscale; cbn [vx vy vz]; ring).
  apply Rle_trans with (1 := Rabs_triang _ _). rewrite Rabs_mult.
  assert (Q : Rabs (w + r - 1) * Rabs (dot (Plane.normal pl) (exact_vec a)) <= u * Ma) by (apply Rmult_le_compat; auto using Rabs_pos).
  pose proof u_small as U. pose proof (bpow_gt_0 radix2 (-1075)). assert (0 <= u * Ma) by (apply Rmult_le_pos; lra). assert (0 <= u * Mb) by (apply Rmult_le_pos; lra). lra.
Qed.

Definition crossing_of (alt : bool) (p : fplane) (a b c : fvec) (i : nat) : fvec :=
  fedge i (fplane_interp alt p (corner a b c i) (fvsub (corner a b c (S i)) (corner a b c i))).
Lemma edge_slack_pos p a b : 0 <= edge_slack p a b.
Proof.
  unfold edge_slack, magnitude. pose proof (bpow_ge_0 radix2 (-1066)). apply Rplus_le_le_0_compat; [|assumption].
  apply Rmult_le_pos; [apply bpow_ge_0|]. repeat apply Rplus_le_le_0_compat; apply Rabs_pos.
Qed.

Lemma unit_is_finite (t : b64) : in_unit t = true -> is_finite t = true.
Proof. destruct t as [sg|sg| |sg m e B]; intros X; try reflexivity; exfalso; [rewrite unit_infinite in X|unfold in_unit in X]; discriminate. Qed.
Lemma scale1072 : bpow radix2 (-1072) = 8 * eta.
Proof. change (-1072)%Z with (3 + -1075)%Z. rewrite bpow_plus. reflexivity. Qed.
(** Blending coordinates *)
Lemma blend_error w (a b c : b64) : moderate_vec w -> moderate a -> moderate b -> moderate c -> is_finite (fblend w a b c) = true /\
  Rabs (B2R (fblend w a b c) - (B2R (fx w) * B2R a + B2R (fy w) * B2R b + B2R (fz w) * B2R c)) <=
  6 * eta + (3 + / 4) * u * (Rabs (B2R a * B2R (fx w)) + Rabs (B2R b * B2R (fy w)) + Rabs (B2R c * B2R (fz w))).
Proof.
  intros W A B C. assert (M : moderate_vec (FV a b c)) by (split; [exact A|split; [exact B|exact C]]).
  destruct (dot_error (FV a b c) w M W) as (F & _ & e & E1 & E2). split; [exact F|].
  change (fblend w a b c) with (fdot (FV a b c) w). unfold dot, exact_vec in E2. cbn [fx fy fz vx vy vz] in E1, E2. apply Rabs_le. lra.
Qed.
(** Corners stay where they are. *)
Lemma format_b64 (x : b64) : rnd (B2R x) = B2R x.
Proof. apply round_generic; [auto with typeclass_instances|]. apply (generic_format_B2R 53 1024). Qed.
Lemma times_1 (x : b64) : tame x -> is_finite (b64_mul x b64_1) = true /\ B2R (b64_mul x b64_1) = B2R x.
Proof.
  intros [F B]. destruct one_value as [V1 F1]. destruct (mul_fin x b64_1 499 F F1 ltac:(lia)) as [Q ->]; rewrite V1, Rmult_1_r; [exact B|]. split; [exact Q|apply format_b64].
Qed.
Lemma times_0 (x : b64) : tame x -> is_finite (b64_mul x b64_0) = true /\ B2R (b64_mul x b64_0) = 0.
Proof.
  intros [F B]. destruct (mul_fin x b64_0 499 F eq_refl ltac:(lia)) as [Q ->]; change (B2R b64_0) with 0; rewrite Rmult_0_r; [rewrite Rabs_R0; apply bpow_ge_0|].
  split; [exact Q|]. apply round_0. auto with typeclass_instances.
Qed.
Lemma plus_0 (x y : b64) (r : R) : tame x -> is_finite y = true -> B2R x = r /\ B2R y = 0 \/ B2R x = 0 /\ B2R y = r /\ Rabs r <= bpow radix2 499 -> tame (b64_add x y) /\ B2R (b64_add x y) = r.
Proof.
  intros [Fx Bx] Fy C. assert (S : B2R x + B2R y = r) by (destruct C as [[-> ->]|(-> & -> & _)]; ring).
  assert (K : Rabs r <= bpow radix2 499) by (destruct C as [[<- _]|(_ & _ & K)]; assumption).
  destruct (add_fin x y 499 Fx Fy ltac:(lia)) as [Q V]; [rewrite S; exact K|]. rewrite S in V.
  assert (V' : B2R (b64_add x y) = r) by (rewrite V; destruct C as [[<- _]|(_ & <- & _)]; apply format_b64). split; [|exact V']. split; [exact Q|]. rewrite V'. exact K.
Qed.
Lemma blend_corner i (a b c : b64) : (i < 3)%nat -> tame a -> tame b -> tame c -> is_finite (fblend (fcorner i) a b c) = true /\ B2R (fblend (fcorner i) a b c) = corner (B2R a) (B2R b) (B2R c) i.
Proof.
  intros Hi A B C. destruct (times_1 a A) as [A1 A2]. destruct (times_0 a A) as [A3 A4]. destruct (times_1 b B) as [B1 B2]. destruct (times_0 b B) as [B3 B4].
  destruct (times_1 c C) as [C1 C2]. destruct (times_0 c C) as [C3 C4].
  assert (Z : forall x : b64, is_finite x = true -> B2R x = 0 -> tame x) by (intros x F V; split; [exact F|]; rewrite V, Rabs_R0; apply bpow_ge_0).
  assert (K : forall x y : b64, is_finite x = true -> B2R x = B2R y -> tame y -> tame x) by (intros x y F V [_ T]; split; [exact F|]; rewrite V; exact T).
  unfold fblend. destruct i as [|[|[|i]]]; [| | |lia]; cbn [fcorner fx fy fz corner].
  - destruct (plus_0 (b64_mul a b64_1) (b64_mul b b64_0) (B2R a)) as [T1 V1]; eauto. destruct (plus_0 _ (b64_mul c b64_0) (B2R a) T1) as [T2 V2]; auto. split; [apply T2|exact V2].
  - destruct (plus_0 (b64_mul a b64_0) (b64_mul b b64_1) (B2R b)) as [T1 V1]; auto. { right. split; [exact A4|]. split; [exact B2|]. apply B. }
    destruct (plus_0 _ (b64_mul c b64_0) (B2R b) T1) as [T2 V2]; auto. split; [apply T2|exact V2].
  - destruct (plus_0 (b64_mul a b64_0) (b64_mul b b64_0) 0) as [T1 V1]; auto. destruct (plus_0 _ (b64_mul c b64_1) (B2R c) T1) as [T2 V2]; auto. { right. split; [exact V1|]. split; [exact C2|]. apply C. }
    split; [apply T2|exact V2].
Qed.
Section Cut.
Variables (alt : bool) (p : fplane) (eps : b64) (a b c : fvec).
Hypothesis H : cuttable alt p eps a b c.
Let pl := exact_plane p.
Definition side_at (i : nat) : bool := in_front_of alt (exact_plane p) (exact_vec (corner a b c i)).

Lemma corner_fine i : tame_vec (corner a b c i) /\ clear_of alt pl (B2R eps) (exact_vec (corner a b c i)) /\
  ((i < 3)%nat -> edge_slack pl (exact_vec (corner a b c i)) (exact_vec (corner a b c (S i))) <= B2R eps).
Proof.
  destruct H as (P & F & (A & B & C) & (E1 & E2 & E3) & (K1 & K2 & K3)). destruct i as [|[|[|i]]]; cbn [corner]; (split; [assumption|]); (split; [assumption|]); intros; try assumption. lia.
Qed.
Lemma eps_pos : 0 <= B2R eps.
Proof. destruct H as (_ & _ & _ & (E1 & _) & _). apply Rle_trans with (2 := E1). apply edge_slack_pos. Qed.
Lemma corner_relation i : frelation_point alt p (corner a b c i) eps = (if side_at i then InFrontOf else Behind) /\
  B2R eps < (if side_at i then 1 else -1) * B2R (fsgn_distance alt p (corner a b c i)).
Proof. destruct (corner_fine i) as (T & C & _). destruct H as (P & F & _). exact (clear_relation alt p _ eps P T F eps_pos C). Qed.
Lemma edge_test i : (i < 3)%nat -> in_unit (fplane_interp alt p (corner a b c i) (fvsub (corner a b c (S i)) (corner a b c i))) = xorb (side_at i) (side_at (S i)).
Proof.
  intros Hi. destruct (corner_fine i) as (T1 & _ & E). destruct (corner_fine (S i)) as (T2 & _ & _). specialize (E Hi). destruct H as (P & F & _).
  destruct (corner_relation i) as [_ R1]. destruct (corner_relation (S i)) as [_ R2]. destruct (side_at i), (side_at (S i)); cbn [xorb].
  - apply (same_side alt p _ _ P T1 T2 _ E 1); auto.
  - apply (crossing alt p _ _ (B2R eps) 1 P T1 T2 E); auto. lra.
  - apply (crossing alt p _ _ (B2R eps) (-1) P T1 T2 E); auto. lra.
  - apply (same_side alt p _ _ P T1 T2 _ E (-1)); auto.
Qed.
Lemma edge_point i : (i < 3)%nat -> xorb (side_at i) (side_at (S i)) = true ->
  on_edge i (exact_vec (crossing_of alt p a b c i)) /\
  Rabs (side alt pl (combine3 (exact_vec (crossing_of alt p a b c i)) (exact_vec a) (exact_vec b) (exact_vec c))) <=
    33 * u * (magnitude (Plane.normal pl) (exact_vec (corner a b c i)) (distance pl) + magnitude (Plane.normal pl) (exact_vec (corner a b c (S i))) (distance pl)) + 128 * eta.
Proof.
  intros Hi X. destruct (corner_fine i) as (T1 & _ & E). destruct (corner_fine (S i)) as (T2 & _ & _). specialize (E Hi). pose proof H as (P & F & _).
  destruct (corner_relation i) as [_ R1]. destruct (corner_relation (S i)) as [_ R2].
  assert (C := crossing alt p (corner a b c i) (corner a b c (S i)) (B2R eps) (if side_at i then 1 else -1) P T1 T2 E). cbv zeta in C.
  destruct C as (_ & W1 & W2 & W3 & R).
  - destruct (side_at i); auto.
  - exact R1.
  - destruct (side_at i), (side_at (S i)); try discriminate; lra.
  - unfold crossing_of. set (t := fplane_interp alt p (corner a b c i) (fvsub (corner a b c (S i)) (corner a b c i))) in *. split.
    + exists (B2R (b64_sub b64_1 t)), (B2R t). repeat (split; [assumption|]). destruct i as [|[|[|i]]]; [reflexivity..|lia].
    + fold pl in R. destruct i as [|[|[|i]]]; cbn [corner] in *; [| | |lia]; (eapply Rle_trans; [apply Req_le, f_equal|exact R]); rewrite !side_dsign; f_equal;
        unfold dot, combine3, vadd, vscale, exact_vec; cbn [fedge fx fy fz vx vy vz]; change (B2R b64_0) with 0; ring.
Qed.
Lemma edge_near i : (i < 3)%nat -> xorb (side_at i) (side_at (S i)) = true ->
  Rabs (side alt pl (combine3 (exact_vec (crossing_of alt p a b c i)) (exact_vec a) (exact_vec b) (exact_vec c))) <= edge_slack pl (exact_vec (corner a b c i)) (exact_vec (corner a b c (S i))).
Proof.
  intros Hi X. destruct (edge_point i Hi X) as [_ R]. apply Rle_trans with (1 := R). unfold edge_slack. rewrite scale47, scale1066.
  destruct (M_pos alt p (corner a b c i) (corner a b c (S i))) as [PA PB]. fold pl in PA, PB. pose proof u_small. pose proof (bpow_gt_0 radix2 (-1075)).
  match goal with |- 33 * u * (?x + ?y) + _ <= _ => assert (0 <= u * x) by (apply Rmult_le_pos; lra); assert (0 <= u * y) by (apply Rmult_le_pos; lra) end. lra.
Qed.
(** Its position after rounding *)
Lemma crossing_moderate i : (i < 3)%nat -> xorb (side_at i) (side_at (S i)) = true -> moderate_vec (crossing_of alt p a b c i).
Proof.
  intros Hi X. rewrite <- (edge_test i Hi) in X. assert (F := unit_is_finite _ X). pose proof (proj1 (unit_finite _ F) X) as T. unfold crossing_of.
  set (t := fplane_interp alt p (corner a b c i) (fvsub (corner a b c (S i)) (corner a b c i))) in *.
  destruct one_value as [V1 F1]. pose proof (tame_unit t F T) as T1.
  assert (T2 : tame b64_1) by (apply tame_unit; [exact F1|rewrite V1; lra]). destruct (sub_relative b64_1 t T2 T1) as (_ & _ & M).
  assert (Z : moderate b64_0) by (split; [reflexivity|]; change (B2R b64_0) with 0; rewrite Rabs_R0; apply bpow_ge_0).
  destruct i as [|[|i]]; unfold moderate_vec; cbn [fedge fx fy fz]; auto using tame_moderate.
Qed.
Lemma position_near i : (i < 3)%nat -> xorb (side_at i) (side_at (S i)) = true ->
  Rabs (side alt pl (exact_vec (fposition (crossing_of alt p a b c i) a b c))) <= edge_slack pl (exact_vec (corner a b c i)) (exact_vec (corner a b c (S i))) + bpow radix2 (-1072) * (Rabs (vx (Plane.normal pl)) + Rabs (vy (Plane.normal pl)) + Rabs (vz (Plane.normal pl))).
Proof.
  intros Hi X. pose proof (crossing_moderate i Hi X) as W. destruct (edge_point i Hi X) as [(s & t & Hs & Ht & _ & Ew) NR]. set (w := crossing_of alt p a b c i) in *.
  destruct (corner_fine 0) as (TA & _). destruct (corner_fine 1) as (TB & _). destruct (corner_fine 2) as (TC & _). cbn [corner] in TA, TB, TC.
  assert (B : forall k : fvec -> b64, (forall v, tame_vec v -> tame (k v)) ->
    Rabs (B2R (fblend w (k a) (k b) (k c)) - (B2R (fx w) * B2R (k a) + B2R (fy w) * B2R (k b) + B2R (fz w) * B2R (k c))) <=
    8 * eta + 4 * u * (Rabs (B2R (k (corner a b c i))) + Rabs (B2R (k (corner a b c (S i)))))).
  { intros k K. destruct (blend_error w (k a) (k b) (k c) W) as [_ E]; auto using tame_moderate. apply Rle_trans with (1 := E).
    assert (Q : Rabs (B2R (k a) * B2R (fx w)) + Rabs (B2R (k b) * B2R (fy w)) + Rabs (B2R (k c) * B2R (fz w)) <= Rabs (B2R (k (corner a b c i))) + Rabs (B2R (k (corner a b c (S i))))).
    { pose proof (f_equal vx Ew) as Ex. pose proof (f_equal vy Ew) as Ey. pose proof (f_equal vz Ew) as Ez. unfold exact_vec in Ex, Ey, Ez. cbn [vx vy vz] in Ex, Ey, Ez. destruct i as [|[|[|i]]]; [| | |lia]; cbn [corner vx vy vz] in *; rewrite Ex, Ey, Ez, !Rabs_mult, ?(Rabs_right s), ?(Rabs_right t), ?Rabs_R0 by lra;
        pose proof (Rabs_pos (B2R (k a))); pose proof (Rabs_pos (B2R (k b))); pose proof (Rabs_pos (B2R (k c))); nra. }
    pose proof u_small. pose proof (bpow_gt_0 radix2 (-1075)).
    match type of Q with ?x <= ?y => assert (u * x <= u * y) by (apply Rmult_le_compat_l; lra); assert (0 <= u * y) by (apply Rle_trans with (2 := H2); apply Rmult_le_pos; [lra|repeat apply Rplus_le_le_0_compat; apply Rabs_pos]) end. lra. }
  pose proof (B fx (fun v q => proj1 q)) as Bx. pose proof (B fy (fun v q => proj1 (proj2 q))) as By. pose proof (B fz (fun v q => proj2 (proj2 q))) as Bz. clear B.
  unfold edge_slack. rewrite scale47, scale1066, scale1072. set (m1 := magnitude _ (exact_vec (corner a b c i)) _) in *. set (m2 := magnitude _ (exact_vec (corner a b c (S i))) _) in *.
  set (n := Plane.normal pl) in *.
  replace (side alt pl (exact_vec (fposition w a b c))) with
    (side alt pl (combine3 (exact_vec w) (exact_vec a) (exact_vec b) (exact_vec c)) +
     (vx n * (B2R (fblend w (fx a) (fx b) (fx c)) - (B2R (fx w) * B2R (fx a) + B2R (fy w) * B2R (fx b) + B2R (fz w) * B2R (fx c))) +
      vy n * (B2R (fblend w (fy a) (fy b) (fy c)) - (B2R (fx w) * B2R (fy a) + B2R (fy w) * B2R (fy b) + B2R (fz w) * B2R (fy c))) +
      vz n * (B2R (fblend w (fz a) (fz b) (fz c)) - (B2R (fx w) * B2R (fz a) + B2R (fy w) * B2R (fz b) + B2R (fz w) * B2R (fz c)))))
    by (rewrite !side_dsign; fold n; unfold dot, combine3, fposition, vadd, vscale, exact_vec; cbn [fx fy fz vx vy vz]; ring).
  apply Rle_trans with (1 := Rabs_triang _ _).
  assert (Sum : forall x y z, Rabs (x + y + z) <= Rabs x + Rabs y + Rabs z) by (intros; apply Rle_trans with (1 := Rabs_triang _ _); apply Rplus_le_compat_r, Rabs_triang).
  match goal with |- _ + Rabs (?x + ?y + ?z) <= _ => pose proof (Sum x y z) as Q end. rewrite !Rabs_mult in Q.
  pose proof (Rmult_le_compat_l _ _ _ (Rabs_pos (vx n)) Bx) as Qx. pose proof (Rmult_le_compat_l _ _ _ (Rabs_pos (vy n)) By) as Qy. pose proof (Rmult_le_compat_l _ _ _ (Rabs_pos (vz n)) Bz) as Qz.
  assert (M1 : Rabs (vx n) * Rabs (B2R (fx (corner a b c i))) + Rabs (vy n) * Rabs (B2R (fy (corner a b c i))) + Rabs (vz n) * Rabs (B2R (fz (corner a b c i))) <= m1)
    by (unfold m1, magnitude; fold n; rewrite !Rabs_mult; unfold exact_vec; cbn [vx vy vz]; pose proof (Rabs_pos (distance pl)); lra).
  assert (M2 : Rabs (vx n) * Rabs (B2R (fx (corner a b c (S i)))) + Rabs (vy n) * Rabs (B2R (fy (corner a b c (S i)))) + Rabs (vz n) * Rabs (B2R (fz (corner a b c (S i)))) <= m2)
    by (unfold m2, magnitude; fold n; rewrite !Rabs_mult; unfold exact_vec; cbn [vx vy vz]; pose proof (Rabs_pos (distance pl)); lra).
  clear Bx By Bz Sum. pose proof u_small as U. pose proof (bpow_gt_0 radix2 (-1075)) as E0. apply (Rmult_le_compat_l u) in M1, M2; try lra.
  assert (0 <= u * m1) by (apply Rmult_le_pos; [lra|unfold m1, magnitude; repeat apply Rplus_le_le_0_compat; apply Rabs_pos]).
  assert (0 <= u * m2) by (apply Rmult_le_pos; [lra|unfold m2, magnitude; repeat apply Rplus_le_le_0_compat; apply Rabs_pos]). lra.
Qed.
Lemma cut_result : fclip_triangle alt p a b c eps =
  if side_at 0 && side_at 1 && side_at 2 then Some (InFrontOf, ([], []))
  else if negb (side_at 0) && negb (side_at 1) && negb (side_at 2) then Some (Behind, ([], []))
  else Some (Clipped, (part side_at fcorner (crossing_of alt p a b c) true, part side_at fcorner (crossing_of alt p a b c) false)).
Proof.
  unfold fclip_triangle. destruct (corner_relation 0) as [R0 _]. destruct (corner_relation 1) as [R1 _]. destruct (corner_relation 2) as [R2 _].
  pose proof (edge_test 0 ltac:(lia)) as I0. pose proof (edge_test 1 ltac:(lia)) as I1. pose proof (edge_test 2 ltac:(lia)) as I2.
  cbn [corner] in R0, R1, R2, I0, I1, I2. rewrite R0, R1, R2. unfold fclip_edge. rewrite I0, I1, I2.
  unfold part. change (side_at 3) with (side_at 0). unfold crossing_of. cbn [flat_map corner app].
  change (side_at 3) with (side_at 0).
  destruct (side_at 0), (side_at 1), (side_at 2); reflexivity.
Qed.
End Cut.

(** For examples *)
Lemma tame_exponent (x : b64) : match B2SF x with SpecFloat.S754_zero _ => true | SpecFloat.S754_finite _ m e => (Z.pos m <? 2 ^ 53)%Z && (e <=? 400)%Z | _ => false end = true -> tame x.
Proof.
  destruct x as [sg|sg| |sg m e B]; cbn [B2SF]; try discriminate; intros E.
  - split; [reflexivity|]. cbn [B2R]. rewrite Rabs_R0. apply bpow_ge_0.
  - apply andb_prop in E. destruct E as [E1 E2]. apply Z.ltb_lt in E1. apply Z.leb_le in E2. split; [reflexivity|]. cbn [B2R]. rewrite <- F2R_Zabs. unfold F2R. cbn [Fnum Fexp].
    apply Rle_trans with (bpow radix2 53 * bpow radix2 400); [|rewrite <- bpow_plus; apply bpow_le; lia].
    apply Rmult_le_compat; [apply IZR_le; lia|apply bpow_ge_0| |now apply bpow_le]. change (bpow radix2 53) with (IZR (2 ^ 53)). apply IZR_le. destruct sg; cbn [cond_Zopp Z.abs Z.opp]; lia.
Qed.
