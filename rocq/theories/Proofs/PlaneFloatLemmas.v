(** Rounding errors of signed distances to planes. *)
From Coq Require Import ZArith Reals Bool Lia Lra.
From Flocq Require Import Core IEEE754.BinarySingleNaN.
From Flocq Require Import Relative Plus_error.
From Verif Require Import Model.Scalar Model.Vec Model.Plane Model.PlaneFloat Spec.PlaneSpec Spec.FloatSpec Proofs.PlaneLemmas.
Local Open Scope R_scope.

Notation f64 := (FLT_exp (3 - 1024 - 53) 53).
Notation rnd := (round radix2 f64 ZnearestE).
Notation u := (bpow radix2 (-53)).
Notation eta := (bpow radix2 (-1075)).
#[global] Instance valid_f64 : Valid_exp f64.
Proof. apply FLT_exp_valid. reflexivity. Qed.

Lemma rnd_error x m : Rabs x <= m -> - (u * m + eta) <= rnd x - x <= u * m + eta.
Proof.
  intros H. destruct (error_N_FLT radix2 (3 - 1024 - 53) 53 eq_refl (fun x => negb (Z.even x)) x) as (e & h & E & HH & _ & ->).
  replace (/ 2 * bpow radix2 (- (53) + 1)) with u in E by (change (- (53) + 1)%Z with (1 + -53)%Z; rewrite bpow_plus; change (bpow radix2 1) with 2; field).
  replace (/ 2 * bpow radix2 (3 - 1024 - 53)) with eta in HH by (change (3 - 1024 - 53)%Z with (1 + -1075)%Z; rewrite bpow_plus; change (bpow radix2 1) with 2; field).
  apply Rabs_le_inv. replace (x * (1 + e) + h - x) with (x * e + h) by ring. apply Rle_trans with (1 := Rabs_triang _ _). rewrite Rabs_mult.
  assert (Rabs x * Rabs e <= m * u) by (apply Rmult_le_compat; auto using Rabs_pos). lra.
Qed.
Lemma rnd_bound x k : (-1000 <= k)%Z -> Rabs x <= bpow radix2 k -> Rabs (rnd x) <= bpow radix2 k.
Proof. intros K H. apply abs_round_le_generic; auto with typeclass_instances. apply generic_format_FLT_bpow; [reflexivity|lia]. Qed.

Lemma mul_fin x y k : is_finite x = true -> is_finite y = true -> (-1000 <= k < 1024)%Z -> Rabs (B2R x * B2R y) <= bpow radix2 k ->
  is_finite (b64_mul x y) = true /\ B2R (b64_mul x y) = rnd (B2R x * B2R y).
Proof.
  intros Fx Fy K H. assert (C := Bmult_correct 53 1024 b64_prec_gt_0 b64_prec_lt_emax mode_NE x y). fold (b64_mul x y) in C.
  change (SpecFloat.fexp 53 1024) with f64 in C. cbn [round_mode] in C. rewrite Rlt_bool_true in C.
  - destruct C as (C & F & _). rewrite F, Fx, Fy. split; [reflexivity|exact C].
  - apply Rle_lt_trans with (bpow radix2 k); [apply rnd_bound; [lia|exact H]|apply bpow_lt; lia].
Qed.
Lemma add_fin x y k : is_finite x = true -> is_finite y = true -> (-1000 <= k < 1024)%Z -> Rabs (B2R x + B2R y) <= bpow radix2 k ->
  is_finite (b64_add x y) = true /\ B2R (b64_add x y) = rnd (B2R x + B2R y).
Proof.
  intros Fx Fy K H. assert (C := Bplus_correct 53 1024 b64_prec_gt_0 b64_prec_lt_emax mode_NE x y Fx Fy). fold (b64_add x y) in C.
  change (SpecFloat.fexp 53 1024) with f64 in C. cbn [round_mode] in C. rewrite Rlt_bool_true in C.
  - destruct C as (C & F & _). split; assumption.
  - apply Rle_lt_trans with (bpow radix2 k); [apply rnd_bound; [lia|exact H]|apply bpow_lt; lia].
Qed.
Lemma sub_fin x y k : is_finite x = true -> is_finite y = true -> (-1000 <= k < 1024)%Z -> Rabs (B2R x - B2R y) <= bpow radix2 k ->
  is_finite (b64_sub x y) = true /\ B2R (b64_sub x y) = rnd (B2R x - B2R y).
Proof.
  intros Fx Fy K H. assert (C := Bminus_correct 53 1024 b64_prec_gt_0 b64_prec_lt_emax mode_NE x y Fx Fy). fold (b64_sub x y) in C.
  change (SpecFloat.fexp 53 1024) with f64 in C. cbn [round_mode] in C. rewrite Rlt_bool_true in C.
  - destruct C as (C & F & _). split; assumption.
  - apply Rle_lt_trans with (bpow radix2 k); [apply rnd_bound; [lia|exact H]|apply bpow_lt; lia].
Qed.
Lemma moderate_mul x y : moderate x -> moderate y -> Rabs (B2R x * B2R y) <= bpow radix2 1000.
Proof.
  intros [_ X] [_ Y]. rewrite Rabs_mult. change 1000%Z with (500 + 500)%Z. rewrite bpow_plus. apply Rmult_le_compat; auto using Rabs_pos.
Qed.
Lemma double_pow k : bpow radix2 (k + 1) = 2 * bpow radix2 k.
Proof. rewrite bpow_plus. change (bpow radix2 1) with 2. ring. Qed.

Notation mag3 n x := (Rabs (B2R (fx n) * B2R (fx x)) + Rabs (B2R (fy n) * B2R (fy x)) + Rabs (B2R (fz n) * B2R (fz x))).
Lemma dot_error n x : moderate_vec n -> moderate_vec x -> is_finite (fdot n x) = true /\ Rabs (B2R (fdot n x)) <= bpow radix2 1002 /\
  exists e, 0 <= e <= 6 * eta + bpow radix2 (-53) * (3 + / 4) * mag3 n x /\ - e <= B2R (fdot n x) - dot (exact_vec n) (exact_vec x) <= e.
Proof.
  intros (N1 & N2 & N3) (X1 & X2 & X3). unfold fdot. assert (E0 := bpow_gt_0 radix2 (-1075)).
  assert (P1 := moderate_mul _ _ N1 X1). assert (P2 := moderate_mul _ _ N2 X2). assert (P3 := moderate_mul _ _ N3 X3).
  destruct (mul_fin (fx n) (fx x) 1000 (proj1 N1) (proj1 X1) ltac:(lia) P1) as [F1 V1].
  destruct (mul_fin (fy n) (fy x) 1000 (proj1 N2) (proj1 X2) ltac:(lia) P2) as [F2 V2].
  destruct (mul_fin (fz n) (fz x) 1000 (proj1 N3) (proj1 X3) ltac:(lia) P3) as [F3 V3].
  pose proof (rnd_bound _ 1000 ltac:(lia) P1) as R1. pose proof (rnd_bound _ 1000 ltac:(lia) P2) as R2. pose proof (rnd_bound _ 1000 ltac:(lia) P3) as R3.
  assert (D1 : bpow radix2 1001 = 2 * bpow radix2 1000) by exact (double_pow 1000). assert (D2 : bpow radix2 1002 = 2 * bpow radix2 1001) by exact (double_pow 1001).
  pose proof (bpow_gt_0 radix2 1000) as B0.
  set (a := b64_mul (fx n) (fx x)) in *. set (b := b64_mul (fy n) (fy x)) in *. set (c := b64_mul (fz n) (fz x)) in *.
  rewrite <- V1 in R1. rewrite <- V2 in R2. rewrite <- V3 in R3.
  assert (S1 : Rabs (B2R a + B2R b) <= bpow radix2 1001) by (apply Rle_trans with (1 := Rabs_triang _ _); lra).
  destruct (add_fin a b 1001 F1 F2 ltac:(lia) S1) as [F4 V4]. pose proof (rnd_bound _ 1001 ltac:(lia) S1) as R4. rewrite <- V4 in R4.
  set (s := b64_add a b) in *.
  assert (S2 : Rabs (B2R s + B2R c) <= bpow radix2 1002) by (apply Rle_trans with (1 := Rabs_triang _ _); lra).
  destruct (add_fin s c 1002 F4 F3 ltac:(lia) S2) as [F5 V5]. pose proof (rnd_bound _ 1002 ltac:(lia) S2) as R5. rewrite <- V5 in R5.
  split; [exact F5|]. split; [exact R5|]. clear R1 R2 R3 R4 R5 S1 S2 D1 D2 B0 F1 F2 F3 F4 F5 P1 P2 P3.
  unfold dot, exact_vec. cbn [vx vy vz].
  set (x1 := B2R (fx n) * B2R (fx x)) in *. set (x2 := B2R (fy n) * B2R (fy x)) in *. set (x3 := B2R (fz n) * B2R (fz x)) in *.
  pose proof (rnd_error x1 _ (Rle_refl _)) as H1. rewrite <- V1 in H1. pose proof (rnd_error x2 _ (Rle_refl _)) as H2. rewrite <- V2 in H2. pose proof (rnd_error x3 _ (Rle_refl _)) as H3. rewrite <- V3 in H3.
  set (m1 := Rabs x1) in *. set (m2 := Rabs x2) in *. set (m3 := Rabs x3) in *.
  assert (A1 : 0 <= m1 /\ - m1 <= x1 <= m1) by (unfold m1; split; [apply Rabs_pos|apply Rabs_le_inv, Rle_refl]).
  assert (A2 : 0 <= m2 /\ - m2 <= x2 <= m2) by (unfold m2; split; [apply Rabs_pos|apply Rabs_le_inv, Rle_refl]).
  assert (A3 : 0 <= m3 /\ - m3 <= x3 <= m3) by (unfold m3; split; [apply Rabs_pos|apply Rabs_le_inv, Rle_refl]).
  assert (EU : u = / 9007199254740992) by reflexivity. rewrite EU in *.
  remember eta as h eqn:EH. clearbody m1 m2 m3 x1 x2 x3.
  pose proof (rnd_error (B2R a + B2R b) (m1 + m2 + / 9007199254740992 * (m1 + m2) + 2 * h)) as H4. rewrite EU, <- V4, <- EH in H4. specialize (H4 ltac:(apply Rabs_le; lra)).
  pose proof (rnd_error (B2R s + B2R c) (m1 + m2 + m3 + 3 * / 9007199254740992 * (m1 + m2 + m3) + 5 * h)) as H5. rewrite EU, <- V5, <- EH in H5. specialize (H5 ltac:(apply Rabs_le; lra)).
  exists (6 * h + / 9007199254740992 * (3 + / 4) * (m1 + m2 + m3)). split; [|]; lra.
Qed.

Lemma sign_finite alt d : is_finite (fsign alt d) = is_finite d.
Proof. destruct alt; [apply is_finite_Bopp|reflexivity]. Qed.
Lemma sign_value alt d : B2R (fsign alt d) = dsign alt (B2R d).
Proof. destruct alt; [apply B2R_Bopp|reflexivity]. Qed.
Lemma side_dsign alt p x : side alt p x = dot (normal p) x - dsign alt (distance p).
Proof. unfold side, dsign. destruct alt; ring. Qed.
Lemma dsign_abs alt d : Rabs (dsign alt d) = Rabs d.
Proof. destruct alt; [apply Rabs_Ropp|reflexivity]. Qed.
Lemma eta_slack : bpow radix2 (-1070) = 32 * eta.
Proof. change (-1070)%Z with (5 + -1075)%Z. rewrite bpow_plus. reflexivity. Qed.

Lemma distance_error alt p x : moderate_plane p -> moderate_vec x -> is_finite (fsgn_distance alt p x) = true /\
  - slack (exact_plane p) (exact_vec x) <= B2R (fsgn_distance alt p x) - side alt (exact_plane p) (exact_vec x) <= slack (exact_plane p) (exact_vec x).
Proof.
  intros [N D] X. destruct (dot_error (fnormal p) x N X) as (F & B & e & E & H). unfold fsgn_distance.
  assert (DB : Rabs (dsign alt (B2R (fdistance p))) <= bpow radix2 1002) by (rewrite dsign_abs; apply Rle_trans with (1 := proj2 D), bpow_le; lia).
  assert (SB : Rabs (B2R (fdot (fnormal p) x) - B2R (fsign alt (fdistance p))) <= bpow radix2 1003).
  { rewrite sign_value. unfold Rminus. apply Rle_trans with (1 := Rabs_triang _ _). rewrite Rabs_Ropp. assert (Q : bpow radix2 1003 = 2 * bpow radix2 1002) by exact (double_pow 1002). lra. }
  destruct (sub_fin _ _ 1003 F (eq_trans (sign_finite alt _) (proj1 D)) ltac:(lia) SB) as [FS VS]. split; [exact FS|]. rewrite VS, sign_value, side_dsign. cbn [exact_plane normal distance].
  set (v := B2R (fdot (fnormal p) x)) in *. set (d := dsign alt (B2R (fdistance p))) in *.
  unfold slack, magnitude. cbn [exact_plane exact_vec normal distance vx vy vz]. rewrite eta_slack.
  assert (MD : Rabs (B2R (fdistance p)) = Rabs d) by (unfold d; now rewrite dsign_abs). rewrite MD.
  assert (W : - Rabs d <= d <= Rabs d) by (apply Rabs_le_inv, Rle_refl).
  set (q := dot (exact_vec (fnormal p)) (exact_vec x)) in *.
  assert (Q : - (mag3 (fnormal p) x) <= q <= mag3 (fnormal p) x).
  { unfold q, dot, exact_vec. cbn [vx vy vz]. apply Rabs_le_inv. apply Rle_trans with (1 := Rabs_triang _ _). apply Rplus_le_compat_r. apply Rabs_triang. }
  set (m := mag3 (fnormal p) x) in *. assert (M0 : 0 <= m) by lra. assert (D0 := Rabs_pos d). set (md := Rabs d) in *. pose proof (bpow_gt_0 radix2 (-1075)) as E0.
  assert (EU : u = / 9007199254740992) by reflexivity. assert (EV : bpow radix2 (-50) = 8 * / 9007199254740992) by (change (-50)%Z with (3 + -53)%Z; rewrite bpow_plus, EU; reflexivity).
  rewrite EV. rewrite EU in E. remember eta as h eqn:EH. clearbody m md q v.
  pose proof (rnd_error (v - d) (m + md + e)) as HR. rewrite EU, <- EH in HR. specialize (HR ltac:(apply Rabs_le; lra)). clear - HR H E W M0 D0 E0 Q. lra.
Qed.
Lemma blt (x y : b64) : is_finite x = true -> is_finite y = true -> Bltb x y = true <-> B2R x < B2R y.
Proof. intros X Y. rewrite (Bltb_correct _ _ x y X Y). destruct (Rlt_bool_spec (B2R x) (B2R y)); split; intros; try lra; try reflexivity; discriminate. Qed.
Lemma blt_false (x y : b64) : is_finite x = true -> is_finite y = true -> Bltb x y = false <-> B2R y <= B2R x.
Proof. intros X Y. rewrite (Bltb_correct _ _ x y X Y). destruct (Rlt_bool_spec (B2R x) (B2R y)); split; intros; try lra; try reflexivity; discriminate. Qed.
Lemma slack_pos p x : 0 < slack p x.
Proof.
  unfold slack, magnitude. pose proof (bpow_gt_0 radix2 (-50)). pose proof (bpow_gt_0 radix2 (-1070)). pose proof (Rabs_pos (vx (normal p) * vx x)). pose proof (Rabs_pos (vy (normal p) * vy x)). pose proof (Rabs_pos (vz (normal p) * vz x)). pose proof (Rabs_pos (distance p)).
  assert (0 <= bpow radix2 (-50) * (Rabs (vx (normal p) * vx x) + Rabs (vy (normal p) * vy x) + Rabs (vz (normal p) * vz x) + Rabs (distance p))) by (apply Rmult_le_pos; lra). lra.
Qed.

Lemma relation_error alt p x eps : moderate_plane p -> moderate_vec x -> is_finite eps = true -> 0 <= B2R eps ->
  let s := side alt (exact_plane p) (exact_vec x) in let k := slack (exact_plane p) (exact_vec x) in
  match frelation_point alt p x eps with
  | InFrontOf => B2R eps - k < s
  | Behind => s < k - B2R eps
  | Onto => - (B2R eps + k) <= s <= B2R eps + k
  | Clipped => False
  end.
Proof.
  intros P X FE EP s k. destruct (distance_error alt p x P X) as [F H]. fold s k in H. unfold frelation_point.
  assert (FO : is_finite (Bopp eps) = true) by now rewrite is_finite_Bopp.
  destruct (Bltb eps _) eqn:E1; [apply blt in E1; auto; lra|apply blt_false in E1; auto].
  destruct (Bltb _ (Bopp eps)) eqn:E2; [apply blt in E2; auto; rewrite B2R_Bopp in E2; lra|apply blt_false in E2; auto; rewrite B2R_Bopp in E2]. lra.
Qed.
Lemma front_error alt p x : moderate_plane p -> moderate_vec x -> let s := side alt (exact_plane p) (exact_vec x) in let k := slack (exact_plane p) (exact_vec x) in
  if fis_front alt p x then - k < s else s < k.
Proof.
  intros P X s k. destruct P as [N D]. destruct (dot_error (fnormal p) x N X) as (F & B & e & E & H). unfold fis_front.
  assert (K : e < k).
  { unfold k, slack, magnitude. cbn [exact_plane exact_vec normal distance vx vy vz]. rewrite eta_slack. pose proof (bpow_gt_0 radix2 (-1075)) as E0. pose proof (Rabs_pos (B2R (fdistance p))).
    assert (EU : u = / 9007199254740992) by reflexivity. assert (EV : bpow radix2 (-50) = 8 * / 9007199254740992) by (change (-50)%Z with (3 + -53)%Z; rewrite bpow_plus, EU; reflexivity).
    rewrite EV. rewrite EU in E. set (a1 := Rabs _) in *. pose proof (Rabs_pos (B2R (fx (fnormal p)) * B2R (fx x))). pose proof (Rabs_pos (B2R (fy (fnormal p)) * B2R (fy x))). pose proof (Rabs_pos (B2R (fz (fnormal p)) * B2R (fz x))). lra. }
  assert (FD : is_finite (fsign alt (fdistance p)) = true) by (rewrite sign_finite; apply D). unfold s. rewrite side_dsign. cbn [exact_plane normal distance].
  destruct (Bltb _ _) eqn:EB; [apply blt in EB; auto|apply blt_false in EB; auto]; rewrite sign_value in EB; lra.
Qed.

Lemma slack_box p b x : in_box b x -> slack p x <= box_slack p b.
Proof.
  intros (X & Y & Z). unfold box_slack, slack. apply Rplus_le_compat_r. apply Rmult_le_compat_l; [apply bpow_ge_0|]. unfold magnitude. cbn [vx vy vz].
  assert (G : forall n a t c, a <= t <= c -> Rabs (n * t) <= Rabs (n * Rmax (Rabs a) (Rabs c))).
  { intros n a t c T. rewrite !Rabs_mult. apply Rmult_le_compat_l; [apply Rabs_pos|]. assert (0 <= Rmax (Rabs a) (Rabs c)) by (apply Rle_trans with (2 := Rmax_l _ _), Rabs_pos).
    rewrite (Rabs_pos_eq (Rmax _ _)) by assumption. pose proof (Rmax_l (Rabs a) (Rabs c)). pose proof (Rmax_r (Rabs a) (Rabs c)). pose proof (Rle_abs c). pose proof (Rle_abs (- a)). rewrite Rabs_Ropp in *. apply Rabs_le. lra. }
  pose proof (G (vx (normal p)) _ _ _ X). pose proof (G (vy (normal p)) _ _ _ Y). pose proof (G (vz (normal p)) _ _ _ Z). lra.
Qed.
Lemma pick_exact (n a c : b64) : is_finite n = true -> B2R (if Bltb b64_0 n then a else c) = if Rltb 0 (B2R n) then B2R a else B2R c.
Proof.
  intros F. unfold Rltb. destruct (Bltb b64_0 n) eqn:E; destruct (Rlt_dec 0 (B2R n)) as [L|L]; try reflexivity; exfalso.
  - apply blt in E; [|reflexivity|exact F]. cbn in E. lra.
  - apply blt_false in E; [|reflexivity|exact F]. cbn in E. lra.
Qed.
Definition fnear (n : fvec) (b : fbox) : fvec :=
  FV (if Bltb b64_0 (fx n) then fx (fmin b) else fx (fmax b)) (if Bltb b64_0 (fy n) then fy (fmin b) else fy (fmax b)) (if Bltb b64_0 (fz n) then fz (fmin b) else fz (fmax b)).
Definition ffar (n : fvec) (b : fbox) : fvec :=
  FV (if Bltb b64_0 (fx n) then fx (fmax b) else fx (fmin b)) (if Bltb b64_0 (fy n) then fy (fmax b) else fy (fmin b)) (if Bltb b64_0 (fz n) then fz (fmax b) else fz (fmin b)).
Lemma frelation_box_eq alt p b : frelation_box alt p b = if fis_front alt p (fnear (fnormal p) b) then InFrontOf else if fis_front alt p (ffar (fnormal p) b) then Clipped else Behind.
Proof. unfold frelation_box, fnear, ffar. destruct (Bltb b64_0 (fx (fnormal p))), (Bltb b64_0 (fy (fnormal p))), (Bltb b64_0 (fz (fnormal p))); reflexivity. Qed.
Lemma near_exact n b : moderate_vec n -> exact_vec (fnear n b) = near_point (exact_vec n) (exact_box b).
Proof. intros (N1 & N2 & N3). unfold exact_vec, near_point, fnear, exact_box. cbn. rewrite !pick_exact by apply N1 || apply N2 || apply N3. reflexivity. Qed.
Lemma far_exact n b : moderate_vec n -> exact_vec (ffar n b) = far_point (exact_vec n) (exact_box b).
Proof. intros (N1 & N2 & N3). unfold exact_vec, far_point, ffar, exact_box. cbn. rewrite !pick_exact by apply N1 || apply N2 || apply N3. reflexivity. Qed.
Lemma near_moderate n b : moderate_vec (fmin b) -> moderate_vec (fmax b) -> moderate_vec (fnear n b) /\ moderate_vec (ffar n b).
Proof.
  intros (A1 & A2 & A3) (B1 & B2 & B3). unfold fnear, ffar, moderate_vec. cbn [fx fy fz]. destruct (Bltb b64_0 (fx n)), (Bltb b64_0 (fy n)), (Bltb b64_0 (fz n)); tauto.
Qed.
Lemma box_relation_error alt p b : moderate_plane p -> moderate_vec (fmin b) -> moderate_vec (fmax b) -> in_box (exact_box b) (exact_vec (fmin b)) ->
  let k := box_slack (exact_plane p) (exact_box b) in let s := side alt (exact_plane p) in
  match frelation_box alt p b with
  | InFrontOf => forall x, in_box (exact_box b) x -> - k < s x
  | Behind => forall x, in_box (exact_box b) x -> s x < k
  | Clipped => (exists x, in_box (exact_box b) x /\ - k < s x) /\ (exists x, in_box (exact_box b) x /\ s x < k)
  | Onto => False
  end.
Proof.
  intros P A B V k s. assert (VB : valid_box (exact_box b)) by (unfold valid_box, in_box, exact_box in *; cbn in *; lra).
  destruct (near_moderate (fnormal p) b A B) as [MN MF]. pose proof (front_error alt p _ P MN) as FN. pose proof (front_error alt p _ P MF) as FF. cbv zeta in FN, FF.
  rewrite near_exact in FN by apply P. rewrite far_exact in FF by apply P.
  assert (NI := near_in (exact_vec (fnormal p)) _ VB). assert (FI := far_in (exact_vec (fnormal p)) _ VB).
  pose proof (slack_box (exact_plane p) _ _ NI) as SN. pose proof (slack_box (exact_plane p) _ _ FI) as SF. fold k in SN, SF. fold s in FN, FF.
  rewrite frelation_box_eq. destruct (fis_front alt p (fnear _ _)).
  - intros x X. pose proof (near_le alt (exact_plane p) _ _ X) as L. cbn [exact_plane normal] in L. fold s in L. unfold s in *. lra.
  - destruct (fis_front alt p (ffar _ _)).
    + split; [exists (far_point (exact_vec (fnormal p)) (exact_box b))|exists (near_point (exact_vec (fnormal p)) (exact_box b))]; (split; [assumption|]); lra.
    + intros x X. pose proof (far_ge alt (exact_plane p) _ _ X) as L. cbn [exact_plane normal] in L. unfold s in *. lra.
Qed.

(** ** Comparing and subtracting agree *)
Lemma rnd_sub_pos x y : generic_format radix2 f64 x -> generic_format radix2 f64 y -> 0 < rnd (x - y) <-> 0 < x - y.
Proof.
  intros X Y. split; intros H.
  - destruct (Rle_or_lt (x - y) 0) as [L|L]; [|exact L]. exfalso. assert (rnd (x - y) <= 0); [|lra].
    replace 0 with (rnd 0) by (apply round_0; auto with typeclass_instances). apply round_le; auto with typeclass_instances.
  - assert (0 <= rnd (x - y)). { replace 0 with (rnd 0) by (apply round_0; auto with typeclass_instances). apply round_le; auto with typeclass_instances. lra. }
    assert (rnd (x - y) <> 0); [|lra]. unfold Rminus. apply round_plus_neq_0; auto with typeclass_instances; [apply generic_format_opp, Y|unfold Rminus in H; lra].
Qed.
Lemma sub_positive (x y : b64) : is_finite x = true -> is_finite y = true -> Bltb b64_0 (b64_sub x y) = Bltb y x.
Proof.
  intros X Y. assert (C := Bminus_correct 53 1024 b64_prec_gt_0 b64_prec_lt_emax mode_NE x y X Y). fold (b64_sub x y) in C.
  change (SpecFloat.fexp 53 1024) with f64 in C. cbn [round_mode] in C. pose proof (rnd_sub_pos (B2R x) (B2R y) (generic_format_B2R 53 1024 x) (generic_format_B2R 53 1024 y)) as P.
  destruct (Rlt_bool_spec (Rabs (rnd (B2R x - B2R y))) (bpow radix2 1024)) as [L|L].
  - destruct C as (C & F & _). apply eq_true_iff_eq. rewrite !blt by (assumption || reflexivity). rewrite C. change (B2R b64_0) with 0. rewrite P. split; lra.
  - destruct C as [C D]. assert (N : B2R x - B2R y <> 0).
    { intros E. rewrite E, round_0, Rabs_R0 in L by auto with typeclass_instances. pose proof (bpow_gt_0 radix2 1024). lra. }
    assert (S : forall z : b64, is_finite z = true -> if Bsign z then B2R z <= 0 else 0 <= B2R z).
    { intros [s|s| |s m e h] F; try discriminate; cbn; [destruct s; lra|]. destruct s; cbn; [apply F2R_le_0|apply F2R_ge_0]; cbn; lia. }
    pose proof (S x X) as SX. pose proof (S y Y) as SY.
    assert (E : b64_sub x y = B754_infinity (Bsign x)).
    { apply B2SF_inj. rewrite C. destruct (Bsign x); reflexivity. }
    rewrite E. symmetry. destruct (Bsign x), (Bsign y); try discriminate; cbn [negb] in *.
    + change (Bltb b64_0 (B754_infinity true)) with false. apply blt_false; auto. lra.
    + change (Bltb b64_0 (B754_infinity false)) with true. apply blt; auto. lra.
Qed.
Lemma sub_negative (x y : b64) : is_finite x = true -> is_finite y = true -> Bltb (b64_sub x y) b64_0 = Bltb x y.
Proof.
  intros X Y. assert (C := Bminus_correct 53 1024 b64_prec_gt_0 b64_prec_lt_emax mode_NE x y X Y). fold (b64_sub x y) in C.
  change (SpecFloat.fexp 53 1024) with f64 in C. cbn [round_mode] in C. pose proof (rnd_sub_pos (B2R y) (B2R x) (generic_format_B2R 53 1024 y) (generic_format_B2R 53 1024 x)) as P.
  replace (B2R y - B2R x) with (- (B2R x - B2R y)) in P by ring. rewrite round_NE_opp in P.
  destruct (Rlt_bool_spec (Rabs (rnd (B2R x - B2R y))) (bpow radix2 1024)) as [L|L].
  - destruct C as (C & F & _). apply eq_true_iff_eq. rewrite !blt by (assumption || reflexivity). rewrite C. change (B2R b64_0) with 0. split; intros H.
    + assert (0 < - (B2R x - B2R y)) by (apply P; lra). lra.
    + assert (0 < - rnd (B2R x - B2R y)) by (apply P; lra). lra.
  - destruct C as [C D]. assert (N : B2R x - B2R y <> 0).
    { intros E. rewrite E, round_0, Rabs_R0 in L by auto with typeclass_instances. pose proof (bpow_gt_0 radix2 1024). lra. }
    assert (S : forall z : b64, is_finite z = true -> if Bsign z then B2R z <= 0 else 0 <= B2R z).
    { intros [s|s| |s m e h] F; try discriminate; cbn; [destruct s; lra|]. destruct s; cbn; [apply F2R_le_0|apply F2R_ge_0]; cbn; lia. }
    pose proof (S x X) as SX. pose proof (S y Y) as SY.
    assert (E : b64_sub x y = B754_infinity (Bsign x)).
    { apply B2SF_inj. rewrite C. destruct (Bsign x); reflexivity. }
    rewrite E. symmetry. destruct (Bsign x), (Bsign y); try discriminate; cbn [negb] in *.
    + change (Bltb (B754_infinity true) b64_0) with true. apply blt; auto. lra.
    + change (Bltb (B754_infinity false) b64_0) with false. apply blt_false; auto. lra.
Qed.

(** ** Planes across an axis *)
Lemma mul_exact (x y : b64) : is_finite x = true -> is_finite y = true -> generic_format radix2 f64 (B2R x * B2R y) -> Rabs (B2R x * B2R y) < bpow radix2 1024 ->
  is_finite (b64_mul x y) = true /\ B2R (b64_mul x y) = B2R x * B2R y.
Proof.
  intros Fx Fy G H. assert (C := Bmult_correct 53 1024 b64_prec_gt_0 b64_prec_lt_emax mode_NE x y). fold (b64_mul x y) in C.
  change (SpecFloat.fexp 53 1024) with f64 in C. cbn [round_mode] in C. rewrite round_generic in C by auto with typeclass_instances. rewrite Rlt_bool_true in C by exact H.
  destruct C as (C & F & _). rewrite F, Fx, Fy. split; [reflexivity|exact C].
Qed.
Lemma add_exact (x y : b64) : is_finite x = true -> is_finite y = true -> generic_format radix2 f64 (B2R x + B2R y) -> Rabs (B2R x + B2R y) < bpow radix2 1024 ->
  is_finite (b64_add x y) = true /\ B2R (b64_add x y) = B2R x + B2R y.
Proof.
  intros Fx Fy G H. assert (C := Bplus_correct 53 1024 b64_prec_gt_0 b64_prec_lt_emax mode_NE x y Fx Fy). fold (b64_add x y) in C.
  change (SpecFloat.fexp 53 1024) with f64 in C. cbn [round_mode] in C. rewrite round_generic in C by auto with typeclass_instances. rewrite Rlt_bool_true in C by exact H.
  destruct C as (C & F & _). split; assumption.
Qed.
Lemma term_exact (n x : b64) : is_finite n = true -> is_finite x = true -> B2R n = 1 \/ B2R n = 0 -> is_finite (b64_mul n x) = true /\ B2R (b64_mul n x) = B2R n * B2R x.
Proof.
  intros N X H. apply mul_exact; try assumption.
  - destruct H as [->| ->]; [rewrite Rmult_1_l; apply (generic_format_B2R 53 1024)|rewrite Rmult_0_l; apply generic_format_0].
  - pose proof (abs_B2R_lt_emax 53 1024 x). destruct H as [->| ->]; [now rewrite Rmult_1_l|rewrite Rmult_0_l, Rabs_R0; apply bpow_gt_0].
Qed.
Lemma dot_exact (n x : fvec) (n1 n2 n3 : R) : is_finite (fx n) = true -> is_finite (fy n) = true -> is_finite (fz n) = true -> is_finite (fx x) = true -> is_finite (fy x) = true -> is_finite (fz x) = true ->
  B2R (fx n) = n1 -> B2R (fy n) = n2 -> B2R (fz n) = n3 -> (n1, n2, n3) = (1, 0, 0) \/ (n1, n2, n3) = (0, 1, 0) \/ (n1, n2, n3) = (0, 0, 1) ->
  is_finite (fdot n x) = true /\ B2R (fdot n x) = dot (exact_vec n) (exact_vec x).
Proof.
  intros N1 N2 N3 X1 X2 X3 V1 V2 V3 H. unfold fdot, dot, exact_vec. cbn [vx vy vz].
  assert (Z : n1 = 1 /\ n2 = 0 /\ n3 = 0 \/ n1 = 0 /\ n2 = 1 /\ n3 = 0 \/ n1 = 0 /\ n2 = 0 /\ n3 = 1) by (destruct H as [[= -> -> ->]|[[= -> -> ->]|[= -> -> ->]]]; auto).
  destruct (term_exact (fx n) (fx x) N1 X1 ltac:(rewrite V1; tauto)) as [F1 E1]. destruct (term_exact (fy n) (fy x) N2 X2 ltac:(rewrite V2; tauto)) as [F2 E2]. destruct (term_exact (fz n) (fz x) N3 X3 ltac:(rewrite V3; tauto)) as [F3 E3].
  rewrite V1 in E1. rewrite V2 in E2. rewrite V3 in E3.
  pose proof (generic_format_B2R 53 1024 (fx x)) as G1. pose proof (generic_format_B2R 53 1024 (fy x)) as G2. pose proof (generic_format_B2R 53 1024 (fz x)) as G3. change (SpecFloat.fexp 53 1024) with f64 in *.
  pose proof (abs_B2R_lt_emax 53 1024 (fx x)) as B1. pose proof (abs_B2R_lt_emax 53 1024 (fy x)) as B2. pose proof (abs_B2R_lt_emax 53 1024 (fz x)) as B3.
  assert (S1 : is_finite (b64_add (b64_mul (fx n) (fx x)) (b64_mul (fy n) (fy x))) = true /\ B2R (b64_add (b64_mul (fx n) (fx x)) (b64_mul (fy n) (fy x))) = n1 * B2R (fx x) + n2 * B2R (fy x)).
  { rewrite <- E1, <- E2. apply add_exact; try assumption; rewrite E1, E2; destruct Z as [(-> & -> & ->)|[(-> & -> & ->)|(-> & -> & ->)]];
      rewrite ?Rmult_0_l, ?Rmult_1_l, ?Rplus_0_l, ?Rplus_0_r; try assumption; try apply generic_format_0; rewrite Rabs_R0; apply bpow_gt_0. }
  destruct S1 as [FS ES]. rewrite V1, V2, V3, <- ES, <- E3. apply add_exact; try assumption; rewrite ES, E3; destruct Z as [(-> & -> & ->)|[(-> & -> & ->)|(-> & -> & ->)]];
      rewrite ?Rmult_0_l, ?Rmult_1_l, ?Rplus_0_l, ?Rplus_0_r; assumption.
Qed.
