(** Rounding in the intersection of rays with triangles. *)
From Coq Require Import ZArith Reals List Bool Lia Lra Psatz.
From Flocq Require Import Core IEEE754.BinarySingleNaN.
From Flocq Require Import Relative.
From Verif Require Import Model.Scalar Model.Vec Model.BoxFloat Model.Plane Model.Tri Model.PlaneFloat Model.ClipFloat Model.TriFloat
  Spec.FloatSpec Spec.ClipFloatSpec Spec.FrustumFloatSpec Spec.TriFloatSpec
  Proofs.VecLemmas Proofs.PlaneFloatLemmas Proofs.SplineFloat Proofs.BoxRayFloatLemmas Proofs.ClipFloatLemmas Proofs.FrustumFloatLemmas.
Local Open Scope R_scope.

(** A vector of numbers that is [e] up to one rounding of each component *)
Definition close (a : b64) (x : R) : Prop := is_finite a = true /\ Rabs (B2R a) <= bpow radix2 202 /\ Rabs x <= bpow radix2 202 /\ rel u (B2R a) x.
Definition close_vec (v : fvec) (e : vec3) : Prop := close (fx v) (vx e) /\ close (fy v) (vy e) /\ close (fz v) (vz e).
Lemma rel_refl x : rel u x x.
Proof. unfold rel. replace (x - x) with 0 by ring. rewrite Rabs_R0. apply Rmult_le_pos; [apply bpow_ge_0|apply Rabs_pos]. Qed.
Lemma mild_close v : mild_vec v -> close_vec v (exact_vec v).
Proof.
  assert (K : forall a, mild a -> close a (B2R a)). { intros a [F B]. assert (W : bpow radix2 200 <= bpow radix2 202) by (apply bpow_le; lia). repeat split; try (exact F); try lra. apply rel_refl. }
  intros (A & B & C). repeat split; (apply K in A; apply K in B; apply K in C); (apply A || apply B || apply C).
Qed.
Lemma minus_close v w : mild_vec v -> mild_vec w -> close_vec (fminus v w) (vsub (exact_vec v) (exact_vec w)).
Proof.
  assert (K : forall a b, mild a -> mild b -> close (b64_sub a b) (B2R a - B2R b)) by (intros a b A B; destruct (sub_near a b A B) as (F & L & R); destruct (mild_sum a b A B) as [_ S]; repeat split; assumption).
  intros (A1 & A2 & A3) (B1 & B2 & B3). unfold close_vec, fminus, vsub, exact_vec. cbn [fx fy fz vx vy vz]. auto.
Qed.

(** Products of two close numbers, and differences of two of them *)
Lemma product_close (a b : b64) x y : close a x -> close b y -> is_finite (b64_mul a b) = true /\ Rabs (B2R (b64_mul a b)) <= bpow radix2 404 /\ Rabs (B2R (b64_mul a b) - x * y) <= 3.02 * u * Rabs (x * y) + eta.
Proof.
  intros (FA & BA & _ & RA) (FB & BB & _ & RB). pose proof u_small as US.
  assert (P : Rabs (B2R a * B2R b) <= bpow radix2 404) by (rewrite Rabs_mult; change 404%Z with (202 + 202)%Z; rewrite bpow_plus; apply Rmult_le_compat; auto using Rabs_pos).
  destruct (mul_fin a b 404 FA FB ltac:(lia) P) as [F V]. split; [exact F|]. rewrite V. split; [apply rnd_bound; [lia|exact P]|].
  pose proof (rel_bounds _ _ _ RB) as KB. unfold rel in RA, RB. pose proof (Rabs_pos x) as X0. pose proof (Rabs_pos y) as Y0. rewrite Rabs_mult.
  assert (XY : 0 <= Rabs x * Rabs y) by (apply Rmult_le_pos; assumption).
  assert (E : Rabs (B2R a * B2R b - x * y) <= 2.01 * u * (Rabs x * Rabs y)).
  { replace (B2R a * B2R b - x * y) with ((B2R a - x) * B2R b + x * (B2R b - y)) by ring. apply Rle_trans with (1 := Rabs_triang _ _). rewrite !Rabs_mult.
    assert (T1 : Rabs (B2R a - x) * Rabs (B2R b) <= u * Rabs x * ((1 + u) * Rabs y)) by (apply Rmult_le_compat; auto using Rabs_pos).
    assert (T2 : Rabs x * Rabs (B2R b - y) <= Rabs x * (u * Rabs y)) by (apply Rmult_le_compat_l; assumption).
    replace (u * Rabs x * ((1 + u) * Rabs y)) with ((u + u * u) * (Rabs x * Rabs y)) in T1 by ring. assert (UU : u * u * (Rabs x * Rabs y) <= / 1000 * u * (Rabs x * Rabs y)) by (apply Rmult_le_compat_r; [exact XY|]; apply Rmult_le_compat_r; lra). assert (0 <= u * (Rabs x * Rabs y)) by (apply Rmult_le_pos; lra). lra. }
  assert (B : Rabs (B2R a * B2R b) <= 1.005 * (Rabs x * Rabs y)).
  { replace (B2R a * B2R b) with (B2R a * B2R b - x * y + x * y) by ring. apply Rle_trans with (1 := Rabs_triang _ _). rewrite (Rabs_mult x y). assert (u * (Rabs x * Rabs y) <= / 1000 * (Rabs x * Rabs y)) by (apply Rmult_le_compat_r; lra). lra. }
  pose proof (rnd_error (B2R a * B2R b) _ B) as R. replace (rnd (B2R a * B2R b) - x * y) with (rnd (B2R a * B2R b) - B2R a * B2R b + (B2R a * B2R b - x * y)) by ring.
  apply Rabs_le_inv in E. apply Rabs_le. assert (0 <= u * (Rabs x * Rabs y)) by (apply Rmult_le_pos; lra). lra.
Qed.
Lemma minor_close (a b c d : b64) x y z w : close a x -> close b y -> close c z -> close d w ->
  let m := b64_sub (b64_mul a b) (b64_mul c d) in moderate m /\ Rabs (B2R m - (x * y - z * w)) <= 4.1 * u * (Rabs (x * y) + Rabs (z * w)) + 4 * eta.
Proof.
  intros A B C D m. destruct (product_close a b x y A B) as (F1 & B1 & E1). destruct (product_close c d z w C D) as (F2 & B2 & E2). pose proof u_small as US. pose proof (bpow_gt_0 radix2 (-1075)) as H0.
  assert (S : Rabs (B2R (b64_mul a b) - B2R (b64_mul c d)) <= bpow radix2 405).
  { unfold Rminus. apply Rle_trans with (1 := Rabs_triang _ _). rewrite Rabs_Ropp. assert (Q : bpow radix2 405 = 2 * bpow radix2 404) by exact (double_pow 404). lra. }
  destruct (sub_fin _ _ 405 F1 F2 ltac:(lia) S) as [F V]. fold m in F, V. split.
  - split; [exact F|]. rewrite V. apply Rle_trans with (bpow radix2 405); [apply rnd_bound; [lia|exact S]|apply bpow_le; lia].
  - rewrite V. set (p := B2R (b64_mul a b)) in *. set (q := B2R (b64_mul c d)) in *. set (X := x * y) in *. set (Y := z * w) in *.
    assert (N1 : 0 <= Rabs X) by apply Rabs_pos. assert (N2 : 0 <= Rabs Y) by apply Rabs_pos. set (h := eta) in *. set (v := u) in *.
    assert (G1 : - Rabs X <= X <= Rabs X) by (apply Rabs_le_inv, Rle_refl). assert (G2 : - Rabs Y <= Y <= Rabs Y) by (apply Rabs_le_inv, Rle_refl).
    apply Rabs_le_inv in E1. apply Rabs_le_inv in E2. assert (V1 : 0 <= v * Rabs X <= / 1000 * Rabs X) by (split; [apply Rmult_le_pos; lra|apply Rmult_le_compat_r; lra]). assert (V2 : 0 <= v * Rabs Y <= / 1000 * Rabs Y) by (split; [apply Rmult_le_pos; lra|apply Rmult_le_compat_r; lra]).
    assert (M : Rabs (p - q) <= 1.01 * (Rabs X + Rabs Y) + 2 * h) by (apply Rabs_le; lra). pose proof (rnd_error (p - q) _ M) as R. fold h v in R. assert (v * h <= / 1000 * h) by (apply Rmult_le_compat_r; lra). apply Rabs_le. lra.
Qed.

(** Sums of three products of a close number and a minor *)
Lemma term_close a c x C S h : Rabs (B2R a - x) <= u * Rabs x -> Rabs (c - C) <= 4.1 * u * S + 4 * h -> Rabs C <= S -> 0 <= h -> Rabs x <= bpow radix2 202 ->
  Rabs (B2R (a : b64) * c - x * C) <= 5.2 * u * (Rabs x * S) + 5 * (h * bpow radix2 202) /\ Rabs (B2R a * c) <= 1.01 * (Rabs x * S) + 5 * (h * bpow radix2 202).
Proof.
  intros A E CS H X. pose proof u_small as US. set (K := bpow radix2 202) in *. pose proof (Rabs_pos x) as X0. pose proof (Rabs_pos C) as C0. assert (S0 : 0 <= S) by lra. set (v := u) in *.
  assert (CC : Rabs c <= 1.005 * S + 4 * h). { replace c with (c - C + C) by ring. apply Rle_trans with (1 := Rabs_triang _ _). assert (v * S <= / 1000 * S) by (apply Rmult_le_compat_r; lra). lra. }
  assert (XS : 0 <= Rabs x * S) by (apply Rmult_le_pos; assumption). assert (XH : 0 <= Rabs x * h <= h * K) by (split; [apply Rmult_le_pos; lra|rewrite (Rmult_comm h); apply Rmult_le_compat_r; lra]).
  assert (VX : 0 <= v * (Rabs x * S) <= / 1000 * (Rabs x * S)) by (split; [apply Rmult_le_pos; lra|apply Rmult_le_compat_r; lra]). assert (VH : 0 <= v * (Rabs x * h) <= / 1000 * (Rabs x * h)) by (split; [apply Rmult_le_pos; lra|apply Rmult_le_compat_r; lra]).
  assert (D : Rabs (B2R a * c - x * C) <= 5.2 * v * (Rabs x * S) + 5 * (h * K)).
  { replace (B2R a * c - x * C) with ((B2R a - x) * c + x * (c - C)) by ring. apply Rle_trans with (1 := Rabs_triang _ _). rewrite !Rabs_mult.
    assert (T1 : Rabs (B2R a - x) * Rabs c <= v * Rabs x * (1.005 * S + 4 * h)) by (apply Rmult_le_compat; auto using Rabs_pos). assert (T2 : Rabs x * Rabs (c - C) <= Rabs x * (4.1 * v * S + 4 * h)) by (apply Rmult_le_compat_l; assumption). lra. }
  split; [exact D|]. replace (B2R a * c) with (B2R a * c - x * C + x * C) by ring. apply Rle_trans with (1 := Rabs_triang _ _). rewrite (Rabs_mult x C). assert (Rabs x * Rabs C <= Rabs x * S) by (apply Rmult_le_compat_l; assumption). lra.
Qed.
Lemma close_moderate v e : close_vec v e -> moderate_vec v.
Proof. assert (K : forall a x, close a x -> moderate a) by (intros a x (F & B & _); split; [exact F|apply Rle_trans with (1 := B), bpow_le; lia]). intros (A & B & C). repeat split; (apply K in A; apply K in B; apply K in C); (apply A || apply B || apply C). Qed.
Lemma cross_close d q D Q : close_vec d D -> close_vec q Q -> moderate_vec (fcross d q) /\
  Rabs (B2R (fx (fcross d q)) - vx (cross D Q)) <= 4.1 * u * (Rabs (vy D * vz Q) + Rabs (vz D * vy Q)) + 4 * eta /\
  Rabs (B2R (fy (fcross d q)) - vy (cross D Q)) <= 4.1 * u * (Rabs (vz D * vx Q) + Rabs (vx D * vz Q)) + 4 * eta /\
  Rabs (B2R (fz (fcross d q)) - vz (cross D Q)) <= 4.1 * u * (Rabs (vx D * vy Q) + Rabs (vy D * vx Q)) + 4 * eta.
Proof.
  intros (D1 & D2 & D3) (Q1 & Q2 & Q3). destruct (minor_close _ _ _ _ _ _ _ _ D2 Q3 D3 Q2) as [M1 E1]. destruct (minor_close _ _ _ _ _ _ _ _ D3 Q1 D1 Q3) as [M2 E2]. destruct (minor_close _ _ _ _ _ _ _ _ D1 Q2 D2 Q1) as [M3 E3].
  split; [repeat split; (apply M1 || apply M2 || apply M3)|]. repeat split; assumption.
Qed.
Lemma tri_sum p1 p2 : Rabs (p1 - p2) <= Rabs p1 + Rabs p2.
Proof. unfold Rminus. apply Rle_trans with (1 := Rabs_triang _ _). rewrite Rabs_Ropp. lra. Qed.
Lemma triple_close p d q P D Q : close_vec p P -> close_vec d D -> close_vec q Q ->
  (is_finite (fdot p (fcross d q)) = true /\ Rabs (B2R (fdot p (fcross d q))) <= bpow radix2 1002 /\ Rabs (B2R (fdot p (fcross d q)) - dot P (cross D Q)) <= unsure P D Q) /\
  (is_finite (fdot (fcross d q) p) = true /\ Rabs (B2R (fdot (fcross d q) p)) <= bpow radix2 1002 /\ Rabs (B2R (fdot (fcross d q) p) - dot P (cross D Q)) <= unsure P D Q).
Proof.
  intros CP CD CQ. destruct (cross_close d q D Q CD CQ) as (M & E1 & E2 & E3). pose proof (close_moderate p P CP) as MP. set (c := fcross d q) in *.
  destruct CP as ((_ & _ & X1 & R1) & (_ & _ & X2 & R2) & (_ & _ & X3 & R3)). unfold rel in R1, R2, R3. pose proof (bpow_ge_0 radix2 (-1075)) as H0. pose proof u_small as US.
  destruct (term_close _ _ _ _ _ eta R1 E1 (tri_sum _ _) H0 X1) as [T1 S1]. destruct (term_close _ _ _ _ _ eta R2 E2 (tri_sum _ _) H0 X2) as [T2 S2]. destruct (term_close _ _ _ _ _ eta R3 E3 (tri_sum _ _) H0 X3) as [T3 S3].
  assert (SZ : size P D Q = Rabs (vx P) * (Rabs (vy D * vz Q) + Rabs (vz D * vy Q)) + Rabs (vy P) * (Rabs (vz D * vx Q) + Rabs (vx D * vz Q)) + Rabs (vz P) * (Rabs (vx D * vy Q) + Rabs (vy D * vx Q))) by (unfold size; rewrite !Rabs_mult; ring).
  assert (EU : bpow radix2 (-49) = 16 * u) by (change (-49)%Z with (4 + -53)%Z; rewrite bpow_plus; reflexivity).
  assert (TINY : 20 * (eta * bpow radix2 202) + 6 * eta <= bpow radix2 (-700)).
  { assert (W : eta <= eta * bpow radix2 202) by (rewrite <- (Rmult_1_r eta) at 1; apply Rmult_le_compat_l; [exact H0|]; change 1 with (bpow radix2 0); apply bpow_le; lia). apply Rle_trans with (32 * (eta * bpow radix2 202)); [lra|].
    change 32 with (bpow radix2 5). rewrite <- !bpow_plus. apply bpow_le. lia. }
  set (g := eta * bpow radix2 202) in *. assert (G0 : 0 <= g) by (apply Rmult_le_pos; apply bpow_ge_0).
  set (s1 := Rabs (vx P) * (Rabs (vy D * vz Q) + Rabs (vz D * vy Q))) in *. set (s2 := Rabs (vy P) * (Rabs (vz D * vx Q) + Rabs (vx D * vz Q))) in *. set (s3 := Rabs (vz P) * (Rabs (vx D * vy Q) + Rabs (vy D * vx Q))) in *.
  assert (N1 : 0 <= s1) by (apply Rmult_le_pos; [apply Rabs_pos|apply Rplus_le_le_0_compat; apply Rabs_pos]). assert (N2 : 0 <= s2) by (apply Rmult_le_pos; [apply Rabs_pos|apply Rplus_le_le_0_compat; apply Rabs_pos]). assert (N3 : 0 <= s3) by (apply Rmult_le_pos; [apply Rabs_pos|apply Rplus_le_le_0_compat; apply Rabs_pos]).
  apply Rabs_le_inv in T1. apply Rabs_le_inv in T2. apply Rabs_le_inv in T3.
  assert (FIN : forall v e m, 0 <= e <= 6 * eta + u * (3 + / 4) * m -> m <= 1.01 * (s1 + s2 + s3) + 15 * g ->
    - e <= v - (B2R (fx p) * B2R (fx c) + B2R (fy p) * B2R (fy c) + B2R (fz p) * B2R (fz c)) <= e -> Rabs (v - dot P (cross D Q)) <= unsure P D Q).
  { intros v e m He Hm Hv. unfold unsure. rewrite EU, SZ. unfold dot. set (U := u) in *. assert (UM : U * m <= U * (1.01 * (s1 + s2 + s3) + 15 * g)) by (apply Rmult_le_compat_l; lra). assert (UG : U * g <= / 1000 * g) by (apply Rmult_le_compat_r; lra).
    assert (UN : 0 <= U * (s1 + s2 + s3)) by (apply Rmult_le_pos; lra).
    set (a1 := B2R (fx p) * B2R (fx c)) in *. set (a2 := B2R (fy p) * B2R (fy c)) in *. set (a3 := B2R (fz p) * B2R (fz c)) in *. set (b1 := vx P * vx (cross D Q)) in *. set (b2 := vy P * vy (cross D Q)) in *. set (b3 := vz P * vz (cross D Q)) in *. clearbody a1 a2 a3 b1 b2 b3 s1 s2 s3 g U.
    apply Rabs_le. lra. }
  split.
  - destruct (dot_error p c MP M) as (F & B & e & He & Hv). split; [exact F|]. split; [exact B|]. apply (FIN _ e _ He); [lra|exact Hv].
  - destruct (dot_error c p M MP) as (F & B & e & He & Hv). split; [exact F|]. split; [exact B|]. rewrite (Rmult_comm (B2R (fx c))), (Rmult_comm (B2R (fy c))), (Rmult_comm (B2R (fz c))) in He.
    apply (FIN _ e _ He); [lra|]. unfold dot, exact_vec in Hv. cbn [vx vy vz] in Hv. rewrite (Rmult_comm (B2R (fx c))), (Rmult_comm (B2R (fy c))), (Rmult_comm (B2R (fz c))) in Hv. exact Hv.
Qed.

(** The tests of the function *)
Lemma unsure_swap a b c : unsure c b a = unsure a b c.
Proof. unfold unsure, size. rewrite !Rabs_mult. ring. Qed.
Lemma unsure_turn a b c : unsure c a b = unsure a b c.
Proof. unfold unsure, size. rewrite !Rabs_mult. ring. Qed.
Lemma unsure_pos a b c : 0 < unsure a b c.
Proof.
  unfold unsure, size. apply Rplus_le_lt_0_compat; [|apply bpow_gt_0]. apply Rmult_le_pos; [apply bpow_ge_0|]. repeat apply Rplus_le_le_0_compat; apply Rabs_pos.
Qed.
Section Tests.
  Variables (t : ftri) (r : fray).
  Hypothesis MT : mild_tri t.
  Hypothesis MR : mild_ray r.
  Let T := exact_tri t.
  Let Y := exact_ray r.
  Lemma weight_a_close : is_finite (fweight_a t r) = true /\ Rabs (B2R (fweight_a t r)) <= bpow radix2 1002 /\ Rabs (B2R (fweight_a t r) - beside Y (pb T) (pc T)) <= edge_unsure Y (pb T) (pc T).
  Proof. destruct MT as (A & B & C). destruct MR as (O & D). apply (proj1 (triple_close _ _ _ _ _ _ (minus_close _ _ B O) (mild_close _ D) (minus_close _ _ C O))). Qed.
  Lemma weight_c_close : is_finite (fweight_c t r) = true /\ Rabs (B2R (fweight_c t r)) <= bpow radix2 1002 /\ Rabs (B2R (fweight_c t r) - beside Y (pa T) (pb T)) <= edge_unsure Y (pa T) (pb T).
  Proof. destruct MT as (A & B & C). destruct MR as (O & D). apply (proj1 (triple_close _ _ _ _ _ _ (minus_close _ _ A O) (mild_close _ D) (minus_close _ _ B O))). Qed.
  Lemma weight_b_close : is_finite (fweight_b t r) = true /\ Rabs (B2R (fweight_b t r)) <= bpow radix2 1002 /\ Rabs (B2R (fweight_b t r) - beside Y (pc T) (pa T)) <= edge_unsure Y (pc T) (pa T).
  Proof.
    destruct MT as (A & B & C). destruct MR as (O & D). destruct (proj1 (triple_close _ _ _ _ _ _ (minus_close _ _ A O) (mild_close _ D) (minus_close _ _ C O))) as (F & K & E).
    unfold fweight_b. rewrite is_finite_Bopp, B2R_Bopp, Rabs_Ropp. split; [exact F|]. split; [exact K|]. unfold edge_unsure. rewrite unsure_swap. rewrite <- Rabs_Ropp. eapply Rle_trans; [|exact E]. right. f_equal. unfold beside, from_origin. cbn [Y T exact_ray exact_tri rorigin rdirection pa pb pc].
    unfold dot, cross. cbn [vx vy vz]. ring.
  Qed.
  Lemma facing_close : is_finite (fdot (ftri_normal t) (frdirection r)) = true /\ Rabs (B2R (fdot (ftri_normal t) (frdirection r)) - facing T (rdirection Y)) <= face_unsure T (rdirection Y).
  Proof.
    destruct MT as (A & B & C). destruct MR as (O & D). destruct (proj2 (triple_close _ _ _ _ _ _ (mild_close _ D) (minus_close _ _ B A) (minus_close _ _ C A))) as (F & K & E). split; [exact F|].
    unfold face_unsure, facing. rewrite <- unsure_turn. rewrite (dot_comm (cross _ _)). exact E.
  Qed.
  Lemma height_close p : mild_vec p -> is_finite (fdot (ftri_normal t) p) = true /\ Rabs (B2R (fdot (ftri_normal t) p) - facing T (exact_vec p)) <= face_unsure T (exact_vec p).
  Proof.
    intros P. destruct MT as (A & B & C). destruct (proj2 (triple_close _ _ _ _ _ _ (mild_close _ P) (minus_close _ _ B A) (minus_close _ _ C A))) as (F & K & E). split; [exact F|].
    unfold face_unsure, facing. rewrite <- unsure_turn. rewrite (dot_comm (cross _ _)). exact E.
  Qed.
  Definition tests : Prop :=
    0 <= B2R (fweight_a t r) /\ 0 <= B2R (fweight_b t r) /\ 0 <= B2R (fweight_c t r) /\ B2R (fdot (ftri_normal t) (frdirection r)) < 0 /\ B2R (fdot (ftri_normal t) (fta t)) < B2R (fdot (ftri_normal t) (frorigin r)).
  Lemma ble (x y : b64) : is_finite x = true -> is_finite y = true -> Bleb x y = true <-> B2R x <= B2R y.
  Proof. intros FX FY. rewrite (Bleb_correct _ _ x y FX FY). destruct (Rle_bool_spec (B2R x) (B2R y)); split; intros; try lra; try reflexivity; discriminate. Qed.
  Lemma ble_false (x y : b64) : is_finite x = true -> is_finite y = true -> Bleb x y = false <-> B2R y < B2R x.
  Proof. intros FX FY. rewrite (Bleb_correct _ _ x y FX FY). destruct (Rle_bool_spec (B2R x) (B2R y)); split; intros; try lra; try reflexivity; discriminate. Qed.
  Definition scaled_weights : fvec :=
    let denom := b64_div b64_1 (b64_add (b64_add (fweight_a t r) (fweight_b t r)) (fweight_c t r)) in
    FV (b64_mul (fweight_a t r) denom) (b64_mul (fweight_b t r) denom) (b64_mul (fweight_c t r) denom).
  Lemma hit_iff w : fhit_barycentric t r = Some w <-> tests /\ w = scaled_weights.
  Proof.
    destruct weight_a_close as (F1 & _). destruct weight_b_close as (F2 & _). destruct weight_c_close as (F3 & _). destruct facing_close as (F4 & _). destruct (height_close (frorigin r) (proj1 MR)) as (F5 & _). destruct (height_close (fta t) (proj1 MT)) as (F6 & _).
    unfold fhit_barycentric, tests. cbv zeta. fold scaled_weights.
    destruct (Bltb (fweight_a t r) b64_0) eqn:E1; [apply blt in E1; auto; change (B2R b64_0) with 0 in E1; split; [discriminate|intros [K _]; lra]|apply blt_false in E1; auto; change (B2R b64_0) with 0 in E1].
    destruct (Bltb (fweight_b t r) b64_0) eqn:E2; [apply blt in E2; auto; change (B2R b64_0) with 0 in E2; split; [discriminate|intros [K _]; lra]|apply blt_false in E2; auto; change (B2R b64_0) with 0 in E2].
    destruct (Bltb (fweight_c t r) b64_0) eqn:E3; [apply blt in E3; auto; change (B2R b64_0) with 0 in E3; split; [discriminate|intros [K _]; lra]|apply blt_false in E3; auto; change (B2R b64_0) with 0 in E3].
    destruct (Bleb b64_0 _) eqn:E4; [apply ble in E4; auto; change (B2R b64_0) with 0 in E4; split; [discriminate|intros [K _]; lra]|apply ble_false in E4; auto; change (B2R b64_0) with 0 in E4].
    destruct (Bleb _ _) eqn:E5; [apply ble in E5; auto; split; [discriminate|intros [K _]; lra]|apply ble_false in E5; auto].
    split; [intros K; injection K as <-; split; [repeat split; assumption|reflexivity]|intros [_ ->]; reflexivity].
  Qed.
End Tests.

(** Coordinates of a reported hit *)
Lemma sum_pos_close (x y : b64) : is_finite x = true -> is_finite y = true -> 0 <= B2R x <= bpow radix2 1010 -> 0 <= B2R y <= bpow radix2 1010 ->
  is_finite (b64_add x y) = true /\ 0 <= B2R (b64_add x y) <= bpow radix2 1011 /\ rel u (B2R (b64_add x y)) (B2R x + B2R y).
Proof.
  intros FX FY X Y. assert (Q : bpow radix2 1011 = 2 * bpow radix2 1010) by exact (double_pow 1010). assert (S : Rabs (B2R x + B2R y) <= bpow radix2 1011) by (rewrite Rabs_pos_eq; lra).
  destruct (add_fin x y 1011 FX FY ltac:(lia) S) as [F V]. split; [exact F|]. rewrite V. split.
  - split; [apply rnd_at_least; [apply generic_format_0|lra]|]. apply Rle_trans with (1 := Rle_abs _), rnd_bound; [lia|exact S].
  - apply sum_relative; apply generic_format_B2R.
Qed.
Lemma one_over (s : b64) : is_finite s = true -> 0 <= B2R s <= bpow radix2 1012 -> is_finite (b64_div b64_1 s) = true -> 0 < B2R s /\ Rabs (B2R (b64_div b64_1 s) * B2R s - 1) <= 2 * u /\ 0 <= B2R (b64_div b64_1 s).
Proof.
  intros F S K. destruct one_value as [V1 F1]. assert (P : 0 < B2R s).
  { destruct (Rle_lt_or_eq_dec _ _ (proj1 S)) as [H|H]; [exact H|]. exfalso. assert (N1 : B2R b64_1 <> 0) by (rewrite V1; lra). destruct (div_cases b64_1 s F1 N1 F) as [X|(X & _)]; [|lra].
    destruct s as [sg| | |sg m e HH]; try discriminate. cbn in H. symmetry in H. apply eq_0_F2R in H. destruct sg; discriminate. }
  split; [exact P|]. pose proof u_small as US.
  assert (C := Bdiv_correct 53 1024 b64_prec_gt_0 b64_prec_lt_emax mode_NE b64_1 s ltac:(lra)). fold (b64_div b64_1 s) in C. change (SpecFloat.fexp 53 1024) with f64 in C. cbn [round_mode] in C.
  destruct (Rlt_bool _ _).
  - destruct C as (V & _). rewrite V, V1. assert (I : bpow radix2 (-1015) <= 1 / B2R s). { unfold Rdiv. rewrite Rmult_1_l. change (-1015)%Z with (- (1015))%Z. rewrite bpow_opp. apply Rinv_le; [exact P|]. apply Rle_trans with (1 := proj2 S), bpow_le. lia. }
    assert (G : Rabs (rnd (1 / B2R s) - 1 / B2R s) <= u * Rabs (1 / B2R s)).
    { pose proof (relative_error_N_FLT radix2 (3 - 1024 - 53) 53 eq_refl (fun x => negb (Z.even x)) (1 / B2R s)) as KK. replace (/ 2 * bpow radix2 (- (53) + 1)) with u in KK by (change (- (53) + 1)%Z with (1 + -53)%Z; rewrite bpow_plus; change (bpow radix2 1) with 2; field).
      apply KK. rewrite Rabs_pos_eq by (left; apply Rdiv_lt_0_compat; lra). apply Rle_trans with (2 := I), bpow_le. lia. }
    pose proof (bpow_gt_0 radix2 (-1015)) as B0. rewrite (Rabs_pos_eq (1 / B2R s)) in G by lra. split; [|apply rnd_at_least; [apply generic_format_0|lra]].
    replace (rnd (1 / B2R s) * B2R s - 1) with ((rnd (1 / B2R s) - 1 / B2R s) * B2R s) by (field; lra). rewrite Rabs_mult, (Rabs_pos_eq (B2R s)) by lra.
    apply Rle_trans with (u * (1 / B2R s) * B2R s); [apply Rmult_le_compat_r; lra|]. replace (u * (1 / B2R s) * B2R s) with u by (field; lra). lra.
  - exfalso. revert C K. generalize (b64_div b64_1 s). intros z C K. unfold binary_overflow in C. cbn [overflow_to_inf] in C. destruct z as [ |sg| | ]; try discriminate C. discriminate K.
Qed.
Lemma mul_pos_close (x k : b64) S : is_finite x = true -> is_finite k = true -> 0 <= B2R x <= S -> 0 <= B2R k -> B2R k * S <= 2 -> is_finite (b64_mul x k) = true /\ 0 <= B2R (b64_mul x k) /\ Rabs (B2R (b64_mul x k) - B2R x * B2R k) <= u * (B2R x * B2R k) + eta.
Proof.
  intros FX FK X K KS. assert (P : 0 <= B2R x * B2R k <= 2) by (split; [apply Rmult_le_pos; lra|]; apply Rle_trans with (S * B2R k); [apply Rmult_le_compat_r; lra|lra]).
  assert (A : Rabs (B2R x * B2R k) <= bpow radix2 1) by (rewrite Rabs_pos_eq by lra; change (bpow radix2 1) with 2; lra). destruct (mul_fin x k 1 FX FK ltac:(lia) A) as [F V]. split; [exact F|]. rewrite V. split; [apply rnd_at_least; [apply generic_format_0|lra]|].
  apply Rabs_le. pose proof (rnd_error (B2R x * B2R k) _ (Rle_refl _)) as R. rewrite (Rabs_pos_eq (B2R x * B2R k)) in R by lra. exact R.
Qed.
Lemma coordinates_sum (x y z : b64) : is_finite x = true -> is_finite y = true -> is_finite z = true -> 0 <= B2R x <= bpow radix2 1002 -> 0 <= B2R y <= bpow radix2 1002 -> 0 <= B2R z <= bpow radix2 1002 ->
  let k := b64_div b64_1 (b64_add (b64_add x y) z) in is_finite k = true ->
  0 <= B2R (b64_mul x k) /\ 0 <= B2R (b64_mul y k) /\ 0 <= B2R (b64_mul z k) /\ Rabs (B2R (b64_mul x k) + B2R (b64_mul y k) + B2R (b64_mul z k) - 1) <= bpow radix2 (-50) /\
  is_finite (b64_mul x k) = true /\ is_finite (b64_mul y k) = true /\ is_finite (b64_mul z k) = true /\
  let S := B2R x + B2R y + B2R z in Rabs (B2R (b64_mul x k) * S - B2R x) <= bpow radix2 (-50) * S /\ Rabs (B2R (b64_mul y k) * S - B2R y) <= bpow radix2 (-50) * S /\ Rabs (B2R (b64_mul z k) * S - B2R z) <= bpow radix2 (-50) * S.
Proof.
  intros FX FY FZ X Y Z k FK. assert (W : forall i j, (i <= j)%Z -> bpow radix2 i <= bpow radix2 j) by (intros; apply bpow_le; assumption). pose proof (W 1002%Z 1010%Z ltac:(lia)) as W1. pose proof u_small as US.
  destruct (sum_pos_close x y FX FY ltac:(lra) ltac:(lra)) as (F1 & B1 & R1).
  (* the second sum *)
  assert (D1 : bpow radix2 1003 = 2 * bpow radix2 1002) by exact (double_pow 1002). assert (D2 : bpow radix2 1004 = 2 * bpow radix2 1003) by exact (double_pow 1003). pose proof (W 1004%Z 1010%Z ltac:(lia)) as W2. pose proof (bpow_gt_0 radix2 1002) as P0.
  assert (B1' : B2R (b64_add x y) <= bpow radix2 1004). { unfold rel in R1. rewrite (Rabs_pos_eq (B2R x + B2R y)) in R1 by lra. apply Rabs_le_inv in R1. assert (u * (B2R x + B2R y) <= / 1000 * (B2R x + B2R y)) by (apply Rmult_le_compat_r; lra). lra. }
  destruct (sum_pos_close (b64_add x y) z F1 FZ ltac:(lra) ltac:(lra)) as (F2 & B2 & R2). set (s := b64_add (b64_add x y) z) in *. pose proof (W 1011%Z 1012%Z ltac:(lia)) as W3.
  destruct (one_over s F2 ltac:(lra) FK) as (S0 & KS & K0). fold k in KS, K0.
  set (a := B2R x) in *. set (b := B2R y) in *. set (c := B2R z) in *. set (g := B2R k) in *. set (sv := B2R s) in *. set (q := B2R (b64_add x y)) in *.
  unfold rel in R1, R2. rewrite (Rabs_pos_eq (a + b)) in R1 by lra. rewrite (Rabs_pos_eq (q + c)) in R2 by lra. set (v := u) in *.
  apply Rabs_le_inv in R1. apply Rabs_le_inv in R2. apply Rabs_le_inv in KS. set (S := a + b + c). assert (SP : 0 <= S) by (unfold S; lra).
  assert (V1 : v * (a + b) <= v * S) by (apply Rmult_le_compat_l; unfold S; lra). assert (V0 : 0 <= v * S <= / 1000 * S) by (split; [apply Rmult_le_pos; lra|apply Rmult_le_compat_r; lra]).
  assert (Q1 : v * (q + c) <= v * S + v * (v * S)) by (replace (v * S + v * (v * S)) with (v * (S + v * S)) by ring; apply Rmult_le_compat_l; unfold S in *; lra). assert (VV : 0 <= v * (v * S) <= / 1000 * (v * S)) by (split; [apply Rmult_le_pos; lra|apply Rmult_le_compat_r; lra]).
  assert (SV : - (2.01 * (v * S)) <= sv - S <= 2.01 * (v * S)) by (unfold S in *; lra). assert (SS : S <= 1.01 * sv) by lra.
  assert (GS : Rabs (g * S - 1) <= 4.1 * v).
  { assert (GE : g * S <= 1.02). { apply Rle_trans with (g * (1.01 * sv)); [apply Rmult_le_compat_l; lra|]. lra. }
    assert (G0 : 0 <= g * S) by (apply Rmult_le_pos; lra). replace (g * S - 1) with ((g * sv - 1) - g * (sv - S)) by ring.
    assert (- (2.01 * v * (g * S)) <= g * (sv - S) <= 2.01 * v * (g * S)). { split; [replace (- (2.01 * v * (g * S))) with (g * - (2.01 * (v * S))) by ring|replace (2.01 * v * (g * S)) with (g * (2.01 * (v * S))) by ring]; apply Rmult_le_compat_l; lra. }
    assert (v * (g * S) <= v * 1.02) by (apply Rmult_le_compat_l; lra). apply Rabs_le. lra. }
  apply Rabs_le_inv in GS. assert (GS2 : g * S <= 2) by lra.
  destruct (mul_pos_close x k S FX FK ltac:(fold a; unfold S; lra) K0 GS2) as (M1 & P1 & E1). destruct (mul_pos_close y k S FY FK ltac:(fold b; unfold S; lra) K0 GS2) as (M2 & P2 & E2). destruct (mul_pos_close z k S FZ FK ltac:(fold c; unfold S; lra) K0 GS2) as (M3 & P3 & E3).
  fold a g v in E1. fold b g v in E2. fold c g v in E3. apply Rabs_le_inv in E1. apply Rabs_le_inv in E2. apply Rabs_le_inv in E3.
  assert (EW : bpow radix2 (-50) = 8 * v) by (change (-50)%Z with (3 + -53)%Z; rewrite bpow_plus; reflexivity). rewrite EW. assert (H : eta <= / 1000 * v).
  { apply Rle_trans with (bpow radix2 (-10) * v); [unfold v; rewrite <- bpow_plus; apply bpow_le; lia|]. change (bpow radix2 (-10)) with (/ 1024). apply Rmult_le_compat_r; lra. }
  assert (ONE : forall p w, 0 <= p <= S -> - (v * (p * g) + eta) <= w - p * g <= v * (p * g) + eta -> Rabs (w * S - p) <= 8 * v * S).
  { intros p w PS E. replace (w * S - p) with (p * (g * S - 1) + (w - p * g) * S) by ring. assert (A1 : - (p * (4.1 * v)) <= p * (g * S - 1) <= p * (4.1 * v)) by (split; [rewrite Ropp_mult_distr_r|]; apply Rmult_le_compat_l; lra).
    assert (A2 : p * (4.1 * v) <= S * (4.1 * v)) by (apply Rmult_le_compat_r; lra).
    assert (A3 : - ((v * (p * g) + eta) * S) <= (w - p * g) * S <= (v * (p * g) + eta) * S) by (split; [rewrite Ropp_mult_distr_l|]; apply Rmult_le_compat_r; lra).
    assert (A4 : v * p * (g * S) <= v * p * 1.02) by (apply Rmult_le_compat_l; [apply Rmult_le_pos; lra|lra]). assert (A5 : v * p <= v * S) by (apply Rmult_le_compat_l; lra). assert (A6 : eta * S <= / 1000 * v * S) by (apply Rmult_le_compat_r; lra).
    apply Rabs_le. lra. }
  split; [exact P1|]. split; [exact P2|]. split; [exact P3|]. split; [|split; [exact M1|split; [exact M2|split; [exact M3|cbv zeta; fold S; split; [|split]; (apply ONE; [unfold S; lra|lra])]]]].
  assert (T : v * (g * S) <= v * 1.02) by (apply Rmult_le_compat_l; lra). assert (T0 : 0 <= v * (g * S)) by (apply Rmult_le_pos; [lra|]; apply Rmult_le_pos; lra). replace (v * (g * S)) with (v * (a * g) + v * (b * g) + v * (c * g)) in T, T0 by (unfold S; ring). replace (g * S) with (a * g + b * g + c * g) in GS by (unfold S; ring).
  apply Rabs_le. lra.
Qed.
