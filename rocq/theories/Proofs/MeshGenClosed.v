(** The solids of the mesh generators are closed. *)
From Coq Require Import ZArith Reals List Bool Arith Lia Lra.
From Verif Require Import Model.Scalar Model.Vec Model.Aabb Model.Mesh Model.Interp Model.Bezier Model.Transforms Model.MeshGen Spec.MeshGenSpec Spec.ClosedSpec
  Proofs.VecLemmas Proofs.MeshGenLoops Proofs.MeshGenResult Proofs.MeshGenInv Proofs.MeshGenTotal Proofs.MeshGenMain Proofs.MeshGenSurface Proofs.MeshGenChains.
Import ListNotations.
Local Open Scope R_scope.

Definition patch_sum (w : vec3 -> vec3 -> R) (P : mesh_patch) : R := esum w (map (tmap (fun l => position (p_at P l))) (p_tris P)).
Lemma patches_esum w ps : esum w (map (tmap position) (flat_map (fun p => map (tmap (p_at p)) (p_tris p)) ps)) = fold_right Rplus 0 (map (patch_sum w) ps).
Proof.
  induction ps as [|P ps IH]; [reflexivity|]. cbn [flat_map map fold_right]. rewrite map_app, esum_app, IH. f_equal. unfold patch_sum.
  f_equal. rewrite map_map. apply map_ext. intros [[a b] c]. reflexivity.
Qed.
Lemma patch_sum_at w P q : (forall i j, position (p_at P (i, j)) = q i j) ->
  patch_sum w P = esum w (map (tmap (fun l => q (fst l) (snd l))) (p_tris P)).
Proof. intros E. unfold patch_sum. f_equal. apply map_ext. intros [[[a1 a2] [b1 b2]] [c1 c2]]. cbn. rewrite !E. reflexivity. Qed.

Section Closed.
Variable w : vec3 -> vec3 -> R.
Hypothesis anti : forall p q, (w p q = - w q p)%R.
Notation bd := (boundary w).

Lemma grid_patch P q o ac M C : p_tris P = grid o ac M C -> (forall i j, position (p_at P (i, j)) = q i j) -> (patch_sum w P = sign o * bd q M C)%R.
Proof. intros T E. rewrite (patch_sum_at w P q E), T. now apply grid_esum. Qed.

Lemma frac0 n : frac 0 n = 0.
Proof. unfold frac. cbn. ring. Qed.
Lemma frac1 n : (0 < n)%nat -> frac n n = 1.
Proof. intros H. unfold frac. field. apply not_0_INR. num. Qed.
Lemma frac_rev i n : (i <= n)%nat -> (0 < n)%nat -> frac (n - i) n = 1 - frac i n.
Proof. intros L H. unfold frac. rewrite minus_INR by assumption. field. apply not_0_INR. num. Qed.

(** Points of the parts *)
Definition mq (start step rx rz half : R) (V i j : nat) : vec3 :=
  V3 (sin (at_angle start step i) * rx) (half * (1 - 2 * frac j V)) (cos (at_angle start step i) * rz).
Definition dq (start step rx rz y : R) (K i j : nat) : vec3 :=
  V3 (frac j K * (sin (at_angle start step i) * rx)) y (frac j K * (cos (at_angle start step i) * rz)).
Definition wq (rx rz half side : R) (M V i j : nat) : vec3 :=
  V3 (frac i M * (sin side * rx)) (half * (1 - 2 * frac j V)) (frac i M * (cos side * rz)).
Definition rq (ri ro : vec2) (step y : R) (K i j : nat) : vec3 :=
  V3 (sin (at_angle 0 step i) * (x2 ri + frac j K * (x2 ro - x2 ri))) y (cos (at_angle 0 step i) * (y2 ri + frac j K * (y2 ro - y2 ri))).

Lemma mantle_sum alt rev start step rx rz half side H V :
  (patch_sum w (mantle_patch alt rev start step rx rz half side H V) = (if rev then 1 else -1) * bd (mq start step rx rz half V) H V)%R.
Proof.
  rewrite (grid_patch _ (mq start step rx rz half V) (if rev then O0 else O1) (diagonal alt) H V); [now destruct rev|reflexivity|].
  intros i j. apply vec3_ext; cbn; unfold lerp; ring.
Qed.
Lemma wall_sum alt rev rx rz half side noff tc0 tc1 M V :
  (patch_sum w (wall_patch alt rev rx rz half side noff tc0 tc1 M V) = (if rev then 1 else -1) * bd (wq rx rz half side M V) M V)%R.
Proof.
  rewrite (grid_patch _ (wq rx rz half side M V) (if rev then O0 else O1) (diagonal alt) M V); [now destruct rev|reflexivity|].
  intros i j. apply vec3_ext; cbn; unfold lerp; ring.
Qed.
Lemma ring_sum d up step y side H K :
  (patch_sum w (ring_patch d up step y side H K) = (if up then -1 else 1) * bd (rq (pp_inner d) (pp_outer d) step y K) H K)%R.
Proof.
  rewrite (grid_patch _ (rq (pp_inner d) (pp_outer d) step y K) (if up then O1 else O0) (diagonal (pp_alt d)) H K); [now destruct up|reflexivity|].
  intros i j. apply vec3_ext; cbn; ring.
Qed.
Lemma disc_sum alt up start step rx rz y side H K : (0 < K)%nat ->
  (patch_sum w (disc_patch alt up start step rx rz y side H K) = (if up then -1 else 1) * bd (dq start step rx rz y K) H K)%R.
Proof.
  intros HK. rewrite (patch_sum_at w _ (dq start step rx rz y K)).
  - cbn [p_tris disc_patch]. rewrite disc_esum by (try assumption; intros i; unfold dq; rewrite !frac0; apply vec3_ext; cbn; ring). now destruct up.
  - intros i j. cbn [p_at disc_patch fst snd]. destruct j as [|j]; [|apply vec3_ext; cbn -[frac]; ring].
    unfold dq. rewrite frac0. apply vec3_ext; cbn; ring.
Qed.

(** A full turn *)
Definition full (H : nat) : R := 1 / INR H * pi_2.
Lemma full_turn H : (0 < H)%nat -> at_angle 0 (full H) H = 2 * PI.
Proof. intros P. unfold at_angle, full, pi_2. field. apply not_0_INR. num. Qed.
Lemma angle_0 a s : at_angle a s 0 = a.
Proof. unfold at_angle. cbn. ring. Qed.
Lemma full_sin H : (0 < H)%nat -> sin (at_angle 0 (full H) H) = sin (at_angle 0 (full H) 0) /\ cos (at_angle 0 (full H) H) = cos (at_angle 0 (full H) 0).
Proof. intros P. rewrite full_turn, angle_0 by assumption. rewrite sin_2PI, cos_2PI, sin_0, cos_0. now split. Qed.

Lemma mq_turn rx rz half V H : (0 < H)%nat -> (bd (mq 0 (full H) rx rz half V) H V =
  chain w (fun i => mq 0 (full H) rx rz half V i 0) H - chain w (fun i => mq 0 (full H) rx rz half V i V) H)%R.
Proof.
  intros P. rewrite boundary_chain. rewrite (chain_ext w (mq 0 (full H) rx rz half V H) (mq 0 (full H) rx rz half V 0) V); [num|].
  intros j _. unfold mq. destruct (full_sin H P) as [-> ->]. reflexivity.
Qed.
Lemma rq_turn ri ro y K H : (0 < H)%nat -> (bd (rq ri ro (full H) y K) H K =
  chain w (fun i => rq ri ro (full H) y K i 0) H - chain w (fun i => rq ri ro (full H) y K i K) H)%R.
Proof.
  intros P. rewrite boundary_chain. rewrite (chain_ext w (rq ri ro (full H) y K H) (rq ri ro (full H) y K 0) K); [num|].
  intros j _. unfold rq. destruct (full_sin H P) as [-> ->]. reflexivity.
Qed.
(** Discs: the rim only, and the two radii if it is not a full turn *)
Lemma dq_rim start step rx rz y K H : (bd (dq start step rx rz y K) H K =
  - chain w (fun i => dq start step rx rz y K i K) H + (chain w (dq start step rx rz y K H) K - chain w (dq start step rx rz y K 0) K))%R.
Proof.
  rewrite boundary_chain, (chain_const w (fun i => dq start step rx rz y K i 0) H anti); [num|].
  intros i _. unfold dq. rewrite frac0. apply vec3_ext; cbn; ring.
Qed.
Lemma dq_turn rx rz y K H : (0 < H)%nat -> (bd (dq 0 (full H) rx rz y K) H K = - chain w (fun i => dq 0 (full H) rx rz y K i K) H)%R.
Proof.
  intros P. rewrite dq_rim. rewrite (chain_ext w (dq 0 (full H) rx rz y K H) (dq 0 (full H) rx rz y K 0) K); [num|].
  intros j _. unfold dq. destruct (full_sin H P) as [-> ->]. reflexivity.
Qed.

Ltac pts := intros; unfold mq, dq, wq, rq; apply vec3_ext; cbn [vx vy vz]; rewrite ?frac0, ?frac1 by num; field.

Definition total (ps : list mesh_patch) : R := fold_right Rplus 0 (map (patch_sum w) ps).

Lemma cylinder_closed d : cy_top d <> 0%nat -> cy_bottom d <> 0%nat -> total (patches (DCylinder d)) = 0.
Proof.
  intros T B. unfold total. cbn [patches]. set (H := Nat.max 3 (cy_u d)). set (V := Nat.max 1 (cy_v d)). fold (full H).
  assert (PH : (0 < H)%nat) by num. assert (PV : (0 < V)%nat) by num.
  replace (0 <? cy_bottom d)%nat with true by (symmetry; apply Nat.ltb_lt; num). replace (0 <? cy_top d)%nat with true by (symmetry; apply Nat.ltb_lt; num).
  cbn [when app map fold_right]. rewrite mantle_sum, !disc_sum by num. rewrite mq_turn, !dq_turn by assumption.
  rewrite (chain_ext w (fun i => dq 0 (full H) _ _ _ (cy_bottom d) i _) (fun i => mq 0 (full H) (x2 (cy_radius d)) (y2 (cy_radius d)) (cy_height d * (1 / 2)) V i V)) by pts.
  rewrite (chain_ext w (fun i => dq 0 (full H) _ _ _ (cy_top d) i _) (fun i => mq 0 (full H) (x2 (cy_radius d)) (y2 (cy_radius d)) (cy_height d * (1 / 2)) V i 0)) by pts.
  num.
Qed.

Lemma pipe_closed d : pp_top d <> 0%nat -> pp_bottom d <> 0%nat -> total (patches (DPipe d)) = 0.
Proof.
  intros T B. unfold total. cbn [patches]. set (H := Nat.max 3 (pp_u d)). set (V := Nat.max 1 (pp_v d)). fold (full H).
  assert (PH : (0 < H)%nat) by num. assert (PV : (0 < V)%nat) by num.
  replace (0 <? pp_bottom d)%nat with true by (symmetry; apply Nat.ltb_lt; num). replace (0 <? pp_top d)%nat with true by (symmetry; apply Nat.ltb_lt; num).
  cbn [when app map fold_right]. rewrite !mantle_sum, !ring_sum. rewrite !mq_turn, !rq_turn by assumption.
  set (half := pp_height d * (1 / 2)).
  rewrite (chain_ext w (fun i => rq _ _ (full H) _ (pp_bottom d) i (pp_bottom d)) (fun i => mq 0 (full H) (x2 (pp_outer d)) (y2 (pp_outer d)) half V i V)) by pts.
  rewrite (chain_ext w (fun i => rq _ _ (full H) _ (pp_bottom d) i 0) (fun i => mq 0 (full H) (x2 (pp_inner d)) (y2 (pp_inner d)) half V i V)) by pts.
  rewrite (chain_ext w (fun i => rq _ _ (full H) _ (pp_top d) i (pp_top d)) (fun i => mq 0 (full H) (x2 (pp_outer d)) (y2 (pp_outer d)) half V i 0)) by pts.
  rewrite (chain_ext w (fun i => rq _ _ (full H) _ (pp_top d) i 0) (fun i => mq 0 (full H) (x2 (pp_inner d)) (y2 (pp_inner d)) half V i 0)) by pts.
  num.
Qed.

Lemma cone_closed d : co_cover d <> 0%nat -> total (patches (DCone d)) = 0.
Proof.
  intros B. unfold total. cbn [patches]. set (H := Nat.max 3 (co_u d)). set (V := Nat.max 1 (co_v d)). fold (full H).
  assert (PH : (0 < H)%nat) by num. assert (PV : (0 < V)%nat) by num. set (half := co_height d * (1 / 2)).
  replace (0 <? co_cover d)%nat with true by (symmetry; apply Nat.ltb_lt; num). cbn [when map fold_right]. rewrite disc_sum, dq_turn by num.
  set (rx := x2 (co_radius d)). set (rz := y2 (co_radius d)).
  pose (q := fun i j => V3 (frac j V * (sin (at_angle 0 (full H) i) * rx)) (half * (1 - 2 * frac j V)) (frac j V * (cos (at_angle 0 (full H) i) * rz))).
  rewrite (patch_sum_at w _ q).
  - cbn [p_tris]. rewrite cone_esum by (try assumption; intros i; unfold q; rewrite !frac0; apply vec3_ext; cbn [vx vy vz]; ring).
    rewrite boundary_chain. rewrite (chain_const w (fun i => q i 0%nat) H anti) by (intros i _; unfold q; rewrite !frac0; apply vec3_ext; cbn [vx vy vz]; ring).
    rewrite (chain_ext w (q H) (q 0%nat) V) by (intros j _; unfold q; destruct (full_sin H PH) as [-> ->]; reflexivity).
    rewrite (chain_ext w (fun i => dq 0 (full H) rx rz (- half) (co_cover d) i (co_cover d)) (fun i => q i V)) by (intros; unfold q, dq; apply vec3_ext; cbn [vx vy vz]; rewrite ?frac1 by num; ring).
    num.
  - intros i j. cbn [p_at fst snd]. unfold q. destruct j as [|j]; [rewrite frac0; apply vec3_ext; cbn; ring|]. apply vec3_ext; cbn -[frac at_angle]; subst half rx rz; field.
Qed.

Lemma ellipsoid_closed d : total (patches (DEllipsoid d)) = 0.
Proof.
  unfold total. cbn [patches map fold_right]. set (U := Nat.max 3 (el_u d)). set (V := Nat.max 2 (el_v d)).
  pose (q := fun i j => vmul (spherical (frac i V * PI) (frac j U * pi_2)) (el_radius d)).
  rewrite (grid_patch _ q O2 (diagonal (el_alt d)) V U) by reflexivity. rewrite boundary_chain.
  assert (PU : (0 < U)%nat) by num. assert (PV : (0 < V)%nat) by num.
  rewrite (chain_ext w (fun i => q i U) (fun i => q i 0%nat) V).
  - rewrite (chain_const w (q V) U anti), (chain_const w (q 0%nat) U anti); [num| |]; intros j _; unfold q, spherical.
    + rewrite frac0, Rmult_0_l, sin_0. apply vec3_ext; cbn [vx vy vz vmul]; ring.
    + rewrite frac1, Rmult_1_l, sin_PI by assumption. apply vec3_ext; cbn [vx vy vz vmul]; ring.
  - intros i _. unfold q, spherical, pi_2. rewrite frac0, frac1 by assumption. rewrite Rmult_1_l, Rmult_0_l, (Rmult_comm PI 2), sin_2PI, cos_2PI, sin_0, cos_0. reflexivity.
Qed.

Lemma torus_closed d : total (patches (DTorus d)) = 0.
Proof.
  unfold total. cbn [patches map fold_right]. set (U := Nat.max 3 (to_u d)). set (V := Nat.max 3 (to_v d)).
  pose (q := fun i j => position (torus_vertex d U V i j)).
  rewrite (grid_patch _ q O3 (diagonal (to_alt d)) V U) by reflexivity. rewrite boundary_chain.
  assert (PU : (0 < U)%nat) by num. assert (PV : (0 < V)%nat) by num.
  rewrite (chain_ext w (fun i => q i U) (fun i => q i 0%nat) V), (chain_ext w (q V) (q 0%nat) U); [num| |]; intros i _; unfold q, torus_vertex, pi_2; cbn [position].
  - rewrite frac0, frac1 by assumption. rewrite Rmult_1_l, Rmult_0_l, (Rmult_comm PI 2), sin_2PI, cos_2PI, sin_0, cos_0. reflexivity.
  - rewrite frac0, frac1 by assumption. rewrite Rmult_1_l, Rmult_0_l, (Rmult_comm PI 2), sin_2PI, cos_2PI, sin_0, cos_0. reflexivity.
Qed.

Lemma pie_closed d : pi_cover d <> 0%nat -> total (patches (DPie d)) = 0.
Proof.
  intros B. unfold total. cbn [patches]. set (H := Nat.max 3 (pi_u d)). set (V := Nat.max 1 (pi_v d)). set (K := pi_cover d) in *.
  assert (PH : (0 < H)%nat) by num. assert (PV : (0 < V)%nat) by num. replace (Nat.max 1 K) with K by num.
  set (half := pi_height d * (1 / 2)). set (angle := clampR (pi_angle d) 0 pi_2). set (start := pi_offset d + angle). set (step := 1 / INR H * (pi_2 - angle)).
  set (rx := x2 (pi_radius d)). set (rz := y2 (pi_radius d)).
  replace (0 <? K)%nat with true by (symmetry; apply Nat.ltb_lt; num). cbn [when app map fold_right].
  rewrite mantle_sum, !wall_sum, !disc_sum by num. rewrite !dq_rim, !boundary_chain.
  assert (EA : sin (at_angle start step H) = sin (start - angle) /\ cos (at_angle start step H) = cos (start - angle)).
  { replace (at_angle start step H) with (start - angle + 2 * INR 1 * PI) by (unfold at_angle, step, pi_2; cbn [INR]; field; apply not_0_INR; num).
    split; [apply sin_period|apply cos_period]. }
  destruct EA as [ES EC].
  rewrite (chain_ext w (fun i => dq start step rx rz (half * -1) K i K) (fun i => mq start step rx rz half V i V)) by pts.
  rewrite (chain_ext w (fun i => dq start step rx rz (half * 1) K i K) (fun i => mq start step rx rz half V i 0)) by pts.
  rewrite (chain_ext w (wq rx rz half start K V K) (mq start step rx rz half V 0)) by (intros; unfold mq, wq; rewrite angle_0, frac1 by num; apply vec3_ext; cbn [vx vy vz]; ring).
  rewrite (chain_ext w (wq rx rz half (start - angle) K V K) (mq start step rx rz half V H)) by (intros; unfold mq, wq; rewrite ES, EC, frac1 by num; apply vec3_ext; cbn [vx vy vz]; ring).
  rewrite (chain_ext w (wq rx rz half (start - angle) K V 0) (wq rx rz half start K V 0)) by (intros; unfold wq; rewrite frac0 by num; apply vec3_ext; cbn [vx vy vz]; ring).
  rewrite (chain_ext w (dq start step rx rz (half * -1) K 0) (fun i => wq rx rz half start K V i V)) by (intros; unfold dq, wq; rewrite angle_0, frac1 by num; apply vec3_ext; cbn [vx vy vz]; ring).
  rewrite (chain_ext w (dq start step rx rz (half * 1) K 0) (fun i => wq rx rz half start K V i 0)) by (intros; unfold dq, wq; rewrite angle_0, frac0 by num; apply vec3_ext; cbn [vx vy vz]; ring).
  rewrite (chain_ext w (dq start step rx rz (half * -1) K H) (fun i => wq rx rz half (start - angle) K V i V)) by (intros; unfold dq, wq; rewrite ES, EC, frac1 by num; apply vec3_ext; cbn [vx vy vz]; ring).
  rewrite (chain_ext w (dq start step rx rz (half * 1) K H) (fun i => wq rx rz half (start - angle) K V i 0)) by (intros; unfold dq, wq; rewrite ES, EC, frac0 by num; apply vec3_ext; cbn [vx vy vz]; ring).
  num.
Qed.

Lemma capsule_closed d : total (patches (DCapsule d)) = 0.
Proof.
  unfold total. cbn [patches map fold_right]. set (H := Nat.max 3 (ca_u d)). set (V := Nat.max 1 (ca_v d)). set (C := Nat.max 2 (ca_cap d)). fold (full H).
  assert (PH : (0 < H)%nat) by num. assert (PV : (0 < V)%nat) by num. assert (PC : (0 < C)%nat) by num. set (half := ca_height d * (1 / 2)).
  rewrite mantle_sum, mq_turn by assumption.
  pose (q := fun side i j => position (cap_vertex d half side H C i j)).
  rewrite (grid_patch _ (q 1) O2 (diagonal (ca_alt d)) C H) by reflexivity.
  rewrite (grid_patch _ (q (-1)) O2 (diagonal (ca_alt d)) C H) by reflexivity.
  rewrite !boundary_chain.
  assert (COL : forall side, side = 1 \/ side = -1 -> chain w (fun i => q side i H) C = chain w (fun i => q side i 0%nat) C).
  { intros side Hs. apply chain_ext. intros i _. unfold q, cap_vertex, spherical. cbn [position vx vy vz vmul]. rewrite frac0, frac1 by assumption.
    replace (0 * pi_2 * side + pi_0_5) with pi_0_5 by ring.
    assert (E : sin (1 * pi_2 * side + pi_0_5) = sin pi_0_5 /\ cos (1 * pi_2 * side + pi_0_5) = cos pi_0_5).
    { unfold pi_2. destruct Hs as [-> | ->].
      - replace (1 * (PI * 2) * 1 + pi_0_5) with (pi_0_5 + 2 * INR 1 * PI) by (cbn [INR]; ring). split; [apply sin_period|apply cos_period].
      - rewrite <- (sin_period (1 * (PI * 2) * -1 + pi_0_5) 1), <- (cos_period (1 * (PI * 2) * -1 + pi_0_5) 1). cbn [INR].
        replace (1 * (PI * 2) * -1 + pi_0_5 + 2 * 1 * PI) with pi_0_5 by ring. now split. }
    destruct E as [-> ->]. reflexivity. }
  rewrite (COL 1 (or_introl eq_refl)), (COL (-1) (or_intror eq_refl)).
  assert (POLE : forall side, chain w (q side 0%nat) H = 0).
  { intros side. apply (chain_const w _ _ anti). intros j _. unfold q, cap_vertex, spherical. cbn [position vx vy vz vmul]. rewrite frac0, Rmult_0_l, sin_0. apply vec3_ext; cbn [vx vy vz]; ring. }
  rewrite !POLE.
  assert (Q1 : sin (1 * pi_0_5) = 1 /\ cos (1 * pi_0_5) = 0).
  { unfold pi_0_5. replace (1 * (PI * (1 / 2))) with (PI / 2) by field. split; [apply sin_PI2|apply cos_PI2]. }
  destruct Q1 as [Q1 Q2].
  rewrite (chain_rev w (q 1 C) (fun i => mq 0 (full H) (vx (ca_radius d)) (vz (ca_radius d)) half V i 0) H anti).
  - rewrite (chain_ext w (q (-1) C) (fun i => mq 0 (full H) (vx (ca_radius d)) (vz (ca_radius d)) half V i V) H); [cbn [sign]; num|].
    intros j Hj. unfold q, cap_vertex, spherical, mq. cbn [position vx vy vz vmul]. rewrite !frac1, Q1, Q2 by assumption.
    assert (E : frac j H * pi_2 * -1 + pi_0_5 = PI / 2 - at_angle 0 (full H) j) by (unfold pi_0_5, at_angle, full, frac; field; apply not_0_INR; num).
    rewrite E, sin_shift, cos_shift. apply vec3_ext; cbn [vx vy vz]; ring.
  - intros j Hj. unfold q, cap_vertex, spherical, mq. cbn [position vx vy vz vmul]. rewrite !frac1, frac0, Q1, Q2 by assumption.
    assert (E : at_angle 0 (full H) (H - j) = - (frac j H * pi_2) + 2 * INR 1 * PI) by (unfold at_angle, full, frac, pi_2; rewrite minus_INR by assumption; cbn [INR]; field; apply not_0_INR; num).
    rewrite E, sin_period, cos_period, sin_neg, cos_neg.
    replace (frac j H * pi_2 * 1 + pi_0_5) with (PI / 2 + frac j H * pi_2) by (unfold pi_0_5; field). rewrite (sin_plus (PI / 2)), (cos_plus (PI / 2)), sin_PI2, cos_PI2.
    apply vec3_ext; cbn [vx vy vz]; try ring.
Qed.

(** Straight edges divided into n parts *)
Definition sg (a b : vec3) (n i : nat) : vec3 := lerp3 a b (frac i n).
Definition edge (a b : vec3) (n : nat) : R := chain w (sg a b n) n.
Lemma edge_rev a b n : (0 < n)%nat -> (edge a b n = - edge b a n)%R.
Proof.
  intros P. apply (chain_rev w _ _ _ anti). intros i Hi. unfold sg. rewrite frac_rev by assumption. unfold lerp3. apply vec3_ext; cbn [vx vy vz vadd vscale vsub]; ring.
Qed.
Lemma face_sum alt rot sh sv z H V (T : vec3 -> vec3) : (0 < H)%nat -> (0 < V)%nat -> (forall p, rotate rot p = T p) ->
  (forall a b t, T (lerp3 a b t) = lerp3 (T a) (T b) t) ->
  let c x y := T (V3 (x * sh) (y * sv) (z / 2)) in
  (patch_sum w (face_patch alt rot sh sv z H V) =
   edge (c (-1/2) (-1/2)) (c (-1/2) (1/2)) V - edge (c (1/2) (-1/2)) (c (1/2) (1/2)) V +
   (edge (c (-1/2) (1/2)) (c (1/2) (1/2)) H - edge (c (-1/2) (-1/2)) (c (1/2) (-1/2)) H))%R.
Proof.
  intros PH PV RT L c. pose (q := fun i j => position (face_vertex rot sh sv (z / 2) H V i j)).
  rewrite (grid_patch _ q O0 (diagonal alt) V H) by reflexivity. cbn [sign]. rewrite Rmult_1_l, boundary_chain. unfold edge.
  assert (E : forall i j a b n k, V3 (sh * frac j H - sh / 2) (sv * frac i V - sv / 2) (z / 2) = lerp3 a b (frac k n) -> q i j = sg (T a) (T b) n k).
  { intros i j a b n k X. unfold q, face_vertex, sg. cbn [position]. rewrite RT, X. apply L. }
  f_equal; f_equal; apply chain_ext; intros k Hk; apply E; unfold lerp3; apply vec3_ext; cbn [vx vy vz vadd vscale vsub]; rewrite ?frac0, ?frac1 by assumption; field.
Qed.

Lemma cuboid_closed d : total (patches (DCuboid d)) = 0.
Proof.
  unfold total. cbn [patches map fold_right]. set (X := Nat.max 1 (cu_x d)). set (Y := Nat.max 1 (cu_y d)). set (Z := Nat.max 1 (cu_z d)).
  assert (PX : (0 < X)%nat) by num. assert (PY : (0 < Y)%nat) by num. assert (PZ : (0 < Z)%nat) by num.
  set (sx := vx (cu_size d)). set (sy := vy (cu_size d)). set (sz := vz (cu_size d)).
  assert (S2 : sin (PI * (1 / 2)) = 1) by (replace (PI * (1 / 2)) with (PI / 2) by field; apply sin_PI2).
  assert (C2 : cos (PI * (1 / 2)) = 0) by (replace (PI * (1 / 2)) with (PI / 2) by field; apply cos_PI2).
  rewrite (face_sum _ qone sx sy (- sz) X Y (fun p => p)); [|assumption|assumption|apply rot0|reflexivity].
  rewrite (face_sum _ (euler_y PI) sx sy (- sz) X Y (fun p => V3 (- vx p) (vy p) (- vz p))); [|assumption|assumption| |intros; apply vec3_ext; cbn; ring].
  2:{ intros p. rewrite rot_y, sin_PI, cos_PI. apply vec3_ext; cbn [vx vy vz]; ring. }
  rewrite (face_sum _ (euler_y (- pi_0_5)) sz sy (- sx) Z Y (fun p => V3 (- vz p) (vy p) (vx p))); [|assumption|assumption| |intros; apply vec3_ext; cbn; ring].
  2:{ intros p. unfold pi_0_5. rewrite rot_y, sin_neg, cos_neg, S2, C2. apply vec3_ext; cbn [vx vy vz]; ring. }
  rewrite (face_sum _ (euler_y pi_0_5) sz sy (- sx) Z Y (fun p => V3 (vz p) (vy p) (- vx p))); [|assumption|assumption| |intros; apply vec3_ext; cbn; ring].
  2:{ intros p. unfold pi_0_5. rewrite rot_y, S2, C2. apply vec3_ext; cbn [vx vy vz]; ring. }
  rewrite (face_sum _ (euler_x pi_0_5) sx sz (- sy) X Z (fun p => V3 (vx p) (- vz p) (vy p))); [|assumption|assumption| |intros; apply vec3_ext; cbn; ring].
  2:{ intros p. unfold pi_0_5. rewrite rot_x, S2, C2. apply vec3_ext; cbn [vx vy vz]; ring. }
  rewrite (face_sum _ (euler_x (- pi_0_5)) sx sz (- sy) X Z (fun p => V3 (vx p) (vz p) (- vy p))); [|assumption|assumption| |intros; apply vec3_ext; cbn; ring].
  2:{ intros p. unfold pi_0_5. rewrite rot_x, sin_neg, cos_neg, S2, C2. apply vec3_ext; cbn [vx vy vz]; ring. }
  cbn [vx vy vz].
  set (x := sx / 2). set (y := sy / 2). set (z := sz / 2).
  replace (-1 / 2 * sx) with (- x) by (unfold x; field). replace (-1 / 2 * sy) with (- y) by (unfold y; field). replace (-1 / 2 * sz) with (- z) by (unfold z; field).
  replace (1 / 2 * sx) with x by (unfold x; field). replace (1 / 2 * sy) with y by (unfold y; field). replace (1 / 2 * sz) with z by (unfold z; field).
  replace (- sx / 2) with (- x) by (unfold x; field). replace (- sy / 2) with (- y) by (unfold y; field). replace (- sz / 2) with (- z) by (unfold z; field).
  rewrite !Ropp_involutive.
  rewrite (edge_rev (V3 x y z) (V3 (- x) y z) X PX), (edge_rev (V3 x (- y) z) (V3 (- x) (- y) z) X PX),
    (edge_rev (V3 (- x) y z) (V3 (- x) y (- z)) Z PZ), (edge_rev (V3 (- x) (- y) z) (V3 (- x) (- y) (- z)) Z PZ), (edge_rev (V3 x (- y) z) (V3 x (- y) (- z)) Z PZ). num.
Qed.

Lemma curve_closed d f : patch_sum w (tube_patch d f) = 0.
Proof.
  set (U := Nat.max 3 (cv_u d)). set (V := Nat.max 3 (cv_v d)).
  rewrite (patch_sum_at w _ (fun i j => position (curve_vertex d f U V i j))) by reflexivity. cbn [tube_patch p_tris]. fold U V. apply (tube_esum w anti (fun i j => position (curve_vertex d f U V i j))); num.
Qed.

(** The rim of a cover, or of the end of the tube, at the angle phi *)
Definition rim (d : spiral) (phi : R) : R :=
  let V := Nat.max 3 (sp_v d) in chain w (fun i => cover_coord d (Rmax 0 (sp_turns d)) (frac i V * pi_2) phi false) V.
Lemma spiral_total d : sp_top d <> 0%nat -> sp_bottom d <> 0%nat ->
  total (patches (DSpiral d)) = rim d (Rmax 0 (sp_turns d) * pi_2) - rim d (frac (spiral_segments d) (Nat.max 3 (sp_u d)) * pi_2).
Proof.
  intros T B. unfold total, rim. cbn [patches]. set (n := spiral_segments d).
  set (turns := Rmax 0 (sp_turns d)) in *. set (U := Nat.max 3 (sp_u d)) in *. set (V := Nat.max 3 (sp_v d)).
  assert (PU : (0 < U)%nat) by num. assert (PV : (0 < V)%nat) by num.
  replace (0 <? sp_bottom d)%nat with true by (symmetry; apply Nat.ltb_lt; num). replace (0 <? sp_top d)%nat with true by (symmetry; apply Nat.ltb_lt; num).
  cbn [when app map fold_right].
  pose (q := fun i j => position (spiral_vertex d turns U V i j)).
  rewrite (grid_patch _ q O3 (diagonal (sp_alt d)) V n) by reflexivity. rewrite boundary_chain.
  assert (TURN : sin (frac V V * pi_2) = sin (frac 0 V * pi_2) /\ cos (frac V V * pi_2) = cos (frac 0 V * pi_2)).
  { unfold pi_2. rewrite frac0, frac1, Rmult_1_l, Rmult_0_l, (Rmult_comm PI 2), sin_2PI, cos_2PI, sin_0, cos_0 by assumption. now split. }
  rewrite (chain_ext w (q V) (q 0%nat) n) by (intros j _; unfold q, spiral_vertex; cbn [position]; destruct TURN as [-> ->]; reflexivity).
  assert (COVER : forall up phi side K, (0 < K)%nat ->
    (patch_sum w (spiral_patch d up turns phi side V K) = (if up then 1 else -1) * chain w (fun i => cover_coord d turns (frac i V * pi_2) phi false) V)).
  { intros up phi side K PK. pose (p := fun i j => lerp3 (cover_coord d turns 0 phi true) (cover_coord d turns (frac i V * pi_2) phi false) (frac j K)).
    assert (P0 : forall i, p i 0%nat = cover_coord d turns 0 phi true) by (intros i; unfold p, lerp3; rewrite frac0; apply vec3_ext; cbn [vx vy vz vadd vscale vsub]; ring).
    assert (P1 : forall i, p i K = cover_coord d turns (frac i V * pi_2) phi false).
    { intros i. unfold p, lerp3. rewrite frac1 by assumption. apply vec3_ext; cbn [vx vy vz vadd vscale vsub]; ring. }
    rewrite (patch_sum_at w _ p).
    - cbn [p_tris spiral_patch]. rewrite disc_esum by (try assumption; intros i; now rewrite !P0). rewrite boundary_chain.
      rewrite (chain_const w (fun i => p i 0%nat) V anti) by (intros; now rewrite !P0).
      rewrite (chain_ext w (p V) (p 0%nat) K) by (intros j _; unfold p, cover_coord; destruct TURN as [-> ->]; reflexivity).
      rewrite (chain_ext w (fun i => p i K) (fun i => cover_coord d turns (frac i V * pi_2) phi false) V) by (intros; apply P1). destruct up; cbn [sign]; num.
    - intros i j. cbn [p_at spiral_patch fst snd]. destruct j as [|j]; [now rewrite P0|]. cbn [Nat.eqb]. unfold spiral_cover_vertex, p. cbn [position].
      replace (at_angle 0 (1 / INR V * pi_2) i) with (frac i V * pi_2) by (unfold at_angle, frac; ring). reflexivity. }
  rewrite !COVER by num.
  assert (Q : forall i j, q i j = cover_coord d turns (frac i V * pi_2) (frac j U * pi_2) false).
  { intros i j. unfold q, cover_coord, spiral_vertex. cbn [position vx vy vz]. apply vec3_ext; cbn [vx vy vz]; try ring.
    unfold pi_2. field. apply PI_neq0. }
  rewrite (chain_ext w (fun i => q i 0%nat) (fun i => cover_coord d turns (frac i V * pi_2) 0 false)) by (intros; rewrite Q, frac0, Rmult_0_l; reflexivity).
  rewrite (chain_ext w (fun i => q i n) (fun i => cover_coord d turns (frac i V * pi_2) (frac n U * pi_2) false)) by (intros; apply Q). cbn [sign]. num.
Qed.
Lemma spiral_closed d n : sp_top d <> 0%nat -> sp_bottom d <> 0%nat -> Rmax 0 (sp_turns d) * INR (Nat.max 3 (sp_u d)) = INR n -> total (patches (DSpiral d)) = 0.
Proof.
  intros T B E. rewrite spiral_total by assumption. assert (ET : spiral_segments d = n).
  { unfold spiral_segments. rewrite E. rewrite Int_part_INR. apply Nat2Z.id. }
  rewrite ET. replace (frac n (Nat.max 3 (sp_u d))) with (Rmax 0 (sp_turns d)); [num|]. unfold frac. rewrite <- E. field. apply not_0_INR. num.
Qed.
End Closed.

Lemma surface_closed d : solid d -> closed (map (tmap position) (surface d)).
Proof.
  intros S. apply esum_closed. intros w anti. unfold surface. rewrite patches_esum. fold (total w (patches d)).
  destruct d; cbn [solid] in S.
  - now apply cuboid_closed.
  - now apply ellipsoid_closed.
  - now apply cone_closed.
  - now apply cylinder_closed.
  - now apply pie_closed.
  - now apply pipe_closed.
  - now apply capsule_closed.
  - now apply torus_closed.
  - unfold total. cbn [patches map fold_right]. rewrite curve_closed by assumption. ring.
  - destruct S as (T & B & n & E). now apply (spiral_closed w anti d n).
  - unfold total. cbn [patches]. destruct (cv_curve d); [|reflexivity]. cbn [map fold_right]. rewrite curve_closed by assumption. ring.
  - destruct S.
Qed.

Lemma geometry_surface d m m' : valid d -> (Z.of_nat (vertex_count d) <= 2 ^ 32)%Z -> generate d m = Ok m' ->
  geometry m' (new_triangles m m') = map (tmap position) (surface d).
Proof.
  intros W L G. pose proof (indices_hold d m m' W L G) as E. unfold geometry.
  revert E. generalize (surface d). induction (new_triangles m m') as [|t ts IH]; intros [|s ss] E; cbn [map] in E; try discriminate; [reflexivity|].
  injection E as E1 E2. cbn [flat_map map]. rewrite E1. cbn [app]. f_equal. now apply IH.
Qed.

Lemma closed_holds d m m' : valid d -> (Z.of_nat (vertex_count d) <= 2 ^ 32)%Z -> solid d -> generate d m = Ok m' -> closed (geometry m' (new_triangles m m')).
Proof. intros W L S G. rewrite (geometry_surface d m m' W L G). now apply surface_closed. Qed.

(** ** A spiral that ends between two segments has a gap: its vector area does not vanish *)
Definition warea (n p q : vec3) : R := dot n (cross p q).
Lemma warea_anti n p q : warea n p q = - warea n q p.
Proof. unfold warea, dot, cross. cbn [vx vy vz]. ring. Qed.
Lemma rim_area n d phi : let V := Nat.max 3 (sp_v d) in
  rim (warea n) d phi = - (INR V * sin (2 * PI / INR V)) * dot n (V3 (- (cos phi * vz (sp_tube d) * vy (sp_tube d))) 0 (sin phi * vx (sp_tube d) * vy (sp_tube d))).
Proof.
  intros V. unfold rim. fold V. assert (PV : (0 < V)%nat) by num. set (turns := Rmax 0 (sp_turns d)).
  pose (c := cover_coord d turns 0 phi true). pose (A := V3 (sin phi * vx (sp_tube d)) 0 (cos phi * vz (sp_tube d))). pose (B := V3 0 (vy (sp_tube d)) 0).
  pose (th := fun i => frac i V * pi_2). pose (a := fun i => vadd (vscale (sin (th i)) A) (vscale (cos (th i)) B)).
  assert (E : forall i, cover_coord d turns (th i) phi false = vadd c (a i)) by (intros i; apply vec3_ext; unfold c, a, A, B, cover_coord; cbn [vx vy vz vadd vscale]; ring).
  assert (AB : dot n (V3 (- (cos phi * vz (sp_tube d) * vy (sp_tube d))) 0 (sin phi * vx (sp_tube d) * vy (sp_tube d))) = dot n (cross A B)) by (unfold dot, cross, A, B; cbn [vx vy vz]; ring). rewrite AB.
  rewrite (chain_ext _ _ (fun i => vadd c (a i))) by (intros i _; apply E). unfold chain.
  rewrite (zsum_ext V _ (fun i => (dot n (cross c (a (i + 1)%nat)) - dot n (cross c (a i))) + - (sin (2 * PI / INR V) * dot n (cross A B)))).
  - rewrite zsum_add, (zsum_tele V (fun i => dot n (cross c (a i)))).
    assert (a V = a 0%nat) as ->.
    { unfold a, th, pi_2. rewrite frac0, frac1, Rmult_1_l, Rmult_0_l, (Rmult_comm PI 2), sin_2PI, cos_2PI, sin_0, cos_0 by assumption. reflexivity. }
    assert (K : forall m x, zsum m (fun _ => x) = INR m * x) by (intros m x; induction m; [cbn; ring|cbn [zsum]; rewrite IHm, S_INR; ring]).
    rewrite K. ring.
  - intros i Hi. assert (T : sin (2 * PI / INR V) = sin (th (i + 1)%nat) * cos (th i) - cos (th (i + 1)%nat) * sin (th i)).
    { rewrite <- sin_minus. f_equal. unfold th, frac, pi_2. rewrite plus_INR. cbn [INR]. field. apply not_0_INR. num. }
    rewrite T. unfold warea, a. generalize (sin (th (i + 1)%nat)) (cos (th (i + 1)%nat)) (sin (th i)) (cos (th i)) A B c. clear. intros s' c' s c [a1 a2 a3] [b1 b2 b3] [c1 c2 c3]. unfold dot, cross, vadd, vscale. cbn [vx vy vz]. ring.
Qed.

Lemma spiral_gap d : sp_top d <> 0%nat -> sp_bottom d <> 0%nat -> vx (sp_tube d) <> 0 -> vy (sp_tube d) <> 0 -> vz (sp_tube d) <> 0 ->
  closed (map (tmap position) (surface (DSpiral d))) -> exists n, Rmax 0 (sp_turns d) * INR (Nat.max 3 (sp_u d)) = INR n.
Proof.
  intros T B X Y Z C. set (turns := Rmax 0 (sp_turns d)). set (U := Nat.max 3 (sp_u d)). exists (spiral_segments d). set (n := spiral_segments d).
  set (V := Nat.max 3 (sp_v d)). assert (PU : (0 < INR U)) by (apply lt_0_INR; num). pose proof PI_RGT_0 as PP.
  assert (SV : INR V * sin (2 * PI / INR V) <> 0).
  { assert (3 <= INR V) by (replace 3 with (INR 3) by (cbn; ring); apply le_INR; num). assert (0 < 2 * PI / INR V < PI).
    { split; [apply Rmult_lt_0_compat; [num|apply Rinv_0_lt_compat; num]|]. apply (Rmult_lt_reg_r (INR V)); [num|]. unfold Rdiv. rewrite Rmult_assoc, Rinv_l by num. nra. }
    pose proof (sin_gt_0 (2 * PI / INR V)). nra. }
  assert (R0 : forall m, rim (warea m) d (turns * pi_2) = rim (warea m) d (frac n U * pi_2)).
  { intros m. pose proof (closed_esum _ (warea m) (warea_anti m) C) as E. unfold surface in E. rewrite patches_esum in E.
    pose proof (spiral_total (warea m) (warea_anti m) d T B) as F. unfold total in F. rewrite E in F. fold turns U n in F. num. }
  assert (EC : cos (turns * pi_2) = cos (frac n U * pi_2)).
  { specialize (R0 (V3 1 0 0)). rewrite !rim_area in R0. unfold dot in R0. cbn [vx vy vz] in R0. fold V in R0. apply (Rmult_eq_reg_r (INR V * sin (2 * PI / INR V) * (vz (sp_tube d) * vy (sp_tube d)))); [num|].
    apply Rmult_integral_contrapositive_currified; [assumption|]. now apply Rmult_integral_contrapositive_currified. }
  assert (ES : sin (turns * pi_2) = sin (frac n U * pi_2)).
  { specialize (R0 (V3 0 0 1)). rewrite !rim_area in R0. unfold dot in R0. cbn [vx vy vz] in R0. fold V in R0. apply (Rmult_eq_reg_r (INR V * sin (2 * PI / INR V) * (vx (sp_tube d) * vy (sp_tube d)))); [num|].
    apply Rmult_integral_contrapositive_currified; [assumption|]. now apply Rmult_integral_contrapositive_currified. }
  assert (P0 : 0 <= turns * INR U) by (apply Rmult_le_pos; [apply Rmax_l|num]).
  assert (IB : INR n <= turns * INR U < INR n + 1).
  { unfold n, spiral_segments. fold turns U. destruct (base_Int_part (turns * INR U)) as [I1 I2]. rewrite INR_IZR_INZ, Z2Nat.id; [num|].
    assert (-1 < IZR (Int_part (turns * INR U))) by num. apply lt_IZR in H. num. }
  destruct (Rle_lt_or_eq_dec _ _ (proj1 IB)) as [L|]; [exfalso|now symmetry].
  pose (dl := turns * pi_2 - frac n U * pi_2).
  assert (DL : dl = (turns * INR U - INR n) * (2 * PI / INR U)) by (unfold dl, frac, pi_2; field; num).
  assert (CD : cos dl = 1) by (unfold dl; rewrite cos_minus, EC, ES; pose proof (sc2 (frac n U * pi_2)); nra).
  assert (P3 : 0 < dl <= 2 * PI / 3).
  { assert (3 <= INR U) by (replace 3 with (INR 3) by (cbn; ring); apply le_INR; num).
    assert (0 < 2 * PI / INR U <= 2 * PI / 3).
    { split; [apply Rmult_lt_0_compat; [num|apply Rinv_0_lt_compat; num]|]. apply Rmult_le_compat_l; [num|]. apply Rinv_le_contravar; num. }
    rewrite DL. nra. }
  assert (cos dl < cos 0) by (apply cos_decreasing_1; num). rewrite cos_0 in H. num.
Qed.

Lemma gap_holds d m m' : valid (DSpiral d) -> (Z.of_nat (vertex_count (DSpiral d)) <= 2 ^ 32)%Z -> sp_top d <> 0%nat -> sp_bottom d <> 0%nat ->
  vx (sp_tube d) <> 0 -> vy (sp_tube d) <> 0 -> vz (sp_tube d) <> 0 -> generate (DSpiral d) m = Ok m' ->
  closed (geometry m' (new_triangles m m')) <-> exists n, Rmax 0 (sp_turns d) * INR (Nat.max 3 (sp_u d)) = INR n.
Proof.
  intros W L T B X Y Z G. rewrite (geometry_surface _ m m' W L G). split.
  - now apply spiral_gap.
  - intros N. apply surface_closed. now repeat split.
Qed.
