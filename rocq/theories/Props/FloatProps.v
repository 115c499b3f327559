(** * C85: classification by planes in double precision; C78: centers of boxes in double precision *)
From Coq Require Import ZArith Reals List Bool Lia Lra.
From Flocq Require Import Core IEEE754.BinarySingleNaN.
From Verif Require Import Model.Scalar Model.Vec Model.Plane Model.PlaneFloat Model.Aabb Model.BoxFloat Spec.PlaneSpec Spec.FloatSpec Proofs.FloatOrder Proofs.PlaneFloatLemmas Proofs.BoxFloatLemmas.
Import ListNotations.
Local Open Scope R_scope.

(** The computed distance differs from the exact one by no more than the slack. *)
Theorem C85_distance : forall alt p x, moderate_plane p -> moderate_vec x -> is_finite (fsgn_distance alt p x) = true /\
  Rabs (B2R (fsgn_distance alt p x) - side alt (exact_plane p) (exact_vec x)) <= slack (exact_plane p) (exact_vec x).
Proof. intros alt p x P X. destruct (distance_error alt p x P X) as [F H]. split; [exact F|]. apply Rabs_le. exact H. Qed.
Print Assumptions C85_distance.

(** A point farther from the plane than tolerance and slack is put on its side, one nearer than their difference onto the plane. *)
Theorem C85_point_relation : forall alt p x eps, moderate_plane p -> moderate_vec x -> is_finite eps = true -> 0 <= B2R eps ->
  let s := side alt (exact_plane p) (exact_vec x) in let k := slack (exact_plane p) (exact_vec x) in
  (B2R eps + k < s -> frelation_point alt p x eps = InFrontOf) /\
  (s < - (B2R eps + k) -> frelation_point alt p x eps = Behind) /\
  (Rabs s <= B2R eps - k -> frelation_point alt p x eps = Onto) /\
  (frelation_point alt p x eps = InFrontOf -> B2R eps - k < s) /\
  (frelation_point alt p x eps = Behind -> s < - (B2R eps - k)) /\
  (frelation_point alt p x eps = Onto -> Rabs s <= B2R eps + k).
Proof.
  intros alt p x eps P X F E s k. pose proof (relation_error alt p x eps P X F E) as H. cbv zeta in H. fold s k in H. pose proof (slack_pos (exact_plane p) (exact_vec x)) as K. fold k in K.
  pose proof (Rle_abs s) as A1. pose proof (Rle_abs (- s)) as A2. rewrite Rabs_Ropp in A2.
  destruct (frelation_point alt p x eps); repeat split; intros; try reflexivity; try discriminate; try contradiction; try lra; try (apply Rabs_le; lra).
Qed.
Print Assumptions C85_point_relation.

(** The same for the side of the plane, and for all points of a box. *)
Theorem C85_front : forall alt p x, moderate_plane p -> moderate_vec x -> let s := side alt (exact_plane p) (exact_vec x) in let k := slack (exact_plane p) (exact_vec x) in
  (k <= s -> fis_front alt p x = true) /\ (s <= - k -> fis_front alt p x = false).
Proof.
  intros alt p x P X s k. pose proof (front_error alt p x P X) as H. cbv zeta in H. fold s k in H. destruct (fis_front alt p x); split; intros; try reflexivity; lra.
Qed.
Print Assumptions C85_front.
Theorem C85_box_relation : forall alt p b, moderate_plane p -> moderate_vec (fmin b) -> moderate_vec (fmax b) -> in_box (exact_box b) (exact_vec (fmin b)) ->
  let k := box_slack (exact_plane p) (exact_box b) in let s := side alt (exact_plane p) in
  ((forall x, in_box (exact_box b) x -> k <= s x) -> frelation_box alt p b = InFrontOf) /\
  ((forall x, in_box (exact_box b) x -> s x <= - k) -> frelation_box alt p b = Behind) /\
  ((exists x, in_box (exact_box b) x /\ k <= s x) -> (exists x, in_box (exact_box b) x /\ s x <= - k) -> frelation_box alt p b = Clipped) /\
  (frelation_box alt p b = InFrontOf -> forall x, in_box (exact_box b) x -> - k < s x) /\
  (frelation_box alt p b = Behind -> forall x, in_box (exact_box b) x -> s x < k).
Proof.
  intros alt p b P A B V k s. pose proof (box_relation_error alt p b P A B V) as H. cbv zeta in H. fold k in H. fold s in H.
  assert (K : 0 < k) by apply slack_pos.
  destruct (frelation_box alt p b).
  - repeat split; try discriminate; try reflexivity; try exact (fun _ => H).
    + intros G. specialize (G _ V). specialize (H _ V). lra.
    + intros _ (x & X & G). specialize (H _ X). lra.
  - destruct H as [(y & Y & HY) (z & Z & HZ)]. repeat split; try discriminate; try reflexivity.
    + intros G. specialize (G _ Z). lra.
    + intros G. specialize (G _ Y). lra.
  - repeat split; try discriminate; try reflexivity; try exact (fun _ => H).
    + intros G. specialize (G _ V). specialize (H _ V). lra.
    + intros (x & X & G) _. specialize (H _ X). lra.
  - contradiction.
Qed.
Print Assumptions C85_box_relation.

(** Without a tolerance the relation and the side agree always, as long as the distance and the product are finite. *)
Theorem C85_agree : forall alt p x, is_finite (fdot (fnormal p) x) = true -> is_finite (fdistance p) = true ->
  (frelation_point alt p x b64_0 = InFrontOf <-> fis_front alt p x = true).
Proof.
  intros alt p x F D. unfold frelation_point, fis_front, fsgn_distance. rewrite sub_positive by (exact F || now rewrite sign_finite).
  destruct (Bltb (fsign alt (fdistance p)) _); [tauto|]. split; [|discriminate]. destruct (Bltb _ _); discriminate.
Qed.
Print Assumptions C85_agree.

(** Planes across an axis are exact: there is no slack. *)
Theorem C85_axis_exact : forall alt p x, is_finite (fx x) = true -> is_finite (fy x) = true -> is_finite (fz x) = true -> is_finite (fdistance p) = true ->
  is_finite (fx (fnormal p)) = true -> is_finite (fy (fnormal p)) = true -> is_finite (fz (fnormal p)) = true ->
  In (exact_vec (fnormal p)) [V3 1 0 0; V3 0 1 0; V3 0 0 1] ->
  (frelation_point alt p x b64_0 = InFrontOf <-> 0 < side alt (exact_plane p) (exact_vec x)) /\
  (frelation_point alt p x b64_0 = Behind <-> side alt (exact_plane p) (exact_vec x) < 0) /\
  (frelation_point alt p x b64_0 = Onto <-> side alt (exact_plane p) (exact_vec x) = 0).
Proof.
  intros alt p x X1 X2 X3 D N1 N2 N3 I. destruct (dot_exact (fnormal p) x _ _ _ N1 N2 N3 X1 X2 X3 eq_refl eq_refl eq_refl) as [F E].
  { unfold exact_vec in I. destruct I as [I|[I|[I|[]]]]; injection I as <- <- <-; auto. }
  assert (FD : is_finite (fsign alt (fdistance p)) = true) by now rewrite sign_finite.
  unfold frelation_point, fsgn_distance. change (Bopp b64_0) with (B754_zero true : b64).
  assert (Q : forall z : b64, Bltb z (B754_zero true) = Bltb z b64_0) by (intros [s|s| |s m e h]; reflexivity).
  rewrite Q, sub_positive, sub_negative by assumption. rewrite side_dsign. cbn [exact_plane normal distance]. rewrite <- E, <- sign_value.
  destruct (Bltb (fsign alt (fdistance p)) _) eqn:E1; [apply blt in E1; auto|apply blt_false in E1; auto; destruct (Bltb _ (fsign alt (fdistance p))) eqn:E2; [apply blt in E2; auto|apply blt_false in E2; auto]];
  repeat split; try discriminate; try reflexivity; try lra.
Qed.
Print Assumptions C85_axis_exact.

(** Otherwise it is not: a point exactly on a plane is put behind it, whatever the tolerance below one. *)
Theorem C85_on_plane_refuted : exists p x, moderate_plane p /\ moderate_vec x /\ side false (exact_plane p) (exact_vec x) = 0 /\
  forall eps, is_finite eps = true -> 0 <= B2R eps < 1 -> frelation_point false p x eps = Behind.
Proof.
  pose (one := b64_of_Z 1). pose (big := b64_of_Z (2 ^ 53)).
  assert (V1 : B2R one = 1) by (destruct (SplineFloat.b64_int 1 ltac:(lia)) as [E _]; exact E).
  assert (VB : B2R big = 9007199254740992) by (destruct (SplineFloat.b64_int (2 ^ 53) ltac:(lia)) as [E _]; exact E).
  assert (P : forall k : Z, (0 <= k)%Z -> 1 <= bpow radix2 k) by (intros k K; change 1 with (bpow radix2 0); now apply bpow_le).
  assert (PB : 9007199254740992 <= bpow radix2 500) by (change 9007199254740992 with (bpow radix2 53); apply bpow_le; lia).
  assert (M1 : moderate one) by (split; [vm_compute; reflexivity|]; rewrite V1, Rabs_R1; apply P; lia).
  assert (MB : moderate big) by (split; [vm_compute; reflexivity|]; rewrite VB, Rabs_pos_eq by lra; exact PB).
  assert (MO : moderate (Bopp big)) by (split; [vm_compute; reflexivity|]; rewrite B2R_Bopp, Rabs_Ropp; apply MB).
  exists (mkFPlane (FV one one one) one), (FV big one (Bopp big)). repeat split; try apply M1; try apply MB; try apply MO.
  - unfold side, exact_plane, exact_vec, dot. cbn [vx vy vz normal distance fnormal fdistance fx fy fz]. rewrite B2R_Bopp, V1, VB. ring.
  - intros eps F [E0 E1]. unfold frelation_point.
    assert (D : fsgn_distance false (mkFPlane (FV one one one) one) (FV big one (Bopp big)) = Bopp one) by (apply B2SF_inj; vm_compute; reflexivity).
    rewrite D. assert (FO : is_finite (Bopp one) = true) by (vm_compute; reflexivity). assert (FE : is_finite (Bopp eps) = true) by now rewrite is_finite_Bopp.
    replace (Bltb eps (Bopp one)) with false by (symmetry; apply blt_false; auto; rewrite B2R_Bopp, V1; lra).
    replace (Bltb (Bopp one) (Bopp eps)) with true by (symmetry; apply blt; auto; rewrite !B2R_Bopp, V1; lra). reflexivity.
Qed.
Print Assumptions C85_on_plane_refuted.

(** A point two units in front of a tilted plane. *)
Example C85_example : let p := mkFPlane (FV (b64_of_Z 1) (b64_of_Z 2) (b64_of_Z 2)) (b64_of_Z 7) in let x := FV (b64_of_Z 3) (b64_of_Z 2) (b64_of_Z 1) in
  frelation_point false p x b64_0 = InFrontOf /\ B2R (fsgn_distance false p x) = 2 /\ moderate_plane p /\ moderate_vec x.
Proof.
  assert (M : forall n, (1 <= n <= 2 ^ 53)%Z -> moderate (b64_of_Z n)).
  { intros n N. destruct (SplineFloat.b64_int n N) as [E F]. split; [exact F|]. rewrite E, Rabs_pos_eq by (apply IZR_le; lia). apply Rle_trans with (bpow radix2 53); [|apply bpow_le; lia]. change (bpow radix2 53) with (IZR (2 ^ 53)). apply IZR_le. lia. }
  intros p x. split; [vm_compute; reflexivity|]. split.
  - replace (fsgn_distance false p x) with (b64_of_Z 2) by (apply B2SF_inj; vm_compute; reflexivity). destruct (SplineFloat.b64_int 2 ltac:(lia)) as [E _]. exact E.
  - split; [split; [repeat split; apply M; lia|apply M; lia]|repeat split; apply M; lia].
Qed.

(** C78: in double precision the center of a valid box is inside of it exactly if no sum of two bounds overflows. *)
Theorem C78_double_center : forall b : box B64Order,
  Forall (fun i => is_finite (fst i) = true /\ is_finite (snd i) = true /\ B2R (fst i : b64) <= B2R (snd i : b64)) b ->
  contains_point B64Order b (center64 b) = true <-> Forall (fun i : b64 * b64 => is_finite (b64_add (fst i) (snd i)) = true) b.
Proof. exact center_contained. Qed.
Print Assumptions C78_double_center.
(** The sum can overflow although all bounds and the size are finite. *)
Theorem C78_double_center_refuted : exists b : box B64Order, length b = 3%nat /\
  Forall (fun i => is_finite (fst i) = true /\ is_finite (snd i) = true /\ B2R (fst i : b64) <= B2R (snd i : b64)) b /\
  Forall (fun x => is_finite x = true) (size64 b) /\ contains_point B64Order b (center64 b) = false.
Proof.
  pose (lo := binary_normalize 53 1024 b64_prec_gt_0 b64_prec_lt_emax mode_NE 2 1022 false : b64). pose (hi := binary_normalize 53 1024 b64_prec_gt_0 b64_prec_lt_emax mode_NE 3 1022 false : b64).
  assert (FL : is_finite lo = true) by (vm_compute; reflexivity). assert (FH : is_finite hi = true) by (vm_compute; reflexivity).
  assert (L : B2R lo < B2R hi) by (apply blt; auto; vm_compute; reflexivity).
  exists (repeat (lo, hi) 3). split; [reflexivity|]. split; [repeat constructor; auto; cbn [fst snd]; lra|]. split; [repeat constructor; vm_compute; reflexivity|vm_compute; reflexivity].
Qed.
Print Assumptions C78_double_center_refuted.
Example C78_double_example : let b := [(b64_of_Z 1, b64_of_Z 2); (b64_of_Z 3, b64_of_Z 3)] in contains_point B64Order b (center64 b) = true.
Proof. vm_compute. reflexivity. Qed.
