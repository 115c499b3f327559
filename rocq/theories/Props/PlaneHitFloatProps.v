(** Property C105: where segments and rays meet planes, and the points of planes closest to others, in double precision. *)
From Coq Require Import ZArith Reals List Bool Arith Lia Lra.
From Flocq Require Import Core IEEE754.BinarySingleNaN.
From Verif Require Import Model.Scalar Model.Vec Model.BoxFloat Model.PlaneFloat Model.Plane Model.ClipFloat Model.TriFloat Model.SphereFloat Model.LineFloat Model.PlaneHitFloat.
From Verif Require Import Spec.FloatSpec Spec.PlaneSpec Spec.ClipFloatSpec Spec.UniformSplineFloatSpec Spec.PlaneHitFloatSpec.
From Verif Require Import Proofs.VecLemmas Proofs.PlaneFloatLemmas Proofs.ClipFloatLemmas Proofs.MeshFloatLemmas Proofs.PlaneHitFloatLemmas.
Local Open Scope R_scope.

Definition plane_and_segment (p : fplane) (a b : fvec) : Prop := moderate_plane p /\ tame_vec a /\ tame_vec b.
Definition plane_and_ray (p : fplane) (o d : fvec) : Prop := moderate_plane p /\ moderate_vec o /\ moderate_vec d.

Lemma clear_end (alt : bool) p a b s : plane_and_segment p a b -> s = 1 \/ s = -1 -> let pl := exact_plane p in let w := edge_slack pl (exact_vec a) (exact_vec b) in
  (2 * w < s * side alt pl (exact_vec a) -> w < s * B2R (fsgn_distance alt p a)) /\ (2 * w < s * side alt pl (exact_vec b) -> w < s * B2R (fsgn_distance alt p b)).
Proof.
  intros (P & A & B) S pl w. split; intros H; [exact (clear_sides alt p a b P A B s S H)|]. assert (E : w = edge_slack pl (exact_vec b) (exact_vec a)) by (unfold w, edge_slack; rewrite (Rplus_comm (magnitude _ (exact_vec a) _)); reflexivity).
  rewrite E in *. exact (clear_sides alt p b a P B A s S H).
Qed.

(** A segment with both ends clearly on the same side does not meet the plane, *)
Theorem C105_apart : forall alt p a b s, plane_and_segment p a b -> s = 1 \/ s = -1 -> let pl := exact_plane p in
  2 * edge_slack pl (exact_vec a) (exact_vec b) < s * side alt pl (exact_vec a) -> 2 * edge_slack pl (exact_vec a) (exact_vec b) < s * side alt pl (exact_vec b) ->
  fplane_line alt p (mkFLine a b) = None.
Proof.
  intros alt p a b s HP S pl HA HB. destruct (clear_end alt p a b s HP S) as [KA KB]. destruct HP as (P & A & B).
  assert (I := same_side alt p a b P A B _ (Rle_refl _) s S (KA HA) (KB HB)). unfold fplane_line. cbn [fla flb]. change (fminus b a) with (fvsub b a). fold (in_unit (fplane_interp alt p a (fvsub b a))). rewrite I. reflexivity.
Qed.
Print Assumptions C105_apart.

(** one with ends clearly on different sides does, *)
Theorem C105_across : forall alt p a b s, plane_and_segment p a b -> s = 1 \/ s = -1 -> let pl := exact_plane p in
  2 * edge_slack pl (exact_vec a) (exact_vec b) < s * side alt pl (exact_vec a) -> 2 * edge_slack pl (exact_vec a) (exact_vec b) < - s * side alt pl (exact_vec b) ->
  exists q, fplane_line alt p (mkFLine a b) = Some q.
Proof.
  intros alt p a b s HP S pl HA HB. assert (S' : - s = 1 \/ - s = -1) by (destruct S as [-> | ->]; [right|left]; lra).
  assert (KA := proj1 (clear_end alt p a b s HP S) HA). assert (KB := proj2 (clear_end alt p a b (- s) HP S') HB). destruct HP as (P & A & B).
  assert (KB' : s * B2R (fsgn_distance alt p b) < - edge_slack (exact_plane p) (exact_vec a) (exact_vec b)) by lra.
  destruct (other_side alt p a b P A B _ (Rle_refl _) s S KA KB') as (I & _). unfold fplane_line. cbn [fla flb]. change (fminus b a) with (fvsub b a). fold (in_unit (fplane_interp alt p a (fvsub b a))). rewrite I. eauto.
Qed.
Print Assumptions C105_across.

(** and a point that is reported, whatever the angle, is finite, close to a point of the segment and close to the plane. *)
Theorem C105_segment_point : forall alt p a b q, plane_and_segment p a b -> fplane_line alt p (mkFLine a b) = Some q ->
  finite_vec q /\
  (exists t, 0 <= t <= 1 /\ forall c, c = vx \/ c = vy \/ c = vz ->
     Rabs (c (exact_vec q) - c (along (exact_vec a) (vsub (exact_vec b) (exact_vec a)) t)) <= bpow radix2 (-51) * (Rabs (c (exact_vec a)) + Rabs (c (exact_vec b))) + bpow radix2 (-1073)) /\
  Rabs (side alt (exact_plane p) (exact_vec q)) <= edge_slack (exact_plane p) (exact_vec a) (exact_vec b) + underflow (Plane.normal (exact_plane p)).
Proof.
  intros alt p a b q (P & A & B) H. destruct (segment_hit alt p a b P A B q H) as (s & T & _ & C & D).
  destruct (C fx vx ltac:(left; auto)) as [F1 E1]. destruct (C fy vy ltac:(right; left; auto)) as [F2 E2]. destruct (C fz vz ltac:(right; right; auto)) as [F3 E3].
  split; [split; [|split]; assumption|]. split; [|exact D]. exists s. split; [exact T|]. rewrite scale51, scale1073. intros c [-> |[-> | ->]]; assumption.
Qed.
Print Assumptions C105_segment_point.

(** A ray that clearly climbs or sinks towards the plane meets it, *)
Theorem C105_towards : forall alt p o d s, plane_and_ray p o d -> s = 1 \/ s = -1 -> let pl := exact_plane p in
  slack pl (exact_vec o) < s * side alt pl (exact_vec o) -> climb_slack pl (exact_vec d) < - s * climb pl (exact_vec d) -> exists q, fplane_ray alt p (mkFRay o d) = Some q.
Proof. intros alt p o d s (P & O & D) S pl HS HN. unfold fplane_ray. cbn [frorigin frdirection]. rewrite (towards_hits alt p o d P O D s S HS HN). eauto. Qed.
Print Assumptions C105_towards.

(** one that clearly leads away from it does not, unless the direction is 2^1000 times longer than the distance; *)
Theorem C105_away : forall alt p o d s, plane_and_ray p o d -> s = 1 \/ s = -1 -> let pl := exact_plane p in
  2 * slack pl (exact_vec o) < s * side alt pl (exact_vec o) -> climb_slack pl (exact_vec d) < s * climb pl (exact_vec d) ->
  bpow radix2 (-1000) * Rabs (climb pl (exact_vec d)) <= Rabs (side alt pl (exact_vec o)) -> fplane_ray alt p (mkFRay o d) = None.
Proof. intros alt p o d s (P & O & D) S pl HS HN HR. unfold fplane_ray. cbn [frorigin frdirection]. rewrite (away_misses alt p o d P O D s S HS HN HR). reflexivity. Qed.
Print Assumptions C105_away.

(** and a finite point that is reported is close to a point of the ray and close to the plane. *)
Theorem C105_ray_point : forall alt p o d q, plane_and_ray p o d -> fplane_ray alt p (mkFRay o d) = Some q -> finite_vec q ->
  exists t, 0 <= t /\
    (forall c, c = vx \/ c = vy \/ c = vz -> Rabs (c (exact_vec q) - c (along (exact_vec o) (exact_vec d) t)) <= bpow radix2 (-51) * (Rabs (c (exact_vec o)) + Rabs (t * c (exact_vec d))) + bpow radix2 (-1073)) /\
    Rabs (side alt (exact_plane p) (exact_vec q)) <= ray_slack (exact_plane p) (exact_vec o) (exact_vec d) t.
Proof.
  intros alt p o d q (P & O & D) H F. destruct (ray_hit alt p o d P O D q H F) as (s & T & C & E). exists s. split; [exact T|]. split; [|exact E]. rewrite scale51, scale1073.
  assert (U := v_small). assert (ET := bpow_gt_0 radix2 (-1075)).
  assert (W : forall f c, UniformSplineFloatEval.coordinates f c -> Rabs (B2R (f q) - (c (exact_vec o) + s * c (exact_vec d))) <= 4 * u * (Rabs (c (exact_vec o)) + Rabs (s * c (exact_vec d))) + 4 * eta).
  { intros f c K. apply Rle_trans with (1 := C f c K). assert (0 <= u * (Rabs (c (exact_vec o)) + Rabs (s * c (exact_vec d)))) by (apply Rmult_le_pos; [lra|]; apply Rplus_le_le_0_compat; apply Rabs_pos). lra. }
  intros c [-> |[-> | ->]]; [exact (W fx vx ltac:(left; auto))|exact (W fy vy ltac:(right; left; auto))|exact (W fz vz ltac:(right; right; auto))].
Qed.
Print Assumptions C105_ray_point.

(** A ray that leads away from the plane can be reported to meet it: one that starts 2^-600 in front of the plane z = 0 and leads away with a direction of length 2^500. *)
Definition tiny : b64 := @B754_finite 53 1024 false 4503599627370496 (-652) eq_refl.
Definition huge : b64 := @B754_finite 53 1024 false 4503599627370496 448 eq_refl.
Definition ground : fplane := mkFPlane (FV b64_0 b64_0 b64_1) b64_0.
Theorem C105_away_refuted : B2R tiny = bpow radix2 (-600) /\ B2R huge = bpow radix2 500 /\
  fplane_ray false ground (mkFRay (FV b64_0 b64_0 tiny) (FV b64_0 b64_0 huge)) <> None.
Proof.
  split; [|split].
  - change (bpow radix2 (-600)) with (bpow radix2 (52 + -652)). rewrite bpow_plus. reflexivity.
  - change (bpow radix2 500) with (bpow radix2 (52 + 448)). rewrite bpow_plus. reflexivity.
  - set (t := fplane_ray _ _ _). assert (E : (match t with Some _ => true | None => false end) = true) by (vm_compute; reflexivity). destruct t; [discriminate|discriminate E].
Qed.
Print Assumptions C105_away_refuted.

(** The computed closest point of a plane is in each coordinate at most 80 units from the nearest point of the plane. *)
Theorem C105_closest : forall alt p x M, bpow radix2 (-900) <= M <= bpow radix2 400 -> point_within 2 (fnormal p) -> nearly_unit (exact_vec (fnormal p)) ->
  is_finite (fdistance p) = true -> Rabs (B2R (fdistance p)) <= M -> point_within M x ->
  exists f, nearest_on alt (exact_plane p) (exact_vec x) f /\ at_most_off (80 * unit_of M) (fclosest_on_plane alt p x) f.
Proof.
  intros alt p x M HM HN NU FD HD HX. exists (foot alt p x). split; [exact (foot_nearest alt p x NU)|exact (closest_near alt p x M HM HN NU FD HD HX)].
Qed.
Print Assumptions C105_closest.

(** Numbers for which this holds: the plane z = 0, a segment from (0, 0, 1) to (2, 0, -1) and a ray along it *)
Definition pt (i j k : Z) : fvec := FV (b64_of_Z i) (b64_of_Z j) (b64_of_Z k).
Example C105_case : fplane_line false ground (mkFLine (pt 0 0 1) (pt 2 0 (-1))) = Some (pt 1 0 0) /\ fplane_line false ground (mkFLine (pt 0 0 1) (pt 2 0 3)) = None /\
  fplane_ray false ground (mkFRay (pt 0 0 1) (pt 2 0 (-2))) = Some (pt 1 0 0) /\ fplane_ray false ground (mkFRay (pt 0 0 1) (pt 2 0 1)) = None /\
  fclosest_on_plane false ground (pt 3 4 5) = pt 3 4 0 /\ nearly_unit (exact_vec (fnormal ground)).
Proof.
  assert (SF : forall a b : b64, B2SF a = B2SF b -> a = b) by (intros; now apply B2SF_inj).
  assert (V : forall v w : fvec, B2SF (fx v) = B2SF (fx w) -> B2SF (fy v) = B2SF (fy w) -> B2SF (fz v) = B2SF (fz w) -> v = w) by (intros [a1 a2 a3] [b1 b2 b3] E1 E2 E3; cbn [fx fy fz] in *; f_equal; now apply SF).
  assert (O : forall (o : option fvec) w, match o with Some v => B2SF (fx v) = B2SF (fx w) /\ B2SF (fy v) = B2SF (fy w) /\ B2SF (fz v) = B2SF (fz w) | None => False end -> o = Some w) by (intros [v|] w; [intros (? & ? & ?); f_equal; now apply V|tauto]).
  assert (Nn : forall o : option fvec, match o with Some _ => false | None => true end = true -> o = None) by (intros [?|]; [discriminate|reflexivity]).
  split; [apply O; vm_compute; auto|]. split; [apply Nn; vm_compute; reflexivity|]. split; [apply O; vm_compute; auto|]. split; [apply Nn; vm_compute; reflexivity|].
  split; [apply V; vm_compute; reflexivity|]. unfold nearly_unit, dot, ground, exact_vec. cbn [fnormal fx fy fz vx vy vz]. destruct one_value as [-> _]. change (B2R b64_0) with 0.
  replace (0 * 0 + 0 * 0 + 1 * 1 - 1) with 0 by ring. rewrite Rabs_R0. apply bpow_ge_0.
Qed.
Definition above : fvec := FV b64_0 b64_0 b64_1.
Definition below : fvec := FV b64_1 b64_0 (Bopp b64_1).
Example C105_case_clear : plane_and_segment ground above below /\ plane_and_ray ground above below /\ (let pl := exact_plane ground in
  2 * edge_slack pl (exact_vec above) (exact_vec below) < 1 * side false pl (exact_vec above) /\ 2 * edge_slack pl (exact_vec above) (exact_vec below) < - (1) * side false pl (exact_vec below) /\
  slack pl (exact_vec above) < 1 * side false pl (exact_vec above) /\ climb_slack pl (exact_vec below) < - (1) * climb pl (exact_vec below)).
Proof.
  destruct one_value as [V F]. destruct (opp_value b64_1) as [Fo Vo]. rewrite V in Vo.
  assert (K1 : 1 <= bpow radix2 499) by (change 1 with (bpow radix2 0); apply bpow_le; lia). assert (K2 : 1 <= bpow radix2 500) by (change 1 with (bpow radix2 0); apply bpow_le; lia).
  assert (A0 : Rabs 0 = 0) by apply Rabs_R0. assert (A1 : Rabs 1 = 1) by apply Rabs_R1. assert (A2 : Rabs (- (1)) = 1) by (rewrite Rabs_Ropp; apply Rabs_R1).
  assert (T0 : tame b64_0) by (split; [reflexivity|]; change (B2R b64_0) with 0; lra). assert (T1 : tame b64_1) by (split; [exact F|]; rewrite V; lra). assert (T2 : tame (Bopp b64_1)) by (split; [rewrite Fo; exact F|]; rewrite Vo; lra).
  assert (M0 : moderate b64_0) by (split; [reflexivity|]; change (B2R b64_0) with 0; lra). assert (M1 : moderate b64_1) by (split; [exact F|]; rewrite V; lra). assert (M2 : moderate (Bopp b64_1)) by (split; [rewrite Fo; exact F|]; rewrite Vo; lra).
  split; [exact (conj (conj (conj M0 (conj M0 M1)) M0) (conj (conj T0 (conj T0 T1)) (conj T1 (conj T0 T2))))|]. split; [exact (conj (conj (conj M0 (conj M0 M1)) M0) (conj (conj M0 (conj M0 M1)) (conj M1 (conj M0 M2))))|]. cbv zeta. unfold edge_slack, slack, climb_slack, climb_magnitude, climb, magnitude. rewrite !side_dsign. unfold dot, exact_plane, exact_vec, ground, above, below. cbn [fnormal fdistance fx fy fz vx vy vz Plane.normal Plane.distance dsign].
  rewrite !Vo, !V. change (B2R b64_0) with 0. rewrite !Rmult_0_l, !Rmult_1_l, A0, A1, A2. assert (U := v_small). assert (ET := MeshFloatLemmas.eta_small). rewrite scale47, scale1066, scale50, eta_slack, scale51, scale1072. repeat split; lra.
Qed.
