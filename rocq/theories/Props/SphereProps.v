(** Properties C46 (rays against spheres), C58 (derived sizes of spheres and cones) and C65 (the volumes are the volumes). *)
From Coq Require Import Reals List Bool Lra Psatz.
From Coquelicot Require Import Coquelicot.
From Verif Require Import Model.Scalar Model.Vec Model.Plane Model.Coll Spec.PlaneSpec Spec.CollSpec Proofs.VecLemmas Proofs.PlaneLemmas Proofs.LineLemmas.
Local Open Scope R_scope.

(** ** C46 *)

Lemma sphere_dist s r t : unit (rdirection r) -> let dif := vsub (rorigin r) (sorigin s) in
  dist (ray_at r t) (sorigin s) * dist (ray_at r t) (sorigin s) = t * t + 2 * t * dot dif (rdirection r) + len_sq dif.
Proof.
  intros U dif. unfold dist. rewrite len_sqr. unfold unit in U.
  assert (E : dot (vsub (ray_at r t) (sorigin s)) (vsub (ray_at r t) (sorigin s)) = t * t * dot (rdirection r) (rdirection r) + 2 * t * dot dif (rdirection r) + len_sq dif).
  { unfold dif, ray_at. clear. destruct r as [[] []], s as [[] ?]. cbn [rorigin rdirection sorigin]. vring. }
  rewrite E, U. ring.
Qed.
Lemma dist_ge x y : 0 <= dist x y. Proof. apply len_ge. Qed.
Lemma sqr_le_iff a b : 0 <= a -> 0 <= b -> (a <= b <-> a * a <= b * b).
Proof. intros A B. split; intros H; nra. Qed.

(** For a normalized direction, an origin not inside the sphere and a radius that is not negative: a reported point is on the sphere and
    no earlier point of the ray is in the solid sphere; if nothing is reported and the origin is outside, no point of the ray is in the
    solid sphere. *)
Theorem C46_first_hit_partial s r : unit (rdirection r) -> 0 <= sradius s ->
  match sphere_ray s r with
  | Some x => exists t, 0 <= t /\ x = ray_at r t /\ on_sphere s x /\ (forall u, 0 <= u < t -> ~ in_ball s (ray_at r u))
  | None => sradius s < dist (rorigin r) (sorigin s) -> forall u, 0 <= u -> ~ in_ball s (ray_at r u)
  end.
Proof.
  intros U R. assert (D := fun t => sphere_dist s r t U). cbn zeta in D.
  unfold sphere_ray, sphere_interp. set (dif := vsub (rorigin r) (sorigin s)) in *. set (b := dot dif (rdirection r)) in *.
  set (c := len_sq dif - sradius s * sradius s) in *.
  assert (B : forall u, in_ball s (ray_at r u) <-> u * u + 2 * u * b + c <= 0).
  { intros u. unfold in_ball. rewrite sqr_le_iff by (apply dist_ge || exact R). rewrite D. unfold c. split; intros; lra. }
  assert (O : dist (rorigin r) (sorigin s) * dist (rorigin r) (sorigin s) = len_sq dif) by apply len_sqr.
  destruct (Rltb c 0) eqn:E0.
  { apply Rltb_iff in E0. intros H. exfalso. assert (P := dist_ge (rorigin r) (sorigin s)). unfold c in E0. rewrite <- O in E0. nra. }
  apply Rltb_false in E0. destruct (Rltb 0 b) eqn:E1.
  { apply Rltb_iff in E1. intros H u Hu K. apply B in K.
    assert (0 < c). { unfold c. rewrite <- O. assert (P := dist_ge (rorigin r) (sorigin s)). nra. }
    assert (0 <= u * b) by nra. nra. }
  apply Rltb_false in E1. destruct (Rltb (b * b - c) 0) eqn:E2.
  { apply Rltb_iff in E2. intros _ u _ K. apply B in K. assert (0 <= (u + b) * (u + b)) by apply Rle_0_sqr. nra. }
  apply Rltb_false in E2. set (q := sqrt (b * b - c)). assert (Q0 : 0 <= q) by apply sqrt_pos.
  assert (Q : q * q = b * b - c) by (apply sqrt_sqrt; exact E2).
  exists (- b - q). assert (q <= - b) by nra. split; [lra|]. split; [reflexivity|]. split.
  - unfold on_sphere. change (ray_lerp r (- b - q)) with (ray_at r (- b - q)).
    apply Rsqr_inj; [apply dist_ge|exact R|]. unfold Rsqr. rewrite D. fold b. unfold c in Q. nra.
  - intros u Hu K. apply B in K. assert ((u + b) * (u + b) <= q * q) by nra. nra.
Qed.
Print Assumptions C46_first_hit_partial.

(** So a hit is reported, for an origin outside the sphere, exactly when the ray meets the solid sphere. *)
Theorem C46_hit_iff s r : unit (rdirection r) -> 0 <= sradius s -> sradius s < dist (rorigin r) (sorigin s) ->
  ((exists x, sphere_ray s r = Some x) <-> exists x, on_ray r x /\ in_ball s x).
Proof.
  intros U R O. assert (K := C46_first_hit_partial s r U R). destruct (sphere_ray s r) as [x|].
  - split; [|eauto]. intros _. destruct K as (t & T & E & S & _). exists x. split; [exists t; split; [exact T|exact E]|]. unfold in_ball. rewrite S. lra.
  - split; [intros (x & X); discriminate|]. intros (x & (t & T & ->) & B). exfalso. apply (K O t T B).
Qed.
Print Assumptions C46_hit_iff.

Definition ball1 : sphere := mkSphere vzero 1.
Example C46_example : exists x, sphere_ray ball1 (mkRay (V3 (-3) 0 0) (V3 1 0 0)) = Some x /\ on_sphere ball1 x.
Proof.
  assert (U : unit (V3 1 0 0)) by (unfold unit; vunfold; ring).
  assert (K := C46_first_hit_partial ball1 (mkRay (V3 (-3) 0 0) (V3 1 0 0)) U ltac:(cbn; lra)).
  destruct (sphere_ray ball1 _) as [x|]; [destruct K as (t & _ & _ & S & _); eauto|]. exfalso. apply (K) with (u := 3).
  - unfold dist, len, ball1; cbn. replace (dot _ _) with (3 * 3) by (vunfold; ring). rewrite sqrt_square; lra.
  - lra.
  - unfold in_ball, dist, len, ray_at, ball1; cbn [sorigin sradius rorigin rdirection]. replace (dot _ _) with 0 by (vunfold; ring). rewrite sqrt_0. lra.
Qed.

(** From inside the sphere, or from its surface outwards, nothing is reported although the ray meets the sphere. *)
Theorem C46_inside_refuted : exists s r x r', unit (rdirection r) /\ 0 <= sradius s /\ on_ray r x /\ on_sphere s x /\ sphere_ray s r = None /\
  unit (rdirection r') /\ on_sphere s (rorigin r') /\ sphere_ray s r' = None.
Proof.
  exists ball1, (mkRay vzero (V3 1 0 0)), (V3 1 0 0), (mkRay (V3 1 0 0) (V3 1 0 0)).
  assert (U : unit (V3 1 0 0)) by (unfold unit; vunfold; ring).
  assert (S : on_sphere ball1 (V3 1 0 0)) by (unfold on_sphere, dist, len, ball1; cbn [sorigin sradius]; replace (dot _ _) with (1 * 1) by (vunfold; ring); rewrite sqrt_square; lra).
  split; [exact U|]. split; [cbn; lra|]. split; [exists 1; split; [lra|]; cbn [rorigin rdirection]; vring|]. split; [exact S|].
  split; [|split; [exact U|split; [exact S|]]]; unfold sphere_ray, sphere_interp, ball1; cbn [rorigin rdirection sorigin sradius].
  - replace (len_sq (vsub vzero vzero) - 1 * 1) with (-1) by (vunfold; ring). replace (Rltb (-1) 0) with true by (symmetry; apply Rltb_iff; lra). reflexivity.
  - replace (len_sq (vsub (V3 1 0 0) vzero) - 1 * 1) with 0 by (vunfold; ring). replace (Rltb 0 0) with false by (symmetry; apply Rltb_false; lra).
    replace (dot (vsub (V3 1 0 0) vzero) (V3 1 0 0)) with 1 by (vunfold; ring). replace (Rltb 0 1) with true by (symmetry; apply Rltb_iff; lra). reflexivity.
Qed.
Print Assumptions C46_inside_refuted.

(** The documentation of the parameter says the direction need not be normalized.  With a direction of length two the reported point is
    not on the sphere. *)
Theorem C46_direction_refuted : exists s r x, 0 <= sradius s /\ sradius s < dist (rorigin r) (sorigin s) /\ rdirection r <> vzero /\
  sphere_ray s r = Some x /\ ~ on_sphere s x.
Proof.
  exists ball1, (mkRay (V3 (-3) 0 0) (V3 2 0 0)). unfold sphere_ray, sphere_interp, ball1; cbn [rorigin rdirection sorigin sradius].
  replace (len_sq (vsub (V3 (-3) 0 0) vzero) - 1 * 1) with 8 by (vunfold; ring). replace (Rltb 8 0) with false by (symmetry; apply Rltb_false; lra).
  replace (dot (vsub (V3 (-3) 0 0) vzero) (V3 2 0 0)) with (-6) by (vunfold; ring). replace (Rltb 0 (-6)) with false by (symmetry; apply Rltb_false; lra).
  replace (-6 * -6 - 8) with 28 by ring. replace (Rltb 28 0) with false by (symmetry; apply Rltb_false; lra).
  eexists. split; [lra|]. split.
  { unfold dist, len. replace (dot _ _) with (3 * 3) by (vunfold; ring). rewrite sqrt_square; lra. }
  split; [intros E; apply (f_equal vx) in E; vunfold; lra|]. split; [reflexivity|].
  unfold on_sphere, dist, len, ray_lerp; cbn [rorigin rdirection sorigin sradius]. intros E.
  assert (Q : 5 < sqrt 28). { apply Rsqr_incrst_0; [|lra|apply sqrt_pos]. rewrite Rsqr_sqrt by lra. unfold Rsqr. lra. }
  assert (F : dot (vsub (vadd (V3 (-3) 0 0) (vscale (- -6 - sqrt 28) (V3 2 0 0))) vzero) (vsub (vadd (V3 (-3) 0 0) (vscale (- -6 - sqrt 28) (V3 2 0 0))) vzero) = (9 - 2 * sqrt 28) * (9 - 2 * sqrt 28)) by (vunfold; ring).
  rewrite F in E. assert (S : sqrt 28 * sqrt 28 = 28) by (apply sqrt_sqrt; lra).
  apply (f_equal (fun y => y * y)) in E. rewrite sqrt_sqrt in E by apply Rle_0_sqr. nra.
Qed.
Print Assumptions C46_direction_refuted.

(** ** C58 *)

Lemma pi_pos : 0 < PI. Proof. exact PI_RGT_0. Qed.
Lemma cpow_cube x : 0 <= x -> exists r, cpow x (1 / 3) = Some r /\ 0 <= r /\ r * r * r = x.
Proof.
  intros H. unfold cpow. replace (Rltb x 0) with false by (symmetry; apply Rltb_false; exact H).
  destruct (Reqb x 0) eqn:E; [apply Reqb_iff in E; subst; exists 0; split; [reflexivity|split; [lra|ring]]|]. apply Reqb_false in E.
  exists (Rpower x (1 / 3)). split; [reflexivity|]. assert (P : 0 < Rpower x (1 / 3)) by apply exp_pos. split; [lra|].
  rewrite <- !Rpower_plus. replace (1 / 3 + 1 / 3 + 1 / 3) with 1 by field. apply Rpower_1. lra.
Qed.
Lemma cube_inj x y : 0 <= x -> 0 <= y -> x * x * x = y * y * y -> x = y.
Proof.
  intros X Y H. destruct (Rtotal_order x y) as [L|[L|L]]; [|exact L|]; exfalso.
  - assert (x * x <= y * y) by nra. assert (x * x * x < y * y * y); [|lra]. apply Rle_lt_trans with (y * y * x); [nra|]. assert (0 < y * y) by nra. nra.
  - assert (y * y <= x * x) by nra. assert (y * y * y < x * x * x); [|lra]. apply Rle_lt_trans with (x * x * y); [nra|]. assert (0 < x * x) by nra. nra.
Qed.

(** Setting a volume or area that is not negative and reading it back gives that value; the radius is not negative and the centre stays.
    Setting the volume or area the sphere has already leaves it unchanged, if its radius is not negative. *)
Theorem C58_sphere_volume s v : 0 <= v -> exists s', sphere_set_volume s v = Some s' /\ sphere_volume s' = v /\ 0 <= sradius s' /\ sorigin s' = sorigin s.
Proof.
  intros H. assert (P := pi_pos). unfold sphere_set_volume.
  assert (X : 0 <= v * 3 / (4 * PI)) by (apply Rmult_le_pos; [lra|left; apply Rinv_0_lt_compat; lra]).
  destruct (cpow_cube _ X) as (r & -> & R & C). eexists. split; [reflexivity|]. cbn [sradius sorigin].
  split; [|auto]. unfold sphere_volume; cbn [sradius]. replace (4 / 3 * PI * r * r * r) with (4 / 3 * PI * (r * r * r)) by ring. rewrite C. field. lra.
Qed.
Print Assumptions C58_sphere_volume.
Theorem C58_sphere_area s a : 0 <= a -> exists s', sphere_set_area s a = Some s' /\ sphere_area s' = a /\ 0 <= sradius s' /\ sorigin s' = sorigin s.
Proof.
  intros H. assert (P := pi_pos). unfold sphere_set_area, csqrt.
  assert (X : 0 <= a / (4 * PI)) by (apply Rmult_le_pos; [lra|left; apply Rinv_0_lt_compat; lra]).
  replace (Rltb (a / (4 * PI)) 0) with false by (symmetry; apply Rltb_false; exact X). eexists. split; [reflexivity|]. cbn [sradius sorigin].
  split; [|split; [apply sqrt_pos|reflexivity]]. unfold sphere_area; cbn [sradius]. rewrite Rmult_assoc, sqrt_sqrt by exact X. field. lra.
Qed.
Print Assumptions C58_sphere_area.
Theorem C58_sphere_same s : 0 <= sradius s -> sphere_set_volume s (sphere_volume s) = Some s /\ sphere_set_area s (sphere_area s) = Some s.
Proof.
  intros R. assert (P := pi_pos). assert (RR : 0 <= sradius s * sradius s) by nra. assert (RRR : 0 <= sradius s * sradius s * sradius s) by nra. split.
  - destruct (C58_sphere_volume s (sphere_volume s)) as (s' & E & V & R' & O).
    { unfold sphere_volume. replace (4 / 3 * PI * sradius s * sradius s * sradius s) with (4 / 3 * PI * (sradius s * sradius s * sradius s)) by ring. apply Rmult_le_pos; lra. }
    rewrite E. f_equal. destruct s as [o r], s' as [o' r']. cbn in *. f_equal; [exact O|]. apply cube_inj; [exact R'|exact R|].
    unfold sphere_volume in V; cbn in V. apply (Rmult_eq_reg_l (4 / 3 * PI)); lra.
  - destruct (C58_sphere_area s (sphere_area s)) as (s' & E & V & R' & O).
    { unfold sphere_area. replace (4 * PI * sradius s * sradius s) with (4 * PI * (sradius s * sradius s)) by ring. apply Rmult_le_pos; lra. }
    rewrite E. f_equal. destruct s as [o r], s' as [o' r']. cbn in *. f_equal; [exact O|]. apply Rsqr_inj; [exact R'|exact R|].
    unfold sphere_area in V; cbn in V. unfold Rsqr. apply (Rmult_eq_reg_l (4 * PI)); lra.
Qed.
Print Assumptions C58_sphere_same.
(** An angle strictly between plus and minus ninety degrees, for a cone whose height is not zero *)
Theorem C58_cone_angle neg c angle : cheight c <> 0 -> - (PI / 2) < angle < PI / 2 ->
  let c' := cone_set_angle c angle in
  cone_angle neg c' = Some angle /\ cheight c' = cheight c /\ cpoint c' = cpoint c /\ cdirection c' = cdirection c.
Proof.
  intros H A c'. split; [|unfold c', cone_set_angle; cbn; auto]. unfold c', cone_angle, cone_set_angle; cbn [cheight cradius].
  replace (Reqb (cheight c) 0) with false by (symmetry; apply Reqb_false; exact H). f_equal.
  replace (cheight c * tan angle / cheight c) with (tan angle) by (field; exact H). apply atan_tan. exact A.
Qed.
Print Assumptions C58_cone_angle.
Example C58_example : exists s', sphere_set_volume ball1 36 = Some s' /\ sphere_volume s' = 36.
Proof. destruct (C58_sphere_volume ball1 36) as (s' & A & B & _); [lra|eauto]. Qed.
Example C58_cone_example : cone_angle false (cone_set_angle (mkCone vzero (V3 0 1 0) 1 2) (PI / 4)) = Some (PI / 4).
Proof. apply C58_cone_angle; [cbn; lra|]. assert (P := pi_pos). lra. Qed.

(** Beyond these ranges the round trip fails: a negative volume or area gives a radius that is not a number, a flat cone has no angle, and
    an angle of 135 degrees reads back as -45 degrees. *)
Theorem C58_ranges_refuted : exists s c c', sphere_set_volume s (-1) = None /\ sphere_set_area s (-1) = None /\
  (forall neg angle, cone_angle neg (cone_set_angle c angle) = None) /\
  cheight c' <> 0 /\ (forall neg, cone_angle neg (cone_set_angle c' (3 * PI / 4)) = Some (- (PI / 4))).
Proof.
  exists ball1, (mkCone vzero (V3 0 1 0) 1 0), (mkCone vzero (V3 0 1 0) 1 1). assert (P := pi_pos).
  assert (I : 0 < / (4 * PI)) by (apply Rinv_0_lt_compat; lra).
  split. { unfold sphere_set_volume, cpow. replace (Rltb (-1 * 3 / (4 * PI)) 0) with true; [reflexivity|]. symmetry. apply Rltb_iff. unfold Rdiv. nra. }
  split. { unfold sphere_set_area, csqrt. replace (Rltb (-1 / (4 * PI)) 0) with true; [reflexivity|]. symmetry. apply Rltb_iff. unfold Rdiv. nra. }
  split. { intros neg angle. unfold cone_angle, cone_set_angle; cbn [cheight cradius]. rewrite Rmult_0_l.
           replace (Reqb 0 0) with true by (symmetry; apply Reqb_iff; reflexivity). reflexivity. }
  split; [cbn; lra|]. intros neg. unfold cone_angle, cone_set_angle; cbn [cheight cradius].
  replace (Reqb 1 0) with false by (symmetry; apply Reqb_false; lra). f_equal.
  replace (1 * tan (3 * PI / 4) / 1) with (tan (3 * PI / 4)) by field.
  replace (tan (3 * PI / 4)) with (tan (- (PI / 4))); [apply atan_tan; lra|].
  replace (3 * PI / 4) with (- (PI / 4) + PI) by field. unfold tan. rewrite neg_sin, neg_cos. field.
  assert (K := cos_gt_0 (- (PI / 4))). intros E. rewrite E in K. assert (0 < 0); [apply K; lra|lra].
Qed.
Print Assumptions C58_ranges_refuted.

(** ** C65 *)

(** The volume of a solid from the areas of its cross sections: the sphere of radius r is cut at height z in a disk of radius
    sqrt (r^2 - z^2), the cone at the distance z from its tip in a disk of radius r * z / h. *)
Definition disk_area (r : R) : R := PI * (r * r).
Theorem C65_sphere_volume s : 0 <= sradius s ->
  is_RInt (fun z => disk_area (sqrt (sradius s * sradius s - z * z))) (- sradius s) (sradius s) (sphere_volume s).
Proof.
  intros R. set (r := sradius s) in *.
  apply (is_RInt_ext (fun z => PI * (r * r - z * z))).
  { intros z Hz. rewrite Rmin_left, Rmax_right in Hz by lra. unfold disk_area. rewrite sqrt_sqrt; [reflexivity|]. nra. }
  set (F z := PI * (r * r * z - z * z * z / 3)).
  replace (sphere_volume s) with (minus (F r) (F (- r))).
  - apply (is_RInt_derive F); intros z _.
    + unfold F. auto_derive; [auto|]. field.
    + apply continuity_pt_filterlim. reg.
  - unfold minus, plus, opp, F, sphere_volume; cbn. fold r. field.
Qed.
Print Assumptions C65_sphere_volume.
Theorem C65_cone_volume c : cheight c <> 0 ->
  is_RInt (fun z => disk_area (cradius c * z / cheight c)) 0 (cheight c) (cone_volume c).
Proof.
  intros H. set (h := cheight c) in *. set (r := cradius c).
  set (F z := PI * (r * r / (h * h)) * (z * z * z) / 3).
  replace (cone_volume c) with (minus (F h) (F 0)).
  - apply (is_RInt_derive F); intros z _.
    + unfold F, disk_area. auto_derive; [auto|]. field. exact H.
    + apply continuity_pt_filterlim. unfold disk_area. reg.
  - unfold minus, plus, opp, F, cone_volume; cbn. fold r h. field. exact H.
Qed.
Print Assumptions C65_cone_volume.
(** The area is the rate at which the volume grows with the radius. *)
Theorem C65_sphere_area o r : is_derive (fun r => sphere_volume (mkSphere o r)) r (sphere_area (mkSphere o r)).
Proof. unfold sphere_volume, sphere_area; cbn [sradius]. auto_derive; [auto|]. field. Qed.
Print Assumptions C65_sphere_area.
Example C65_example : 0 <= sradius ball1 /\ sphere_volume ball1 = 4 / 3 * PI.
Proof. cbn. unfold sphere_volume; cbn. lra. Qed.
