(** Sizes, angles and distances *)
From Coq Require Import ZArith Reals List Bool Arith Lia Lra.
From Verif Require Import Model.Scalar Model.Vec Model.Plane Model.Coll Model.Tri Model.Shapes Spec.PlaneSpec Spec.CollSpec Spec.ShapeSpec Proofs.VecLemmas Proofs.KnotLemmas.
From Verif Require Props.LineProps.
Import ListNotations.
Local Open Scope R_scope.

(** ** Boxes *)
Lemma center_size b : map (fun cs => around_center (fst cs) (snd cs)) (combine (center_real b) (size_real b)) = map ascending b.
Proof.
  induction b as [|[l h] b IH]; [reflexivity|]. unfold center_real, size_real in *. cbn [map combine fst snd]. rewrite IH. f_equal. unfold around_center, ascending. cbn [fst snd].
  unfold Rabs, Rmin, Rmax. destruct (Rcase_abs (h - l)), (Rle_dec l h); f_equal; lra.
Qed.
Lemma int32_iff x y : int32 x = Some y <-> x = y /\ is_int32 x.
Proof.
  unfold int32, is_int32. destruct ((- 2 ^ 31 <=? x) && (x <? 2 ^ 31))%Z eqn:E; [apply andb_true_iff in E; destruct E as [A B]; apply Z.leb_le in A; apply Z.ltb_lt in B|apply andb_false_iff in E; rewrite Z.leb_gt, Z.ltb_ge in E].
  - split; [intros H; injection H as <-; auto|intros [-> _]; reflexivity].
  - split; [discriminate|lia].
Qed.
Lemma int32_none x : int32 x = None <-> ~ is_int32 x.
Proof. destruct (int32 x) as [y|] eqn:E; [apply int32_iff in E; destruct E; split; [discriminate|contradiction]|]. split; [intros _ H|reflexivity]. assert (int32 x = Some x) by now apply int32_iff. congruence. Qed.
Lemma each_iff {A B} (f : A -> option B) : forall l r, each f l = Some r <-> Forall2 (fun a b => f a = Some b) l r.
Proof.
  induction l as [|a l IH]; intros r; cbn [each].
  - split; [intros H; injection H as <-; constructor|intros H; inversion H; reflexivity].
  - split.
    + destruct (f a) as [b|] eqn:E; [|discriminate]. destruct (each f l) as [s|]; [|discriminate]. intros H. injection H as <-. constructor; [assumption|now apply IH].
    + intros H. inversion H as [|? b ? s E F]; subst. rewrite E. apply IH in F. now rewrite F.
Qed.
Lemma each_none {A B} (f : A -> option B) : forall l, each f l = None <-> Exists (fun a => f a = None) l.
Proof.
  induction l as [|a l IH]; cbn [each]; [split; [discriminate|intros H; inversion H]|]. split.
  - destruct (f a) eqn:E; [|now left]. destruct (each f l); [discriminate|]. intros _. right. now apply IH.
  - intros H. inversion H as [? ? E|? ? E]; subst; [now rewrite E|]. apply IH in E. rewrite E. now destruct (f a).
Qed.
Lemma Forall2_impl' {A B} (P Q : A -> B -> Prop) : (forall a b, P a b -> Q a b) -> forall l r, Forall2 P l r -> Forall2 Q l r.
Proof. intros H l r F. induction F; constructor; auto. Qed.
Lemma size_int_iff b s : size_int b = Some s <-> Forall2 (fun i d => d = Z.abs (snd i - fst i) /\ (d < 2 ^ 31)%Z) b s.
Proof.
  unfold size_int. rewrite each_iff. split; apply Forall2_impl'; intros [l h] d; cbn [fst snd].
  - destruct (int32 (h - l)) as [x|] eqn:E; [|discriminate]. apply int32_iff in E. destruct E as [<- E]. intros H. apply int32_iff in H. destruct H as [<- H]. unfold is_int32 in H. lia.
  - intros [-> H]. assert (E : int32 (h - l) = Some (h - l)%Z) by (apply int32_iff; unfold is_int32; lia). rewrite E. apply int32_iff. unfold is_int32. lia.
Qed.
Lemma center_int_iff b c : center_int b = Some c <-> Forall2 (fun i x => is_int32 (fst i + snd i) /\ x = Z.quot (fst i + snd i) 2) b c.
Proof.
  unfold center_int. rewrite each_iff. split; apply Forall2_impl'; intros [l h] d; cbn [fst snd].
  - destruct (int32 (l + h)) as [x|] eqn:E; [|discriminate]. apply int32_iff in E. destruct E as [<- E]. intros H. injection H as <-. auto.
  - intros [H ->]. assert (E : int32 (l + h) = Some (l + h)%Z) by now apply int32_iff. now rewrite E.
Qed.
Lemma quot_middle x : (Z.abs (2 * Z.quot x 2 - x) <= 1)%Z.
Proof. pose proof (Z.quot_rem' x 2). pose proof (Z.rem_bound_abs x 2 ltac:(lia)). lia. Qed.
Lemma center_int_middle b c : center_int b = Some c -> Forall2 middle b c.
Proof. rewrite center_int_iff. apply Forall2_impl'. intros i x [_ ->]. apply quot_middle. Qed.
Lemma center_int_inside b c : center_int b = Some c -> Forall (fun i => (fst i <= snd i)%Z) b -> Forall2 (fun i x => (fst i <= x <= snd i)%Z) b c.
Proof.
  rewrite center_int_iff. intros F. induction F as [|[l h] x b c [_ ->] F IH]; intros V; [constructor|]. inversion V as [|? ? V1 V2]; subst. constructor; [|now apply IH]. cbn [fst snd] in *.
  pose proof (quot_middle (l + h)). lia.
Qed.
Lemma center_int_none b : center_int b = None <-> Exists (fun i => ~ is_int32 (fst i + snd i)) b.
Proof.
  unfold center_int. rewrite each_none. rewrite !Exists_exists. split; intros (i & I & H); exists i; (split; [assumption|]).
  - destruct (int32 (fst i + snd i)) eqn:E; [discriminate|]. now apply int32_none.
  - apply int32_none in H. now rewrite H.
Qed.

(** ** Oriented boxes *)
Lemma half_bounds l h x : Rabs (x - 1 / 2 * (l + h)) <= 1 / 2 * (h - l) <-> l <= x <= h.
Proof. split; [intros H; pose proof (Rle_abs (x - 1 / 2 * (l + h))); pose proof (Rle_abs (- (x - 1 / 2 * (l + h)))) as Q; rewrite Rabs_Ropp in Q; lra|intros H; apply Rabs_le; lra]. Qed.
Lemma corners_solid lo hi x : in_obb (obb_of_corners lo hi) x <-> in_box (mkAabb lo hi) x.
Proof.
  unfold in_obb, obb_of_corners, in_box. destruct lo as [l0 l1 l2], hi as [h0 h1 h2], x as [p q r]. unfold vadd, vsub, vscale. cbn [ocenter oaxx oaxy oaxz ohalf vx vy vz bmin bmax]. split.
  - intros (u & v & w & U & V & W & E). injection E as -> -> ->.
    rewrite <- (half_bounds l0 h0), <- (half_bounds l1 h1), <- (half_bounds l2 h2).
    replace (1 / 2 * (l0 + h0) + (u * 1 + (v * 0 + w * 0)) - 1 / 2 * (l0 + h0)) with u by ring. replace (1 / 2 * (l1 + h1) + (u * 0 + (v * 1 + w * 0)) - 1 / 2 * (l1 + h1)) with v by ring.
    replace (1 / 2 * (l2 + h2) + (u * 0 + (v * 0 + w * 1)) - 1 / 2 * (l2 + h2)) with w by ring. tauto.
  - rewrite <- (half_bounds l0 h0 p), <- (half_bounds l1 h1 q), <- (half_bounds l2 h2 r). intros H. exists (p - 1 / 2 * (l0 + h0)), (q - 1 / 2 * (l1 + h1)), (r - 1 / 2 * (l2 + h2)).
    repeat (split; [tauto|]). f_equal; ring.
Qed.
Lemma len_nonzero a : a <> vzero -> 0 < len a.
Proof. intros N. destruct (Rle_lt_or_eq_dec 0 (len a) (len_ge a)) as [|E]; [assumption|]. exfalso. apply N, len_0. congruence. Qed.
Lemma len_vzero : len vzero = 0.
Proof. unfold len. replace (dot vzero vzero) with 0 by vring. apply sqrt_0. Qed.
Lemma unit_axis_iff a h x : unit_axis a = Some (h, x) <-> a <> vzero /\ h = len a /\ x = vscale (1 / len a) a.
Proof.
  unfold unit_axis. destruct (Reqb (len a) 0) eqn:E; [apply Reqb_iff in E|apply Reqb_false in E].
  - split; [discriminate|]. intros [N _]. exfalso. apply N, len_0, E.
  - split; [intros H; injection H as <- <-; repeat split; intros ->; apply E, len_vzero|intros (_ & -> & ->); reflexivity].
Qed.
Lemma unit_axis_none a : unit_axis a = None <-> a = vzero.
Proof. unfold unit_axis. destruct (Reqb (len a) 0) eqn:E; [apply Reqb_iff, len_0 in E; tauto|apply Reqb_false in E]. split; [discriminate|]. intros ->. now rewrite len_vzero in E. Qed.
Lemma axis_unit a : a <> vzero -> len (vscale (1 / len a) a) = 1.
Proof.
  intros N. pose proof (len_nonzero a N) as P. unfold len at 1. replace (dot _ _) with 1; [apply sqrt_1|]. rewrite dot_scale_l, dot_scale_r, <- len_sqr. field. lra.
Qed.
Lemma update_iff b b' : update_half_size b = Some b' <-> oaxx b <> vzero /\ oaxy b <> vzero /\ oaxz b <> vzero /\
  b' = mkObb (ocenter b) (vscale (1 / len (oaxx b)) (oaxx b)) (vscale (1 / len (oaxy b)) (oaxy b)) (vscale (1 / len (oaxz b)) (oaxz b)) (V3 (len (oaxx b)) (len (oaxy b)) (len (oaxz b))).
Proof.
  unfold update_half_size. destruct (unit_axis (oaxx b)) as [[hx x]|] eqn:X; [apply unit_axis_iff in X; destruct X as (X & -> & ->)|apply unit_axis_none in X; split; [discriminate|tauto]].
  destruct (unit_axis (oaxy b)) as [[hy y]|] eqn:Y; [apply unit_axis_iff in Y; destruct Y as (Y & -> & ->)|apply unit_axis_none in Y; split; [discriminate|tauto]].
  destruct (unit_axis (oaxz b)) as [[hz z]|] eqn:Z; [apply unit_axis_iff in Z; destruct Z as (Z & -> & ->)|apply unit_axis_none in Z; split; [discriminate|tauto]].
  split; [intros H; injection H as <-; tauto|intros (_ & _ & _ & ->); reflexivity].
Qed.
Theorem axes_solid c x y z b : obb_of_axes c x y z = Some b ->
  (forall p, in_obb b p <-> in_solid c x y z p) /\ len (oaxx b) = 1 /\ len (oaxy b) = 1 /\ len (oaxz b) = 1.
Proof.
  unfold obb_of_axes. intros H. apply update_iff in H. cbn [ocenter oaxx oaxy oaxz] in H. destruct H as (X & Y & Z & ->). cbn [oaxx oaxy oaxz]. split; [|repeat split; now apply axis_unit].
  pose proof (len_nonzero x X) as PX. pose proof (len_nonzero y Y) as PY. pose proof (len_nonzero z Z) as PZ. intros p. unfold in_obb, in_solid. cbn [ocenter oaxx oaxy oaxz ohalf vx vy vz].
  assert (S : forall s l (v : vec3), vscale s (vscale (1 / l) v) = vscale (s / l) v) by (intros; apply vec3_ext; unfold vscale; cbn [vx vy vz]; unfold Rdiv; ring).
  assert (A : forall u l, 0 < l -> Rabs u <= l -> Rabs (u / l) <= 1).
  { intros u l P U. unfold Rdiv. rewrite Rabs_mult, (Rabs_pos_eq (/ l)) by (left; now apply Rinv_0_lt_compat). apply (Rmult_le_reg_r l); [assumption|]. rewrite Rmult_assoc, Rinv_l by lra. lra. }
  assert (A' : forall u l, 0 < l -> Rabs u <= 1 -> Rabs (u * l) <= l) by (intros u l P U; rewrite Rabs_mult, (Rabs_pos_eq l) by lra; nra).
  split; intros (u & v & w & U & V & W & ->).
  - exists (u / len x), (v / len y), (w / len z). rewrite !S. auto 8.
  - exists (u * len x), (v * len y), (w * len z). rewrite !S. repeat (split; [now apply A'|]). replace (u * len x / len x) with u by (field; lra). replace (v * len y / len y) with v by (field; lra). replace (w * len z / len z) with w by (field; lra). reflexivity.
Qed.
Theorem axes_defined c x y z : obb_of_axes c x y z = None <-> x = vzero \/ y = vzero \/ z = vzero.
Proof.
  unfold obb_of_axes, update_half_size. cbn [ocenter oaxx oaxy oaxz]. destruct (unit_axis x) as [[? ?]|] eqn:X; [apply unit_axis_iff in X|apply unit_axis_none in X; split; auto].
  destruct (unit_axis y) as [[? ?]|] eqn:Y; [apply unit_axis_iff in Y|apply unit_axis_none in Y; split; auto]. destruct (unit_axis z) as [[? ?]|] eqn:Z; [apply unit_axis_iff in Z|apply unit_axis_none in Z; split; auto].
  split; [discriminate|tauto].
Qed.
Theorem update_of_units b : len (oaxx b) = 1 -> len (oaxy b) = 1 -> len (oaxz b) = 1 -> update_half_size b = Some (mkObb (ocenter b) (oaxx b) (oaxy b) (oaxz b) (V3 1 1 1)).
Proof.
  intros X Y Z. assert (N : forall a, len a = 1 -> a <> vzero) by (intros a A ->; rewrite len_vzero in A; lra). apply update_iff. repeat (split; [now apply N|]). rewrite X, Y, Z.
  assert (S : forall a, vscale (1 / 1) a = a) by (intros a; apply vec3_ext; unfold vscale; cbn [vx vy vz]; field). now rewrite !S.
Qed.

(** ** Angles *)
Lemma angle_facts a b t : angle_between a b = Some t -> 0 < len a /\ 0 < len b /\ 0 <= t <= PI /\ len a * len b * cos t = dot a b /\ len a * len b * sin t = len (cross a b).
Proof.
  unfold angle_between. destruct (Reqb (len a * len b) 0) eqn:E; [discriminate|]. apply Reqb_false in E. intros H. injection H as <-.
  assert (PA : 0 < len a) by (pose proof (len_ge a); destruct (Req_dec (len a) 0) as [Z|]; [rewrite Z, Rmult_0_l in E; lra|lra]).
  assert (PB : 0 < len b) by (pose proof (len_ge b); destruct (Req_dec (len b) 0) as [Z|]; [rewrite Z, Rmult_0_r in E; lra|lra]).
  set (x := dot a b / (len a * len b)). assert (P : 0 < len a * len b) by now apply Rmult_lt_0_compat.
  assert (X : len a * len b * x = dot a b) by (unfold x; field; lra).
  assert (B : -1 <= x <= 1).
  { pose proof (cauchy_abs a b) as C. pose proof (Rle_abs (dot a b)). pose proof (Rle_abs (- dot a b)) as Q. rewrite Rabs_Ropp in Q. rewrite <- X in *. split; apply (Rmult_le_reg_l (len a * len b)); lra. }
  repeat split; try assumption; try apply acos_bound.
  - rewrite cos_acos by assumption. exact X.
  - rewrite sin_acos by assumption.
    assert (S0 : 0 <= 1 - x²) by (unfold Rsqr; nra).
    transitivity (sqrt ((len a * len b) * (len a * len b) * (1 - x²))); [rewrite sqrt_mult by (try nra; assumption); rewrite sqrt_square by lra; reflexivity|].
    unfold len at 5. f_equal. rewrite lagrange, <- !len_sqr, <- X. unfold Rsqr. ring.
Qed.
Lemma angle_some a b : a <> vzero -> b <> vzero -> exists t, angle_between a b = Some t.
Proof. intros A B. pose proof (len_nonzero a A). pose proof (len_nonzero b B). unfold angle_between. destruct (Reqb (len a * len b) 0) eqn:E; [|eauto]. apply Reqb_iff in E. exfalso. nra. Qed.
Lemma angle_sym a b : angle_between a b = angle_between b a.
Proof. unfold angle_between. now rewrite (Rmult_comm (len a)), (dot_comm a b). Qed.
Theorem angles_sum t : distinct t -> exists x y z, tri_angle t 0 = Some x /\ tri_angle t 1 = Some y /\ tri_angle t 2 = Some z /\ x + y + z = PI /\ 0 <= x /\ 0 <= y /\ 0 <= z.
Proof.
  destruct t as [a b c]. unfold distinct, tri_angle. cbn [corner Nat.add Nat.modulo Nat.divmod fst snd Nat.sub pa pb pc]. intros (AB & BC & CA).
  set (u := vsub b a). set (v := vsub c a). set (w := vsub c b).
  assert (NS : forall p q : vec3, p <> q -> vsub p q <> vzero) by (intros p q N E; apply N; apply vec3_ext; [apply (f_equal vx) in E|apply (f_equal vy) in E|apply (f_equal vz) in E]; unfold vsub, vzero in E; cbn [vx vy vz] in E; lra).
  assert (FL : forall p q, vsub p q = vopp (vsub q p)) by (intros; apply vec3_ext; unfold vsub, vopp; cbn [vx vy vz]; ring).
  destruct (angle_some u v) as [x X]; [apply NS; congruence|now apply NS|]. destruct (angle_some w (vopp u)) as [y Y]; [apply NS; congruence|unfold u; rewrite <- FL; now apply NS|].
  destruct (angle_some (vopp v) (vopp w)) as [z Z]; [unfold v; rewrite <- FL; apply NS; congruence|unfold w; rewrite <- FL; now apply NS|].
  exists x, y, z. split; [exact X|]. split; [rewrite (FL a b); exact Y|]. split; [rewrite (FL a c), (FL b c); exact Z|].
  apply angle_facts in X, Y, Z. destruct X as (PU & PV & X0 & XC & XS). destruct Y as (PW & _ & Y0 & YC & YS). destruct Z as (_ & _ & Z0 & ZC & ZS).
  assert (LO : forall a, len (vopp a) = len a) by (intros; unfold len; f_equal; vring). rewrite !LO in *.
  assert (W : w = vsub v u) by (unfold u, v, w; apply vec3_ext; unfold vsub; cbn [vx vy vz]; ring).
  clearbody u v w. subst w.
  assert (S1 : len (cross (vsub v u) (vopp u)) = len (cross u v)) by (unfold len; f_equal; clear; vring). assert (S2 : len (cross (vopp v) (vopp (vsub v u))) = len (cross u v)) by (unfold len; f_equal; vring).
  rewrite S1 in YS. rewrite S2 in ZS. set (s := len (cross u v)) in *. set (p := len u) in *. set (q := len v) in *. set (r := len (vsub v u)) in *. set (k := dot u v) in *.
  assert (PP : p * p = dot u u) by apply len_sqr. assert (QQ : q * q = dot v v) by apply len_sqr. assert (SS : s * s = p * p * (q * q) - k * k) by (unfold s; rewrite len_sqr, lagrange, PP, QQ; reflexivity).
  assert (YC' : r * p * cos y = p * p - k) by (rewrite YC, PP; unfold k; clear; vring). assert (ZC' : q * r * cos z = q * q - k) by (rewrite ZC, QQ; unfold k; clear; vring).
  assert (N : 0 < p * p * q * r) by (repeat apply Rmult_lt_0_compat; assumption).
  assert (C1 : cos (x + y) = cos (PI - z)).
  { rewrite (cos_minus PI), cos_PI, sin_PI. rewrite cos_plus. apply (Rmult_eq_reg_l (p * p * q * r)); [|lra].
    transitivity ((p * q * cos x) * (r * p * cos y) - (p * q * sin x) * (r * p * sin y)); [ring|]. rewrite XC, XS, YC', YS. fold k.
    transitivity (- (p * p) * (q * r * cos z)); [rewrite ZC'|ring]. nra. }
  assert (C2 : sin (x + y) = sin (PI - z)).
  { rewrite sin_PI_x, sin_plus. apply (Rmult_eq_reg_l (p * p * q * r)); [|lra].
    transitivity ((p * q * sin x) * (r * p * cos y) + (p * q * cos x) * (r * p * sin y)); [ring|]. rewrite XC, XS, YC', YS. fold k. transitivity (p * p * (q * r * sin z)); [rewrite ZS; ring|ring]. }
  destruct (same_angle _ _ C1 C2) as [n E]. pose proof PI_RGT_0. assert (n = 0%Z \/ n = 1%Z) as [-> | ->].
  { assert (-1 < n < 2)%Z; [|lia]. split; apply lt_IZR; apply (Rmult_lt_reg_l (2 * PI)); cbn; lra. }
  - repeat split; lra.
  - exfalso. assert (x = PI) by (cbn in E; lra). assert (y = PI) by (cbn in E; lra). subst x y. rewrite cos_PI in *. nra.
Qed.
Theorem angle_moved t i : (i < 3)%nat -> tri_angle (mkTri (pb t) (pc t) (pa t)) i = tri_angle t ((i + 1) mod 3).
Proof. intros H. destruct i as [|[|[|i]]]; [reflexivity..|lia]. Qed.
Theorem angle_mirrored t : tri_angle (mkTri (pa t) (pc t) (pb t)) 0 = tri_angle t 0.
Proof. unfold tri_angle. cbn [corner Nat.add Nat.modulo Nat.divmod fst snd Nat.sub pa pb pc]. apply angle_sym. Qed.

(** ** Distances *)
Theorem between_lines eps A B : 0 < eps ->
  (eps < len_sq (vsub (lb A) (la A)) \/ la A = lb A) -> (eps < len_sq (vsub (lb B) (la B)) \/ la B = lb B) ->
  let d := distance_between_lines eps A B in
  (exists x y, on_segment A x /\ on_segment B y /\ dist x y = d) /\ (forall x y, on_segment A x -> on_segment B y -> d <= dist x y) /\ distance_sq_between_lines eps A B = d * d.
Proof.
  intros He HA HB. cbn zeta. destruct (LineProps.C45_closest_segment_partial eps A B He HA HB) as (X & Y & M). set (l := closest_between_lines eps A B) in *.
  assert (E : distance_between_lines eps A B = dist (la l) (lb l)) by (unfold distance_between_lines, line_length, dist, len; fold l; f_equal; vring). rewrite E. split; [eauto|]. split; [assumption|].
  rewrite <- E. unfold distance_sq_between_lines, distance_between_lines, line_length, line_direction, len_sq. fold l. now rewrite len_sqr.
Qed.

(** ** Areas *)
Lemma area_flat t : (2 * tri_area2 t) * (2 * tri_area2 t) = dot (cross (vsub (flat (b2 t)) (flat (a2 t))) (vsub (flat (c2 t)) (flat (a2 t)))) (cross (vsub (flat (b2 t)) (flat (a2 t))) (vsub (flat (c2 t)) (flat (a2 t)))).
Proof. unfold tri_area2, flat, dot, cross, vsub. cbn [vx vy vz]. field. Qed.
Lemma area_len t : 2 * Rabs (tri_area2 t) = len (cross (vsub (flat (b2 t)) (flat (a2 t))) (vsub (flat (c2 t)) (flat (a2 t)))).
Proof. unfold len. rewrite <- area_flat. replace (2 * tri_area2 t * (2 * tri_area2 t)) with (Rsqr (2 * tri_area2 t)) by reflexivity. rewrite sqrt_Rsqr_abs, Rabs_mult, (Rabs_pos_eq 2) by lra. reflexivity. Qed.
Lemma foot u v : u <> vzero -> let s := dot v u / dot u u in
  len u * len (vsub v (vscale s u)) = len (cross u v) /\ forall r, len (vsub v (vscale s u)) <= len (vsub v (vscale r u)).
Proof.
  intros N s. pose proof (len_nonzero u N) as P. assert (D : 0 < dot u u) by (rewrite <- len_sqr; now apply Rmult_lt_0_compat). assert (S : s * dot u u = dot v u) by (unfold s; field; lra). split.
  - unfold len. rewrite <- sqrt_mult by apply dot_self_ge. f_equal. rewrite lagrange. rewrite (dot_comm u v), dot_sub_l, !dot_sub_r, !dot_scale_l, !dot_scale_r, (dot_comm u v), S. unfold s. field. lra.
  - intros r. unfold len. apply sqrt_le_1; try apply dot_self_ge. rewrite !dot_sub_l, !dot_sub_r, !dot_scale_l, !dot_scale_r, (dot_comm u v), <- S.
    assert (Q : 0 <= (r - s) * (r - s) * dot u u) by (apply Rmult_le_pos; [apply Rle_0_sqr|lra]). lra.
Qed.
Theorem area_base_height t : a2 t <> b2 t -> let a := flat (a2 t) in let b := flat (b2 t) in let c := flat (c2 t) in
  exists s, Rabs (tri_area2 t) = dist a b * dist c (along a b s) / 2 /\ forall r, dist c (along a b s) <= dist c (along a b r).
Proof.
  intros N a b c. assert (NU : vsub b a <> vzero).
  { intros E. apply N. destruct (a2 t) as [p q] eqn:A, (b2 t) as [p' q'] eqn:B. unfold a, b in E. rewrite ?A, ?B in E. unfold flat, vsub, vzero in E. cbn [x2 y2 vx vy vz] in E. injection E as X Y. f_equal; lra. }
  destruct (foot (vsub b a) (vsub c a) NU) as [H M]. set (s := dot _ _ / dot _ _) in *. exists s.
  assert (DA : forall r, dist c (along a b r) = len (vsub (vsub c a) (vscale r (vsub b a)))) by (intros r; unfold dist, along, len; f_equal; generalize a b c; clear; intros; vring).
  split; [|intros r; rewrite !DA; apply M]. rewrite DA. assert (AB : dist a b = len (vsub b a)) by (unfold dist, len; f_equal; generalize a b; clear; intros; vring). rewrite AB, H.
  pose proof (area_len t) as L. fold a b c in L. lra.
Qed.
Theorem area_split a b c p : tri_area2 (mkTri2 a b c) = tri_area2 (mkTri2 a b p) + tri_area2 (mkTri2 b c p) + tri_area2 (mkTri2 c a p).
Proof. unfold tri_area2. cbn [a2 b2 c2]. field. Qed.
Theorem area_angle t x : tri_angle2 t 0 = Some x -> 2 * Rabs (tri_area2 t) = dist (flat (a2 t)) (flat (b2 t)) * dist (flat (a2 t)) (flat (c2 t)) * sin x.
Proof.
  unfold tri_angle2, tri_angle. cbn [corner Nat.add Nat.modulo Nat.divmod fst snd Nat.sub pa pb pc]. intros H. apply angle_facts in H. destruct H as (_ & _ & _ & _ & S). rewrite area_len, <- S.
  assert (D : forall p q, dist p q = len (vsub q p)) by (intros; unfold dist, len; f_equal; vring). now rewrite !D.
Qed.
Theorem area_mirrored a b c : tri_area2 (mkTri2 a c b) = - tri_area2 (mkTri2 a b c).
Proof. unfold tri_area2. cbn [a2 b2 c2]. field. Qed.
