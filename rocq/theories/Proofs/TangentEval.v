(** The tangent space of a triangle: the proofs of C60. *)
From Coq Require Import Reals List Bool Lia Lra Psatz.
From Verif Require Import Model.Scalar Model.Vec Model.Tri Model.Tangent Spec.TangentSpec Proofs.VecLemmas Proofs.PlaneLemmas.
Import ListNotations.
Local Open Scope R_scope.


Lemma normalize_dir v : v <> vzero -> normalize v = direction_of v.
Proof. apply normalize_scale. Qed.
Lemma vscale_nz k v : k <> 0 -> v <> vzero -> vscale k v <> vzero.
Proof.
  intros K V H. apply V. replace v with (vscale (/ k) (vscale k v)).
  - rewrite H. apply vec3_ext; cbn; ring.
  - apply vec3_ext; cbn; field; exact K.
Qed.
Lemma len_nz v : v <> vzero -> 0 < len v.
Proof. intros V. destruct (len_ge v) as [H|H]; [exact H|]. exfalso. apply V. apply len_0. symmetry. exact H. Qed.
Lemma direction_scale k v : v <> vzero -> k <> 0 -> direction_of (vscale k v) = if Rltb 0 k then direction_of v else vopp (direction_of v).
Proof.
  intros V K. unfold direction_of. rewrite len_scale. assert (L := len_nz v V).
  destruct (Rltb 0 k) eqn:E; [apply Rltb_iff in E; rewrite Rabs_pos_eq by lra|apply Rltb_false in E; rewrite Rabs_left by lra];
  apply vec3_ext; cbn; field; lra.
Qed.
Lemma raw_tangent t st S T : texture_directions t st S T ->
  vsub (vscale (y2 (sub2 (c2 st) (a2 st))) (vsub (pb t) (pa t))) (vscale (y2 (sub2 (b2 st) (a2 st))) (vsub (pc t) (pa t))) = vscale (texture_area st) S /\
  vsub (vscale (x2 (sub2 (c2 st) (a2 st))) (vsub (pb t) (pa t))) (vscale (x2 (sub2 (b2 st) (a2 st))) (vsub (pc t) (pa t))) = vscale (- texture_area st) T /\
  cross (vsub (pb t) (pa t)) (vsub (pc t) (pa t)) = vscale (texture_area st) (cross S T).
Proof. intros [-> ->]. unfold texture_area. split; [|split]; apply vec3_ext; cbn; ring. Qed.
Lemma cross_nz S T : cross S T <> vzero -> S <> vzero /\ T <> vzero.
Proof. intros H. split; intros ->; apply H; apply vec3_ext; cbn; ring. Qed.
Lemma dir_dot v : v <> vzero -> dot v (direction_of v) = len v.
Proof. intros V. assert (L := len_nz v V). unfold direction_of. rewrite dot_scale_r, <- (len_sqr v). field. lra. Qed.
Lemma handed S T : cross S T <> vzero -> dot (cross (direction_of S) (direction_of T)) (direction_of (cross S T)) = len (cross S T) / (len S * len T).
Proof.
  intros H. destruct (cross_nz S T H) as [HS HT]. assert (L1 := len_nz S HS). assert (L2 := len_nz T HT). assert (D := dir_dot (cross S T) H).
  transitivity (/ len S * / len T * dot (cross S T) (direction_of (cross S T))).
  - generalize (direction_of (cross S T)). intros d. unfold direction_of, dot; cbn; ring.
  - rewrite D. field. split; lra.
Qed.
Lemma nz_factor k v : vscale k v <> vzero -> k <> 0 /\ v <> vzero.
Proof. intros H. split; intros ->; apply H; apply vec3_ext; cbn; ring. Qed.
Lemma handed_opp a b n : dot (cross (vopp a) b) n = - dot (cross a b) n /\ dot (cross a (vopp b)) n = - dot (cross a b) n /\ dot (cross a b) (vopp n) = - dot (cross a b) n.
Proof. repeat split; unfold dot; cbn; ring. Qed.
Lemma opp_opp v : vopp (vopp v) = v.
Proof. apply vec3_ext; cbn; ring. Qed.

(** For a triangle with area, whose texture coordinates span an area, the tangent points along the first texture direction, the bitangent
    against the second one, and the normal to the side from which the corners are counterclockwise: also for mirrored textures, if the
    sine of the angle between the texture directions exceeds epsilon. *)
Lemma directions_holds : forall eps t st S T, 0 <= eps -> texture_directions t st S T ->
  cross (vsub (pb t) (pa t)) (vsub (pc t) (pa t)) <> vzero ->
  (texture_area st < 0 -> eps * (len S * len T) < len (cross S T)) ->
  tangent_space eps t st = (direction_of S, vopp (direction_of T), direction_of (cross (vsub (pb t) (pa t)) (vsub (pc t) (pa t)))).
Proof.
  intros eps t st S T E D N Q. destruct (raw_tangent t st S T D) as (R1 & R2 & R3). unfold tangent_space. rewrite R1, R2.
  rewrite !R3 in *. destruct (nz_factor _ _ N) as [A C]. destruct (cross_nz S T C) as [HS HT].
  rewrite !normalize_dir by (try exact N; apply vscale_nz; (assumption || lra)).
  rewrite (direction_scale _ S), (direction_scale _ T), (direction_scale _ (cross S T)) by (assumption || lra).
  assert (H := handed S T C). assert (L1 := len_nz S HS). assert (L2 := len_nz T HT). assert (L3 := len_nz _ C).
  assert (LL : 0 < len S * len T) by (apply Rmult_lt_0_compat; assumption).
  assert (G : 0 < len (cross S T) / (len S * len T)) by (apply Rdiv_lt_0_compat; assumption).
  destruct (Rtotal_order (texture_area st) 0) as [K|[K|K]]; [|contradiction|].
  - replace (Rltb 0 (texture_area st)) with false by (symmetry; apply Rltb_false; lra). replace (Rltb 0 (- texture_area st)) with true by (symmetry; apply Rltb_iff; lra).
    rewrite (proj1 (handed_opp _ _ _)), (proj2 (proj2 (handed_opp _ _ _))), H. replace (Rltb eps (- - (len (cross S T) / (len S * len T)))) with true.
    + rewrite opp_opp. reflexivity.
    + symmetry. apply Rltb_iff. rewrite Ropp_involutive. specialize (Q K). apply Rmult_lt_reg_r with (1 := LL). unfold Rdiv. rewrite Rmult_assoc, Rinv_l by lra. lra.
  - replace (Rltb 0 (texture_area st)) with true by (symmetry; apply Rltb_iff; lra). replace (Rltb 0 (- texture_area st)) with false by (symmetry; apply Rltb_false; lra).
    rewrite (proj1 (proj2 (handed_opp _ _ _))), H. replace (Rltb eps (- (len (cross S T) / (len S * len T)))) with false by (symmetry; apply Rltb_false; lra). reflexivity.
Qed.
(** All three have length one, and the tangents are perpendicular to the normal. *)
Lemma dir_unit v : v <> vzero -> dot (direction_of v) (direction_of v) = 1.
Proof. intros V. rewrite <- normalize_dir by exact V. apply normalize_dot. exact V. Qed.
Lemma unit_and_perpendicular_holds : forall eps t st u b n, texture_area st <> 0 ->
  cross (vsub (pb t) (pa t)) (vsub (pc t) (pa t)) <> vzero -> tangent_space eps t st = (u, b, n) ->
  dot u u = 1 /\ dot b b = 1 /\ dot n n = 1 /\ dot u n = 0 /\ dot b n = 0.
Proof.
  intros eps t st u b n A N. unfold tangent_space. cbn [x2 y2 sub2].
  set (v1 := vsub (pb t) (pa t)) in *. set (v2 := vsub (pc t) (pa t)) in *.
  set (ra := vsub (vscale (y2 (c2 st) - y2 (a2 st)) v1) (vscale (y2 (b2 st) - y2 (a2 st)) v2)).
  set (rb := vsub (vscale (x2 (c2 st) - x2 (a2 st)) v1) (vscale (x2 (b2 st) - x2 (a2 st)) v2)).
  assert (X : cross ra rb = vscale (- texture_area st) (cross v1 v2)).
  { unfold ra, rb, texture_area. generalize v1 v2. intros p q. apply vec3_ext; cbn; ring. }
  assert (X0 : cross ra rb <> vzero) by (rewrite X; apply vscale_nz; [lra|exact N]). destruct (cross_nz _ _ X0) as [Na Nb].
  assert (Pa : dot ra (cross v1 v2) = 0) by (unfold ra; generalize v1 v2; intros p q; unfold dot; cbn; ring).
  assert (Pb : dot rb (cross v1 v2) = 0) by (unfold rb; generalize v1 v2; intros p q; unfold dot; cbn; ring).
  rewrite !normalize_dir by assumption.
  assert (Da := dir_unit ra Na). assert (Db := dir_unit rb Nb). assert (Dn := dir_unit _ N).
  assert (Qa : dot (direction_of ra) (direction_of (cross v1 v2)) = 0).
  { unfold direction_of. rewrite dot_scale_r, dot_scale_l, Pa. ring. }
  assert (Qb : dot (direction_of rb) (direction_of (cross v1 v2)) = 0).
  { unfold direction_of. rewrite dot_scale_r, dot_scale_l, Pb. ring. }
  assert (O : forall p q, dot (vopp p) (vopp q) = dot p q /\ dot (vopp p) q = - dot p q) by (intros p q; split; unfold dot; cbn; ring).
  intros H. destruct (Rltb eps _); injection H as <- <- <-; repeat split; rewrite ?(proj1 (O _ _)), ?(proj2 (O _ _)); lra.
Qed.
(** The flip does not change the handedness: it is that of the texture, left-handed for mirrored and right-handed otherwise. *)
Lemma handedness_refuted_holds :
  let t := mkTri (V3 0 0 0) (V3 1 0 0) (V3 0 1 0) in
  let right := mkTri2 (V2 0 0) (V2 1 0) (V2 0 1) in
  let mirrored := mkTri2 (V2 0 0) (V2 0 1) (V2 1 0) in
  forall eps, 0 <= eps < 1 ->
  tangent_space eps t right = (V3 1 0 0, V3 0 (-1) 0, V3 0 0 1) /\
  tangent_space eps t mirrored = (V3 0 1 0, V3 (-1) 0 0, V3 0 0 1).
Proof.
  intros t right mirrored eps E.
  assert (L : forall v, dot v v = 1 -> len v = 1) by (intros v H; unfold len; rewrite H; apply sqrt_1).
  assert (C : cross (vsub (pb t) (pa t)) (vsub (pc t) (pa t)) = V3 0 0 1) by (apply vec3_ext; cbn; ring).
  assert (N : V3 0 0 1 <> vzero) by (intros H; apply (f_equal vz) in H; cbn in H; lra).
  split.
  - rewrite (directions_holds eps t right (V3 1 0 0) (V3 0 1 0)); try lra.
    + rewrite C. unfold direction_of. rewrite !L by (unfold dot; cbn; ring). f_equal; [f_equal|]; apply vec3_ext; cbn; field.
    + split; apply vec3_ext; cbn; ring.
    + rewrite C. exact N.
    + unfold texture_area, right; cbn. lra.
  - rewrite (directions_holds eps t mirrored (V3 0 1 0) (V3 1 0 0)); try lra.
    + rewrite C. unfold direction_of. rewrite !L by (unfold dot; cbn; ring). f_equal; [f_equal|]; apply vec3_ext; cbn; field.
    + split; apply vec3_ext; cbn; ring.
    + rewrite C. exact N.
    + intros _. rewrite !L by (unfold dot; cbn; ring). lra.
Qed.
(** With a positive epsilon there are mirrored triangles with area whose tangents point the wrong way. *)
Lemma epsilon_refuted_holds : forall eps, 0 < eps -> exists t st S T, texture_directions t st S T /\ texture_area st < 0 /\
  cross (vsub (pb t) (pa t)) (vsub (pc t) (pa t)) <> vzero /\ fst (fst (tangent_space eps t st)) = vopp (direction_of S).
Proof.
  intros eps E. set (d := eps).
  exists (mkTri (V3 0 0 0) (V3 1 d 0) (V3 1 0 0)), (mkTri2 (V2 0 0) (V2 0 1) (V2 1 0)), (V3 1 0 0), (V3 1 d 0).
  assert (N : cross (V3 1 0 0) (V3 1 d 0) = V3 0 0 d) by (apply vec3_ext; cbn; ring).
  assert (Nz : cross (V3 1 0 0) (V3 1 d 0) <> vzero) by (rewrite N; intros H; apply (f_equal vz) in H; cbn in H; unfold d in H; lra).
  assert (D : texture_directions (mkTri (V3 0 0 0) (V3 1 d 0) (V3 1 0 0)) (mkTri2 (V2 0 0) (V2 0 1) (V2 1 0)) (V3 1 0 0) (V3 1 d 0)) by (split; apply vec3_ext; cbn; ring).
  assert (A : texture_area (mkTri2 (V2 0 0) (V2 0 1) (V2 1 0)) = -1) by (unfold texture_area; cbn; ring).
  destruct (raw_tangent _ _ _ _ D) as (R1 & R2 & R3).
  split; [exact D|]. split; [rewrite A; lra|]. assert (N3 : cross (vsub (V3 1 d 0) (V3 0 0 0)) (vsub (V3 1 0 0) (V3 0 0 0)) <> vzero).
  { cbn [pa pb pc] in R3. rewrite R3. apply vscale_nz; [rewrite A; lra|exact Nz]. }
  split; [exact N3|]. unfold tangent_space. rewrite R1, R2, !R3, A. destruct (cross_nz _ _ Nz) as [HS HT].
  rewrite !normalize_dir by (apply vscale_nz; (assumption || lra)).
  rewrite (direction_scale _ (V3 1 0 0)), (direction_scale _ (V3 1 d 0)), (direction_scale _ (cross (V3 1 0 0) (V3 1 d 0))) by (assumption || lra).
  replace (Rltb 0 (-1)) with false by (symmetry; apply Rltb_false; lra). replace (Rltb 0 (- -1)) with true by (symmetry; apply Rltb_iff; lra).
  rewrite (proj1 (handed_opp _ _ _)), (proj2 (proj2 (handed_opp _ _ _))), (handed _ _ Nz), Ropp_involutive.
  replace (Rltb eps _) with false; [reflexivity|]. symmetry. apply Rltb_false. rewrite N.
  assert (L1 : len (V3 1 0 0) = 1) by (unfold len, dot; cbn; replace (1 * 1 + 0 * 0 + 0 * 0) with 1 by ring; apply sqrt_1).
  assert (L3 : len (V3 0 0 d) = d) by (unfold len, dot; cbn; replace (0 * 0 + 0 * 0 + d * d) with (d * d) by ring; apply sqrt_square; unfold d; lra).
  assert (L2 : 1 <= len (V3 1 d 0)).
  { unfold len, dot; cbn. rewrite <- sqrt_1 at 1. apply sqrt_le_1_alt. assert (0 <= d * d) by nra. lra. }
  rewrite L1, L3, Rmult_1_l. apply Rmult_le_reg_r with (len (V3 1 d 0)); [lra|]. unfold Rdiv. rewrite Rmult_assoc, Rinv_l by lra. unfold d in *. nra.
Qed.
(** Tangent and bitangent need not be perpendicular to each other. *)
Lemma skew_refuted_holds : forall eps, 0 <= eps -> exists t st u b n, tangent_space eps t st = (u, b, n) /\ dot u u = 1 /\ dot b b = 1 /\ dot n n = 1 /\ dot u b < 0.
Proof.
  intros eps E. set (t := mkTri (V3 0 0 0) (V3 1 0 0) (V3 1 1 0)). set (st := mkTri2 (V2 0 0) (V2 1 0) (V2 0 1)).
  exists t, st, (direction_of (V3 1 0 0)), (vopp (direction_of (V3 1 1 0))), (direction_of (cross (vsub (pb t) (pa t)) (vsub (pc t) (pa t)))).
  assert (N : cross (vsub (pb t) (pa t)) (vsub (pc t) (pa t)) <> vzero) by (intros H; apply (f_equal vz) in H; cbn in H; lra).
  assert (D : texture_directions t st (V3 1 0 0) (V3 1 1 0)) by (split; apply vec3_ext; cbn; ring).
  assert (Q : tangent_space eps t st = (direction_of (V3 1 0 0), vopp (direction_of (V3 1 1 0)), direction_of (cross (vsub (pb t) (pa t)) (vsub (pc t) (pa t))))).
  { apply directions_holds; try assumption. unfold texture_area, st; cbn. lra. }
  split; [exact Q|]. assert (A : texture_area st <> 0) by (unfold texture_area, st; cbn; lra).
  destruct (unit_and_perpendicular_holds eps t st _ _ _ A N Q) as (U1 & U2 & U3 & _). repeat split; try assumption.
  assert (L1 : len (V3 1 0 0) = 1) by (unfold len, dot; cbn; replace (1 * 1 + 0 * 0 + 0 * 0) with 1 by ring; apply sqrt_1).
  assert (L2 : 0 < len (V3 1 1 0)) by (apply len_nz; intros H; apply (f_equal vx) in H; cbn in H; lra).
  assert (I : 0 < / len (V3 1 1 0)) by (apply Rinv_0_lt_compat; exact L2).
  unfold direction_of, dot. rewrite L1. set (k := / len (V3 1 1 0)) in *. cbn. rewrite Rinv_1. lra.
Qed.
