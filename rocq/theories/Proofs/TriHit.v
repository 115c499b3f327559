From Coq Require Import Reals List Bool Lra Psatz Arith Lia.
From Verif Require Import Model.Scalar Model.Vec Model.Ext Model.Plane Model.Coll Model.Tri.
From Verif Require Import Spec.InterpSpec Spec.ClipSpec Spec.PlaneSpec Spec.CollSpec Spec.TriSpec Proofs.VecLemmas Proofs.PlaneLemmas Proofs.LineLemmas Proofs.TriLemmas.
Import ListNotations.
Local Open Scope R_scope.

(** The three signed volumes of a line with the edges of a triangle *)
Definition volx t o d := dot (vsub (pb t) o) (cross d (vsub (pc t) o)).
Definition voly t o d := - dot (vsub (pa t) o) (cross d (vsub (pc t) o)).
Definition volz t o d := dot (vsub (pa t) o) (cross d (vsub (pb t) o)).
Lemma vol_sum t o d : volx t o d + voly t o d + volz t o d = - dot (tri_normal t) d.
Proof. unfold volx, voly, volz, tri_normal. destruct t as [a b c]. cbn [pa pb pc]. vring. Qed.
Lemma vol_point t o d : combine3 (V3 (volx t o d) (voly t o d) (volz t o d)) (pa t) (pb t) (pc t) =
  vadd (vscale (volx t o d + voly t o d + volz t o d) o) (vscale (above t o) d).
Proof. unfold volx, voly, volz, above, combine3. destruct t as [a b c]. cbn [pa pb pc vx vy vz]. vring. Qed.
Lemma vol_weights t o d w s : affine_weights w -> vadd o (vscale s d) = combine3 w (pa t) (pb t) (pc t) ->
  volx t o d = - dot (tri_normal t) d * vx w /\ voly t o d = - dot (tri_normal t) d * vy w /\ volz t o d = - dot (tri_normal t) d * vz w.
Proof.
  unfold affine_weights. intros S E.
  assert (O : o = vsub (combine3 w (pa t) (pb t) (pc t)) (vscale s d)) by (rewrite <- E; clear; vring).
  rewrite O. clear O E. unfold volx, voly, volz, tri_normal. destruct t as [a b c], w as [u v w]. cbn [pa pb pc vx vy vz] in *.
  unfold combine3. cbn [vx vy vz]. replace u with (1 - v - w) by lra. clear S. repeat split; vring.
Qed.
Lemma vol_alt t o d : dot (vsub (pc t) o) (cross d (vsub (pa t) o)) = voly t o d.
Proof. unfold voly. destruct t as [a b c]. cbn [pa pb pc]. vring. Qed.

Lemma combine3_scale k w a b c : combine3 (vscale k w) a b c = vscale k (combine3 w a b c).
Proof. unfold combine3. clear. vring. Qed.
Lemma above_line t o d s : above t (vadd o (vscale s d)) = above t o + s * dot (tri_normal t) d.
Proof. unfold above, tri_normal. destruct t as [a b c]. cbn [pa pb pc]. clear. vring. Qed.
Lemma above_combine t w : affine_weights w -> above t (combine3 w (pa t) (pb t) (pc t)) = 0.
Proof. intros S. exact (weights_coplanar t w S). Qed.
Lemma above_origin t o : dot (tri_normal t) o - dot (tri_normal t) (pa t) = above t o.
Proof. unfold above, tri_normal. destruct t as [a b c]. cbn [pa pb pc]. clear. vring. Qed.
Lemma bary_affine w : bary w -> affine_weights w.
Proof. unfold bary, affine_weights. lra. Qed.

Lemma hit_barycentric_spec t r w :
  hit_barycentric t r = Some w <->
  0 < above t (rorigin r) /\ bary w /\ exists s, 0 < s /\ ray_at r s = combine3 w (pa t) (pb t) (pc t).
Proof.
  destruct r as [o d]. unfold hit_barycentric, ray_at. cbn [rorigin rdirection]. cbv zeta.
  change (cross (vsub (pb t) (pa t)) (vsub (pc t) (pa t))) with (tri_normal t).
  assert (VS := vol_sum t o d). assert (VP := vol_point t o d). assert (VW := vol_weights t o d). assert (AO := above_origin t o).
  fold (volx t o d) (voly t o d) (volz t o d). set (x := volx t o d) in *. set (y := voly t o d) in *. set (z := volz t o d) in *. clearbody x y z. split.
  - destruct (Rltb x 0) eqn:X; [discriminate|]. destruct (Rltb y 0) eqn:Y; [discriminate|]. destruct (Rltb z 0) eqn:Z; [discriminate|].
    destruct (Rleb 0 _) eqn:D; [discriminate|]. destruct (Rleb (dot (tri_normal t) o) _) eqn:A; [discriminate|]. intros Ew; assert (w = vscale (1 / (x + y + z)) (V3 x y z)) by congruence; clear Ew; subst w.
    apply Rltb_false in X, Y, Z. apply Rleb_false in D, A. set (q := x + y + z) in *. assert (Q : 0 < q) by lra.
    assert (I : 0 < 1 / q) by (apply Rdiv_lt_0_compat; lra).
    split; [lra|]. split.
    { unfold bary, vscale. cbn [vx vy vz]. repeat split; try (apply Rmult_le_pos; lra). unfold q. field. unfold q in *. lra. }
    exists (above t o / q). split; [apply Rdiv_lt_0_compat; lra|].
    change (V3 x y z) with (V3 x y z) in *. rewrite combine3_scale, VP. fold q. clear - Q. generalize (above t o). intros k.
    vdestr. vunfold. vcoords; field; lra.
  - intros (A & B & s & S & E). assert (Bw := bary_affine w B). destruct (VW w s Bw E) as (X & Y & Z).
    assert (H0 : above t o + s * dot (tri_normal t) d = 0) by (rewrite <- above_line, E; apply above_combine, Bw).
    set (k := dot (tri_normal t) d) in *. assert (K : k < 0) by nra. unfold bary in B.
    replace (Rltb x 0) with false by (symmetry; apply Rltb_false; nra).
    replace (Rltb y 0) with false by (symmetry; apply Rltb_false; nra).
    replace (Rltb z 0) with false by (symmetry; apply Rltb_false; nra).
    replace (Rleb 0 k) with false by (symmetry; apply Rleb_false; exact K).
    replace (Rleb _ _) with false by (symmetry; apply Rleb_false; lra). f_equal.
    rewrite VS. subst x y z. destruct w as [u v w]. unfold vscale. cbn [vx vy vz]. f_equal; field; lra.
Qed.

Lemma hit_precomputed_spec t r w :
  hit_precomputed (pre_triangle t) (pre_ray r) = Some w <->
  hit_barycentric t r = Some w /\ 0 < vx w /\ 0 < vy w /\ 0 < vz w.
Proof.
  destruct r as [o d]. unfold hit_precomputed, hit_barycentric, pre_triangle, pre_ray.
  cbn [ptri pnormal crossCB crossAC crossBA pdistance pray cross_dir_origin rorigin rdirection]. cbv zeta.
  fold (tri_normal t). assert (VS := vol_sum t o d).
  fold (volx t o d) (voly t o d) (volz t o d). set (x := volx t o d) in *. set (y := voly t o d) in *. set (z := volz t o d) in *.
  replace (dot d (cross (pc t) (pb t)) + _) with x by (unfold x, volx; destruct t as [a b c]; cbn [pa pb pc]; clear; vring).
  replace (dot d (cross (pa t) (pc t)) + _) with y by (unfold y, voly; destruct t as [a b c]; cbn [pa pb pc]; clear; vring).
  replace (dot d (cross (pb t) (pa t)) - _ - _) with z by (unfold z, volz; destruct t as [a b c]; cbn [pa pb pc]; clear; vring).
  clearbody x y z. set (k := dot (tri_normal t) d) in *. split.
  - destruct (Rleb (x * y) 0) eqn:XY; [discriminate|]. destruct (Rleb (x * z) 0) eqn:XZ; [discriminate|].
    destruct (Rleb 0 k) eqn:D; [discriminate|]. destruct (Rleb (dot (tri_normal t) o) _) eqn:A; [discriminate|]. intros Ew; assert (w = vscale (1 / (x + y + z)) (V3 x y z)) by congruence; clear Ew; subst w.
    apply Rleb_false in XY, XZ, D. assert (Q : 0 < x + y + z) by lra.
    assert (X : 0 < x) by (apply Rnot_le_lt; intros ?; assert (x < 0) by nra; assert (y < 0) by nra; assert (z < 0) by nra; lra).
    assert (Y : 0 < y) by nra. assert (Z : 0 < z) by nra.
    replace (Rltb x 0) with false by (symmetry; apply Rltb_false; lra).
    replace (Rltb y 0) with false by (symmetry; apply Rltb_false; lra).
    replace (Rltb z 0) with false by (symmetry; apply Rltb_false; lra).
    split; [reflexivity|]. assert (I : 0 < 1 / (x + y + z)) by (apply Rdiv_lt_0_compat; lra).
    unfold vscale. cbn [vx vy vz]. repeat split; apply Rmult_lt_0_compat; assumption.
  - destruct (Rltb x 0) eqn:X; [intros [? _]; discriminate|]. destruct (Rltb y 0) eqn:Y; [intros [? _]; discriminate|]. destruct (Rltb z 0) eqn:Z; [intros [? _]; discriminate|].
    destruct (Rleb 0 k) eqn:D; [intros [? _]; discriminate|]. destruct (Rleb (dot (tri_normal t) o) _) eqn:A; [intros [? _]; discriminate|]. intros [Ew W]; assert (w = vscale (1 / (x + y + z)) (V3 x y z)) by congruence; clear Ew; subst w.
    apply Rltb_false in X, Y, Z. apply Rleb_false in D. unfold vscale in W. cbn [vx vy vz] in W.
    assert (I : 0 < 1 / (x + y + z)) by (apply Rdiv_lt_0_compat; lra).
    assert (0 < x) by nra. assert (0 < y) by nra. assert (0 < z) by nra.
    replace (Rleb (x * y) 0) with false by (symmetry; apply Rleb_false; nra).
    replace (Rleb (x * z) 0) with false by (symmetry; apply Rleb_false; nra). reflexivity.
Qed.

(** ** Intersection through the plane of the triangle *)
Lemma vscale_vzero k : vscale k vzero = vzero. Proof. unfold vscale, vzero. cbn. f_equal; ring. Qed.

Lemma plane_of_normal alt p t : proper t -> is_plane_of alt p t ->
  exists k, k <> 0 /\ normal p = vscale k (tri_normal t) /\ forall o, side alt p o = k * above t o.
Proof.
  intros P (N0 & A & B & C). fold (tri_normal t) in P. change (tri_normal t <> vzero) in P.
  assert (N := dot_self_pos _ P). unfold on_plane, side in A, B, C. set (n := tri_normal t) in *. set (q := normal p) in *.
  assert (E1 : dot q (vsub (pb t) (pa t)) = 0) by (rewrite dot_sub_r; clear - A B C; destruct alt; lra).
  assert (E2 : dot q (vsub (pc t) (pa t)) = 0) by (rewrite dot_sub_r; clear - A B C; destruct alt; lra).
  assert (S := span (vsub (pb t) (pa t)) (vsub (pc t) (pa t)) q). cbv zeta in S.
  change (cross (vsub (pb t) (pa t)) (vsub (pc t) (pa t))) with n in S.
  assert (T1 : dot q (cross (vsub (pc t) (pa t)) n) = 0).
  { unfold n, tri_normal. transitivity (dot q (vsub (pb t) (pa t)) * dot (vsub (pc t) (pa t)) (vsub (pc t) (pa t)) - dot q (vsub (pc t) (pa t)) * dot (vsub (pb t) (pa t)) (vsub (pc t) (pa t))).
    - clear. generalize (vsub (pb t) (pa t)) (vsub (pc t) (pa t)) q. clear. intros. vring.
    - rewrite E1, E2. ring. }
  assert (T2 : dot q (cross n (vsub (pb t) (pa t))) = 0).
  { unfold n, tri_normal. transitivity (dot q (vsub (pc t) (pa t)) * dot (vsub (pb t) (pa t)) (vsub (pb t) (pa t)) - dot q (vsub (pb t) (pa t)) * dot (vsub (pb t) (pa t)) (vsub (pc t) (pa t))).
    - clear. generalize (vsub (pb t) (pa t)) (vsub (pc t) (pa t)) q. clear. intros. vring.
    - rewrite E1, E2. ring. }
  rewrite T1, T2 in S.
  assert (K : q = vscale (dot q n / dot n n) n).
  { assert (X := f_equal vx S). assert (Y := f_equal vy S). assert (Z := f_equal vz S). cbn [vx vy vz vadd vscale] in X, Y, Z.
    apply vec3_ext; cbn [vx vy vz vscale]; apply (Rmult_eq_reg_l (dot n n)); try lra; field_simplify; lra. }
  exists (dot q n / dot n n). split; [|split; [exact K|]].
  - intros Z. apply N0. rewrite K, Z. clear. generalize n. intros. vring.
  - intros o. transitivity (dot q (vsub o (pa t))).
    + unfold side. fold q. rewrite dot_sub_r. clear - A. destruct alt; lra.
    + rewrite K at 1. rewrite dot_scale_l. reflexivity.
Qed.

(** The interpolation factor, if it is reported and finite, is where the line passes the triangle from front to back. *)
Lemma triangle_interp_spec alt neg t p o d s : proper t -> is_plane_of alt p t ->
  triangle_interp alt neg t p o d = Some (Fin s) <-> enters t d /\ in_triangle t (vadd o (vscale s d)).
Proof.
  intros P Pl. destruct (plane_of_normal alt p t P Pl) as (k & K & En & Es). unfold enters, in_triangle.
  change (cross (vsub (pb t) (pa t)) (vsub (pc t) (pa t))) with (tri_normal t).
  unfold triangle_interp. cbv zeta. rewrite vol_alt. fold (volx t o d) (volz t o d). unfold plane_interp.
  rewrite (PlaneLemmas.sgn_side alt p o), Es, En, dot_scale_l.
  assert (VS := vol_sum t o d). assert (VP := vol_point t o d). assert (VW := vol_weights t o d).
  set (x := volx t o d) in *. set (y := voly t o d) in *. set (z := volz t o d) in *. clearbody x y z.
  set (m := dot (tri_normal t) d) in *. unfold ediv. split.
  - destruct (Rltb x 0) eqn:X; [discriminate|]. destruct (Rltb y 0) eqn:Y; [discriminate|]. destruct (Rltb z 0) eqn:Z; [discriminate|].
    apply Rltb_false in X, Y, Z. destruct (Reqb (k * m) 0) eqn:D.
    { destruct (Reqb (- (k * above t o)) 0); [discriminate|]. destruct (eqb _ _); discriminate. }
    apply Reqb_false in D. intros [= <-]. assert (M : m <> 0) by (intros H; apply D; rewrite H; ring).
    split; [lra|]. exists (vscale (/ (x + y + z)) (V3 x y z)). assert (Q : 0 < x + y + z) by lra.
    assert (I : 0 < / (x + y + z)) by (apply Rinv_0_lt_compat; lra). split.
    + unfold bary, vscale. cbn [vx vy vz]. repeat split; try (apply Rmult_le_pos; lra). field. lra.
    + rewrite combine3_scale, VP. replace m with (- (x + y + z)) by lra. clear - Q K. generalize (above t o). intros r.
      vdestr. vunfold. vcoords; field; split; lra.
  - intros (M & w & B & E). assert (Bw := bary_affine w B). destruct (VW w s Bw E) as (X & Y & Z).
    assert (H0 : above t o + s * m = 0) by (unfold m; rewrite <- above_line, E; apply above_combine, Bw).
    unfold bary in B.
    replace (Rltb x 0) with false by (symmetry; apply Rltb_false; nra).
    replace (Rltb y 0) with false by (symmetry; apply Rltb_false; nra).
    replace (Rltb z 0) with false by (symmetry; apply Rltb_false; nra).
    assert (KM : k * m <> 0) by (apply Rmult_integral_contrapositive; split; lra).
    replace (Reqb (k * m) 0) with false by (symmetry; apply Reqb_false; exact KM).
    do 2 f_equal. replace (above t o) with (- s * m) by lra. field. split; lra.
Qed.
(** A result that is not finite: only for a ray without direction *)
Lemma triangle_interp_inf alt neg t p o d : proper t -> is_plane_of alt p t ->
  triangle_interp alt neg t p o d = Some PInf \/ triangle_interp alt neg t p o d = Some NInf -> d = vzero.
Proof.
  intros P Pl. destruct (plane_of_normal alt p t P Pl) as (k & K & En & Es).
  unfold triangle_interp. cbv zeta. rewrite vol_alt. fold (volx t o d) (volz t o d). unfold plane_interp.
  rewrite (PlaneLemmas.sgn_side alt p o), Es, En, dot_scale_l.
  assert (VS := vol_sum t o d). assert (VP := vol_point t o d).
  set (x := volx t o d) in *. set (y := voly t o d) in *. set (z := volz t o d) in *. clearbody x y z.
  set (m := dot (tri_normal t) d) in *. unfold ediv.
  destruct (Rltb x 0) eqn:X; [intros [?|?]; discriminate|]. destruct (Rltb y 0) eqn:Y; [intros [?|?]; discriminate|]. destruct (Rltb z 0) eqn:Z; [intros [?|?]; discriminate|].
  apply Rltb_false in X, Y, Z. destruct (Reqb (k * m) 0) eqn:D; [|intros [?|?]; discriminate].
  destruct (Reqb (- (k * above t o)) 0) eqn:A; [intros [?|?]; discriminate|]. intros _.
  apply Reqb_iff in D. apply Reqb_false in A. assert (M : m = 0) by (apply Rmult_integral in D; destruct D; [contradiction|assumption]).
  assert (x = 0) by lra. assert (y = 0) by lra. assert (z = 0) by lra. subst x y z.
  assert (H : above t o <> 0) by (intros H; apply A; rewrite H; ring). clear - VP H.
  assert (E1 := f_equal vx VP). assert (E2 := f_equal vy VP). assert (E3 := f_equal vz VP). unfold combine3 in *.
  cbn [vx vy vz vadd vscale] in *. generalize dependent (above t o). intros r. intros.
  apply vec3_ext; cbn [vx vy vz vzero]; apply (Rmult_eq_reg_l r); lra.
Qed.
Lemma plane_of_is alt t : proper t -> is_plane_of alt (plane_of alt t) t.
Proof.
  intros P. unfold is_plane_of, plane_of, build3, update_distance, on_plane, side. cbn [normal distance].
  change (cross (vsub (pb t) (pa t)) (vsub (pc t) (pa t))) with (tri_normal t). fold (tri_normal t) in P. change (tri_normal t <> vzero) in P.
  assert (U := normalize_dot _ P). split.
  { intros E. rewrite E in U. unfold dot, vzero in U. cbn in U. lra. }
  rewrite (normalize_scale _ P). unfold dsign, tri_normal. generalize (/ len (cross (vsub (pb t) (pa t)) (vsub (pc t) (pa t)))). intros k.
  destruct t as [a b c]. cbn [pa pb pc]. clear. repeat split; destruct alt; vring.
Qed.
Lemma line_lerp_at l s : line_lerp l s = vadd (la l) (vscale s (line_direction l)).
Proof. reflexivity. Qed.
Lemma line_at_segment l s : line_lerp l s = segment_at l s.
Proof. destruct l as [a b]. unfold line_lerp, segment_at, lerp3. cbn [la lb]. vring. Qed.

Lemma triangle_ray_plane_spec alt neg t p r x : proper t -> is_plane_of alt p t ->
  triangle_ray_plane alt neg t p r = Hit x <-> enters t (rdirection r) /\ in_triangle t x /\ on_ray r x.
Proof.
  intros P Pl. assert (S := triangle_interp_spec alt neg t p (rorigin r) (rdirection r)).
  unfold triangle_ray_plane. split.
  - destruct (triangle_interp _ _ _ _ _ _) as [[s| | |]|] eqn:E; try discriminate. destruct (ext_ge (Fin s) 0) eqn:G; [|discriminate].
    cbn in G. apply Rleb_iff in G. intros [= <-]. destruct (proj1 (S s P Pl)) as [A B]; [reflexivity|].
    split; [exact A|]. split; [exact B|]. exists s. split; [exact G|reflexivity].
  - intros (A & B & s & G & ->). rewrite (proj2 (S s P Pl)); [|split; assumption]. cbn.
    replace (Rleb 0 s) with true by (symmetry; apply Rleb_iff, G). reflexivity.
Qed.
Lemma triangle_ray_plane_finite alt neg t p r : proper t -> is_plane_of alt p t -> rdirection r <> vzero ->
  triangle_ray_plane alt neg t p r <> HitInf.
Proof.
  intros P Pl D E. apply D. apply (triangle_interp_inf alt neg t p (rorigin r) (rdirection r) P Pl). unfold triangle_ray_plane in E.
  destruct (triangle_interp _ _ _ _ _ _) as [[s| | |]|]; try discriminate; auto. destruct (ext_ge _ _); discriminate.
Qed.
Lemma triangle_line_plane_spec alt neg t p l x : proper t -> is_plane_of alt p t ->
  triangle_line_plane alt neg t p l = Hit x <-> enters t (line_direction l) /\ in_triangle t x /\ on_segment l x.
Proof.
  intros P Pl. assert (S := triangle_interp_spec alt neg t p (la l) (line_direction l)).
  unfold triangle_line_plane. split.
  - destruct (triangle_interp _ _ _ _ _ _) as [[s| | |]|] eqn:E; try discriminate. destruct (ext_ge (Fin s) 0 && ext_le (Fin s) 1) eqn:G; [|discriminate].
    cbn in G. apply andb_true_iff in G. destruct G as [G1 G2]. apply Rleb_iff in G1, G2. intros [= <-]. destruct (proj1 (S s P Pl)) as [A B]; [reflexivity|].
    split; [exact A|]. split; [exact B|]. exists s. split; [lra|]. exact (line_at_segment l s).
  - intros (A & B & s & G & ->). change (vadd (vscale (1 - s) (la l)) (vscale s (lb l))) with (segment_at l s) in *.
    rewrite <- line_at_segment in *. rewrite (proj2 (S s P Pl)); [|split; assumption]. cbn.
    replace (Rleb 0 s) with true by (symmetry; apply Rleb_iff; lra). replace (Rleb s 1) with true by (symmetry; apply Rleb_iff; lra). reflexivity.
Qed.
Lemma triangle_line_plane_finite alt neg t p l : triangle_line_plane alt neg t p l <> HitInf.
Proof.
  unfold triangle_line_plane. destruct (triangle_interp _ _ _ _ _ _) as [[s| | |]|]; try discriminate. destruct (_ && _); discriminate.
Qed.
(** The plane of a degenerate triangle is never hit. *)
Lemma triangle_line_degenerate alt neg t l : ~ proper t -> triangle_line alt neg t l = Miss.
Proof.
  intros P. assert (Z : tri_normal t = vzero).
  { destruct (Req_dec (dot (tri_normal t) (tri_normal t)) 0) as [E|E]; [apply dot_self_0, E|].
    exfalso. apply P. intros H. apply E. change (tri_normal t = vzero) in H. rewrite H. unfold dot, vzero. cbn. ring. }
  unfold triangle_line, triangle_line_plane, triangle_interp, plane_interp, plane_of, build3, update_distance, sgn_distance. cbn [normal distance]. cbv zeta.
  change (cross (vsub (pb t) (pa t)) (vsub (pc t) (pa t))) with (tri_normal t). rewrite Z, normalize_zero.
  assert (D0 : forall v, dot vzero v = 0) by (intros; unfold dot, vzero; cbn; ring). rewrite !D0.
  replace (- (0 - dsign alt (dsign alt 0))) with 0 by (destruct alt; cbn; ring).
  unfold ediv. replace (Reqb 0 0) with true by (symmetry; apply Reqb_iff; reflexivity).
  destruct (Rltb _ 0); [reflexivity|]. destruct (Rltb _ 0); [reflexivity|]. destruct (Rltb _ 0); reflexivity.
Qed.
