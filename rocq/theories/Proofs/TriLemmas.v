From Coq Require Import Reals List Bool Lra Psatz.
From Verif Require Import Model.Scalar Model.Vec Model.Ext Model.Plane Model.Coll Model.Tri.
From Verif Require Import Spec.InterpSpec Spec.ClipSpec Spec.PlaneSpec Spec.CollSpec Spec.TriSpec Proofs.VecLemmas Proofs.LineLemmas.
Import ListNotations.
Local Open Scope R_scope.

Ltac vcoords := apply vec3_ext; cbn [vx vy vz].

(** ** Coordinates in the plane of a triangle *)

Lemma dot_self_pos v : v <> vzero -> 0 < dot v v.
Proof. intros H. destruct (Rle_lt_or_eq_dec 0 (dot v v) (dot_self_ge v)) as [?|E]; [assumption|]. symmetry in E. apply dot_self_0 in E. contradiction. Qed.

(** Any vector in the directions e, f and across *)
Lemma span e f v :
  let n := cross e f in
  vscale (dot n n) v = vadd (vadd (vscale (dot v (cross f n)) e) (vscale (dot v (cross n e)) f)) (vscale (dot v n) n).
Proof. cbv zeta. vring. Qed.

Lemma coplanar_weights t x : proper t -> coplanar t x -> exists w, affine_weights w /\ x = combine3 w (pa t) (pb t) (pc t).
Proof.
  destruct t as [a b c]. unfold proper, coplanar, above, affine_weights. cbn [pa pb pc]. intros P C.
  set (n := cross (vsub b a) (vsub c a)) in *. assert (N := dot_self_pos n P).
  set (v := dot (vsub x a) (cross (vsub c a) n) / dot n n). set (w := dot (vsub x a) (cross n (vsub b a)) / dot n n).
  exists (V3 (1 - v - w) v w). cbn [vx vy vz]. split; [ring|].
  assert (S := span (vsub b a) (vsub c a) (vsub x a)). cbv zeta in S. fold n in S.
  replace (dot (vsub x a) n) with 0 in S by (rewrite dot_comm; exact (eq_sym C)).
  assert (E : vsub x a = vadd (vscale v (vsub b a)) (vscale w (vsub c a))).
  { unfold v, w, Rdiv. clear v w.
    generalize dependent (dot (vsub x a) (cross (vsub c a) n)). intros r. generalize dependent (dot (vsub x a) (cross n (vsub b a))). intros s S.
    assert (X := f_equal vx S). assert (Y := f_equal vy S). assert (Z := f_equal vz S).
    cbn [vx vy vz vadd vscale vsub] in *. generalize dependent (dot n n). intros k.
    intros. apply vec3_ext; cbn [vx vy vz vadd vscale vsub]; apply (Rmult_eq_reg_l k); try lra; field_simplify; try lra. }
  clearbody v w. clear S C P N n.
  assert (X := f_equal vx E). assert (Y := f_equal vy E). assert (Z := f_equal vz E). clear E.
  unfold combine3. vdestr. vunfold. vcoords; lra.
Qed.
Lemma weights_coplanar t w : affine_weights w -> coplanar t (combine3 w (pa t) (pb t) (pc t)).
Proof.
  destruct t as [a b c], w as [u v w]. unfold affine_weights, coplanar, above, combine3. cbn [pa pb pc vx vy vz]. intros S.
  replace u with (1 - v - w) by lra. vring.
Qed.
Lemma weights_unique t w w' : proper t -> affine_weights w -> affine_weights w' ->
  combine3 w (pa t) (pb t) (pc t) = combine3 w' (pa t) (pb t) (pc t) -> w = w'.
Proof.
  destruct t as [a b c], w as [u v w], w' as [u' v' w']. unfold affine_weights, proper, combine3. cbn [pa pb pc vx vy vz].
  intros P S S' E. set (n := cross (vsub b a) (vsub c a)) in *. assert (N := dot_self_pos n P).
  assert (D : vadd (vscale (v - v') (vsub b a)) (vscale (w - w') (vsub c a)) = vzero).
  { assert (X := f_equal vx E). assert (Y := f_equal vy E). assert (Z := f_equal vz E). clear E.
    replace u with (1 - v - w) in * by lra. replace u' with (1 - v' - w') in * by lra. clear n P N S S'.
    vdestr. vunfold. vcoords; lra. }
  assert (K1 : dot n (cross (vadd (vscale (v - v') (vsub b a)) (vscale (w - w') (vsub c a))) (vsub c a)) = (v - v') * dot n n) by (unfold n; clear; vring).
  assert (K2 : dot n (cross (vsub b a) (vadd (vscale (v - v') (vsub b a)) (vscale (w - w') (vsub c a)))) = (w - w') * dot n n) by (unfold n; clear; vring).
  rewrite D in K1, K2. replace (dot n (cross vzero (vsub c a))) with 0 in K1 by (clear; vring).
  replace (dot n (cross (vsub b a) vzero)) with 0 in K2 by (clear; vring).
  assert (v = v') by nra. assert (w = w') by nra. f_equal; lra.
Qed.

(** ** Point in triangle *)
Lemma inside_signs t w : affine_weights w ->
  is_inside_triangle t (combine3 w (pa t) (pb t) (pc t)) =
  (let q := dot (tri_normal t) (tri_normal t) in Rleb 0 (vx w * q) && Rleb 0 (vy w * q) && Rleb 0 (vz w * q)).
Proof.
  destruct t as [a b c], w as [u v w]. unfold affine_weights, is_inside_triangle, same_side, tri_normal, combine3. cbn [pa pb pc vx vy vz]. intros S.
  replace u with (1 - v - w) by lra. cbv zeta. repeat f_equal; clear; vring.
Qed.
Lemma is_inside_spec t x : proper t -> coplanar t x -> (is_inside_triangle t x = true <-> in_triangle t x).
Proof.
  intros P C. destruct (coplanar_weights t x P C) as (w & S & ->). rewrite inside_signs by exact S. cbv zeta.
  assert (N := dot_self_pos _ P). fold (tri_normal t) in N. rewrite !andb_true_iff, !Rleb_iff. split.
  - intros [[X Y] Z]. exists w. split; [|reflexivity]. unfold bary, affine_weights in *. repeat split; try nra; apply (Rmult_le_reg_r (dot (tri_normal t) (tri_normal t))); lra.
  - intros (w' & B & E). assert (w = w').
    { apply (weights_unique t); [exact P|exact S| |exact E]. unfold bary, affine_weights in *. lra. }
    subst w'. unfold bary in B. repeat split; apply Rmult_le_pos; lra.
Qed.
(** Points of the triangle are always reported, also for degenerate triangles. *)
Lemma is_inside_complete t x : in_triangle t x -> is_inside_triangle t x = true.
Proof.
  intros (w & B & ->). unfold bary in B. rewrite inside_signs by (unfold affine_weights; lra). cbv zeta.
  assert (N := dot_self_ge (tri_normal t)). rewrite !andb_true_iff, !Rleb_iff. repeat split; apply Rmult_le_pos; lra.
Qed.

(** ** Closest point *)

(** A point is nearest if no corner is in a direction of descent. *)
Lemma nearest_corners a b c p q : in_tri a b c q ->
  0 <= dot (vsub q p) (vsub a q) -> 0 <= dot (vsub q p) (vsub b q) -> 0 <= dot (vsub q p) (vsub c q) -> nearest (in_tri a b c) p q.
Proof.
  intros I A B C. split; [exact I|]. intros z (w & (U & V & W & S) & ->). apply dist_le.
  set (z := combine3 w a b c).
  assert (K : dot (vsub z p) (vsub z p) = dot (vsub q p) (vsub q p) + dot (vsub z q) (vsub z q) + 2 * dot (vsub q p) (vsub z q)) by (clear; generalize z; intros; vring).
  assert (L : dot (vsub q p) (vsub z q) = vx w * dot (vsub q p) (vsub a q) + vy w * dot (vsub q p) (vsub b q) + vz w * dot (vsub q p) (vsub c q)).
  { unfold z, combine3. destruct w as [u v w]. cbn [vx vy vz] in *. replace u with (1 - v - w) by lra. clear. vring. }
  assert (M := dot_self_ge (vsub z q)). rewrite K, L.
  assert (0 <= vx w * dot (vsub q p) (vsub a q)) by (apply Rmult_le_pos; assumption).
  assert (0 <= vy w * dot (vsub q p) (vsub b q)) by (apply Rmult_le_pos; assumption).
  assert (0 <= vz w * dot (vsub q p) (vsub c q)) by (apply Rmult_le_pos; assumption). lra.
Qed.

(** If no corner and no other edge is responsible, a point outside an edge is in front of it. *)
Lemma voronoi e f p : 
  let g := dot e e in let h := dot e f in let k := dot f f in let d1 := dot e p in let d2 := dot f p in
  g * d2 <= h * d1 -> d1 <= 0 -> 0 < d2 ->
  ~ (k * d1 <= h * d2 /\ d2 - k < 0) -> ~ (0 <= d2 - k /\ d1 - h <= d2 - k) -> False.
Proof.
  intros g h k d1 d2 V H1 H2 NE NC. assert (G := dot_self_ge e). assert (K := dot_self_ge f). assert (D := cauchy e f).
  fold g in G. fold k in K. fold g h k in D.
  destruct (Req_dec g 0) as [Z|Z].
  - assert (Ez : e = vzero) by (apply dot_self_0, Z).
    assert (h = 0) by (unfold h; rewrite Ez; clear; vring). assert (d1 = 0) by (unfold d1; rewrite Ez; clear; vring).
    apply NC. split; [|nra]. destruct (Rlt_dec (d2 - k) 0); [|lra]. exfalso. apply NE. split; [nra|lra].
  - assert (Gp : 0 < g) by lra. assert (Hd : 0 < h * d1) by nra. assert (Hn : h < 0) by nra.
    assert (B : k * d1 <= h * d2).
    { (* multiply by g > 0: g k d1 <= h^2 d1 <= h g d2 *)
      apply (Rmult_le_reg_l g); [exact Gp|]. assert (g * k * d1 <= h * h * d1) by nra. nra. }
    assert (C : 0 <= d2 - k) by (destruct (Rlt_dec (d2 - k) 0); [exfalso; apply NE; split; assumption|lra]).
    apply NC. split; [exact C|]. assert (d1 <= h); [|lra].
    (* |h| |d1| >= g d2 >= g k >= h^2 *)
    assert (g * k <= g * d2) by nra. nra.
Qed.

Lemma nearest_vw a b c p v w q :
  let ab := vsub b a in let ac := vsub c a in let ap := vsub p a in
  let X := v * dot ab ab + w * dot ab ac - dot ab ap in
  let Y := v * dot ab ac + w * dot ac ac - dot ac ap in
  q = vadd (vadd a (vscale v ab)) (vscale w ac) -> 0 <= v -> 0 <= w -> v + w <= 1 ->
  0 <= - v * X - w * Y -> 0 <= (1 - v) * X - w * Y -> 0 <= - v * X + (1 - w) * Y ->
  nearest (in_tri a b c) p q.
Proof.
  intros ab ac ap X Y -> Hv Hw Hs A B C. apply nearest_corners.
  - exists (V3 (1 - v - w) v w). unfold bary, combine3, ab, ac. cbn [vx vy vz]. split; [repeat split; lra|]. clear. vring.
  - eapply Rle_trans; [exact A|]. right. unfold X, Y, ab, ac, ap. clear. vring.
  - eapply Rle_trans; [exact B|]. right. unfold X, Y, ab, ac, ap. clear. vring.
  - eapply Rle_trans; [exact C|]. right. unfold X, Y, ab, ac, ap. clear. vring.
Qed.

Lemma frac01 w l m : 0 < l -> w * l = m -> 0 <= m <= l -> 0 <= w <= 1.
Proof. intros L <- H. split; apply (Rmult_le_reg_r l); lra. Qed.

Lemma and2_false a b c d : Rleb a b && Rleb c d = false -> ~ (a <= b /\ c <= d).
Proof. intros E [A B]. apply Rleb_iff in A. apply Rleb_iff in B. rewrite A, B in E. discriminate. Qed.
Lemma and3_false a b c d e f : Rleb a b && Rltb c d && Rleb e f = false -> ~ (a <= b /\ c < d /\ e <= f).
Proof. intros E (A & B & C). apply Rleb_iff in A. apply Rltb_iff in B. apply Rleb_iff in C. rewrite A, B, C in E. discriminate. Qed.

Ltac split_if := match goal with |- context [if ?b then _ else _] => let E := fresh "E" in destruct b eqn:E end.

Theorem closest_on_triangle_spec t p : exists q, closest_on_triangle t p = Some q /\ nearest (in_triangle t) p q.
Proof.
  destruct t as [a b c]. unfold in_triangle, closest_on_triangle. cbn [pa pb pc]. cbv zeta.
  assert (NV := nearest_vw a b c p). cbv zeta in NV.
  assert (V1 := voronoi (vsub b a) (vsub c a) (vsub p a)). assert (V2 := voronoi (vsub a b) (vsub c b) (vsub p b)).
  assert (V3 := voronoi (vsub c a) (vsub b a) (vsub p a)). assert (V4 := voronoi (vsub a c) (vsub b c) (vsub p c)).
  assert (V5 := voronoi (vsub c b) (vsub a b) (vsub p b)). assert (V6 := voronoi (vsub b c) (vsub a c) (vsub p c)).
  cbv zeta in *.
  assert (GZ : 0 <= dot (vsub b a) (vsub b a)) by apply dot_self_ge.
  assert (KZ : 0 <= dot (vsub c a) (vsub c a)) by apply dot_self_ge.
  set (g := dot (vsub b a) (vsub b a)) in *. set (k := dot (vsub c a) (vsub c a)) in *.
  set (h := dot (vsub b a) (vsub c a)) in *. set (d1 := dot (vsub b a) (vsub p a)) in *. set (d2 := dot (vsub c a) (vsub p a)) in *.
  replace (dot (vsub b a) (vsub p b)) with (d1 - g) in * by (unfold d1, g; clear; vring).
  replace (dot (vsub c a) (vsub p b)) with (d2 - h) in * by (unfold d2, h; clear; vring).
  replace (dot (vsub b a) (vsub p c)) with (d1 - h) in * by (unfold d1, h; clear; vring).
  replace (dot (vsub c a) (vsub p c)) with (d2 - k) in * by (unfold d2, k; clear; vring).
  replace (dot (vsub c a) (vsub b a)) with h in * by (unfold h; clear; vring).
  replace (dot (vsub a b) (vsub a b)) with g in * by (unfold g; clear; vring).
  replace (dot (vsub a c) (vsub a c)) with k in * by (unfold k; clear; vring).
  replace (dot (vsub c b) (vsub c b)) with (g - 2 * h + k) in * by (unfold g, h, k; clear; vring).
  replace (dot (vsub b c) (vsub b c)) with (g - 2 * h + k) in * by (unfold g, h, k; clear; vring).
  replace (dot (vsub a b) (vsub c b)) with (g - h) in * by (unfold g, h; clear; vring).
  replace (dot (vsub c b) (vsub a b)) with (g - h) in * by (unfold g, h; clear; vring).
  replace (dot (vsub a c) (vsub b c)) with (k - h) in * by (unfold k, h; clear; vring).
  replace (dot (vsub b c) (vsub a c)) with (k - h) in * by (unfold k, h; clear; vring).
  replace (dot (vsub a b) (vsub p b)) with (g - d1) in * by (unfold d1, g; clear; vring).
  replace (dot (vsub a c) (vsub p c)) with (k - d2) in * by (unfold d2, k; clear; vring).
  replace (dot (vsub c b) (vsub p b)) with ((d2 - h) - (d1 - g)) in * by (unfold d2, d1, h, g; clear; vring).
  replace (dot (vsub b c) (vsub p c)) with ((d1 - h) - (d2 - k)) in * by (unfold d2, d1, h, k; clear; vring).
  assert (BC : vsub c b = vsub (vsub c a) (vsub b a)) by (clear; vring).
  clearbody g h k d1 d2.
  replace (d1 * (d2 - h) - (d1 - g) * d2) with (g * d2 - h * d1) by ring.
  replace ((d1 - h) * d2 - d1 * (d2 - k)) with (k * d1 - h * d2) by ring.
  replace ((d1 - g) * (d2 - k) - (d1 - h) * (d2 - h)) with (g * k - h * h - (k * d1 - h * d2) - (g * d2 - h * d1)) by ring.
  assert (POS : Rleb d1 0 && Rleb d2 0 = false -> Rleb 0 (d1 - g) && Rleb (d2 - h) (d1 - g) = false ->
    Rleb (g * d2 - h * d1) 0 && Rltb 0 d1 && Rleb (d1 - g) 0 = false -> Rleb 0 (d2 - k) && Rleb (d1 - h) (d2 - k) = false ->
    Rleb (k * d1 - h * d2) 0 && Rltb 0 d2 && Rleb (d2 - k) 0 = false ->
    Rleb (g * k - h * h - (k * d1 - h * d2) - (g * d2 - h * d1)) 0 && Rltb 0 (d2 - h - (d1 - g)) && Rleb 0 (d1 - h - (d2 - k)) = false ->
    0 < g * k - h * h - (k * d1 - h * d2) - (g * d2 - h * d1) /\ 0 < k * d1 - h * d2 /\ 0 < g * d2 - h * d1).
  { clear NV. intros NA NB NAB NC NAC NBC. apply and2_false in NA, NB, NC. apply and3_false in NAB, NAC, NBC.
    assert (VC : 0 < g * d2 - h * d1).
    { apply Rnot_le_lt. intros V. destruct (Rle_dec d1 0) as [L|L].
      - apply V1; clear V1 V2 V3 V4 V5 V6; [lra|exact L| | |].
        + apply Rnot_le_lt. intros ?. apply NA. lra.
        + intros [P Q]. apply NAC. repeat split; lra.
        + intros [P Q]. apply NC. lra.
      - assert (L3 : 0 < d1 - g) by (apply Rnot_le_lt; intros ?; apply NAB; repeat split; lra).
        assert (L4 : d1 - g < d2 - h) by (apply Rnot_le_lt; intros ?; apply NB; lra).
        apply V2; clear V1 V2 V3 V4 V5 V6; [lra|lra|lra| |].
        + intros [P Q]. apply NBC. repeat split; lra.
        + intros [P Q]. apply NC. lra. }
    assert (VB : 0 < k * d1 - h * d2).
    { apply Rnot_le_lt. intros V. destruct (Rle_dec d2 0) as [L|L].
      - apply V3; clear V1 V2 V3 V4 V5 V6; [lra|exact L| | |].
        + apply Rnot_le_lt. intros ?. apply NA. lra.
        + intros [P Q]. apply NAB. repeat split; lra.
        + intros [P Q]. apply NB. lra.
      - assert (L3 : 0 < d2 - k) by (apply Rnot_le_lt; intros ?; apply NAC; repeat split; lra).
        assert (L4 : d2 - k < d1 - h) by (apply Rnot_le_lt; intros ?; apply NC; lra).
        apply V4; clear V1 V2 V3 V4 V5 V6; [lra|lra|lra| |].
        + intros [P Q]. apply NBC. repeat split; lra.
        + intros [P Q]. apply NB. lra. }
    split; [|split; assumption]. apply Rnot_le_lt. intros V. destruct (Rle_dec (d2 - h - (d1 - g)) 0) as [L|L].
    - apply V5; clear V1 V2 V3 V4 V5 V6; [lra|exact L| | |].
      + apply Rnot_le_lt. intros ?. apply NB. lra.
      + intros [P Q]. lra.
      + intros [P Q]. apply NA. lra.
    - assert (L3 : d1 - h - (d2 - k) < 0) by (apply Rnot_le_lt; intros ?; apply NBC; repeat split; lra).
      apply V6; clear V1 V2 V3 V4 V5 V6; [lra|lra| | |].
      + apply Rnot_le_lt. intros ?. apply NC. lra.
      + intros [P Q]. lra.
      + intros [P Q]. apply NA. lra. }
  repeat split_if;
    repeat match goal with
    | E : _ && _ = true |- _ => apply andb_true_iff in E; destruct E
    | E : Rleb _ _ = true |- _ => apply Rleb_iff in E
    | E : Rltb _ _ = true |- _ => apply Rltb_iff in E
    | E : Reqb _ _ = true |- _ => apply Reqb_iff in E
    | E : Reqb _ _ = false |- _ => apply Reqb_false in E
    end.
  - clear V1 V2 V3 V4 V5 V6. exists a. split; [reflexivity|]. apply (NV 0 0); try lra. clear; vring.
  - clear V1 V2 V3 V4 V5 V6. exists b. split; [reflexivity|]. apply (NV 1 0); try lra. clear; vring.
  - exfalso. clear V1 V2 V3 V4 V5 V6 NV. lra.
  - clear V1 V2 V3 V4 V5 V6. eexists. split; [reflexivity|]. set (v := d1 / (d1 - (d1 - g))).
    assert (G : 0 < g) by lra. assert (Ev : v * g = d1) by (unfold v; field; lra).
    assert (Iv : 0 <= v <= 1) by (apply (frac01 v g d1); [exact G|exact Ev|lra]). clearbody v. apply (NV v 0); [clear; vring|lra|lra|lra|rewrite Ev; lra|rewrite Ev; lra|].
    replace (v * g + 0 * h - d1) with 0 by lra. assert (0 <= v * h - d2); [|lra].
    apply (Rmult_le_reg_l g); [exact G|]. replace (g * (v * h - d2)) with (h * (v * g) - g * d2) by ring. rewrite Ev. lra.
  - clear V1 V2 V3 V4 V5 V6. exists c. split; [reflexivity|]. apply (NV 0 1); try lra. clear; vring.
  - exfalso. clear V1 V2 V3 V4 V5 V6 NV. lra.
  - clear V1 V2 V3 V4 V5 V6. eexists. split; [reflexivity|]. set (w := d2 / (d2 - (d2 - k))).
    assert (K : 0 < k) by lra. assert (Ew : w * k = d2) by (unfold w; field; lra).
    assert (Iw : 0 <= w <= 1) by (apply (frac01 w k d2); [exact K|exact Ew|lra]). clearbody w. apply (NV 0 w); [clear; vring|lra|lra|lra|rewrite Ew; lra| |rewrite Ew; lra].
    replace (0 * h + w * k - d2) with 0 by lra. assert (0 <= w * h - d1); [|lra].
    apply (Rmult_le_reg_l k); [exact K|]. replace (k * (w * h - d1)) with (h * (w * k) - k * d1) by ring. rewrite Ew. lra.
  - exfalso. clear V1 V2 V3 V4 V5 V6 NV. lra.
  - clear V1 V2 V3 V4 V5 V6. eexists. split; [reflexivity|]. set (w := _ / _). set (l := g - 2 * h + k) in *.
    assert (L : 0 < l) by (unfold l; lra).
    assert (Ew : w * l = (d2 - h) - (d1 - g)) by (unfold w, l; field; lra).
    assert (Iw : 0 <= w <= 1) by (apply (frac01 w l _ L Ew); unfold l; lra). rewrite BC. clearbody w.
    assert (Z : 0 <= - (1 - w) * ((1 - w) * g + w * h - d1) - w * ((1 - w) * h + w * k - d2)).
    { apply (Rmult_le_reg_l l); [exact L|]. rewrite Rmult_0_r.
      replace (l * (- (1 - w) * ((1 - w) * g + w * h - d1) - w * ((1 - w) * h + w * k - d2)))
        with (l * (d1 - g) + (w * l) * ((g - h) + (g - h) - (d1 - d2)) - (w * l) * (w * l)) by (unfold l; ring).
      rewrite Ew. eapply Rle_trans with (- (g * k - h * h - (k * d1 - h * d2) - (g * d2 - h * d1))); [lra|]. right. unfold l. ring. }
    assert (Q : - ((1 - w) * g + w * h - d1) + ((1 - w) * h + w * k - d2) = 0) by (unfold l in Ew; lra).
    apply (NV (1 - w) w); [clear; vring|lra|lra|lra|exact Z| |].
    + replace ((1 - (1 - w)) * ((1 - w) * g + w * h - d1) - w * ((1 - w) * h + w * k - d2)) with (- w * (- ((1 - w) * g + w * h - d1) + ((1 - w) * h + w * k - d2))) by ring. rewrite Q. lra.
    + replace (- (1 - w) * ((1 - w) * g + w * h - d1) + (1 - w) * ((1 - w) * h + w * k - d2)) with ((1 - w) * (- ((1 - w) * g + w * h - d1) + ((1 - w) * h + w * k - d2))) by ring. rewrite Q. lra.
  - exfalso. destruct (POS eq_refl eq_refl eq_refl eq_refl eq_refl eq_refl) as (A & B & C). clear V1 V2 V3 V4 V5 V6 NV POS. lra.
  - destruct (POS eq_refl eq_refl eq_refl eq_refl eq_refl eq_refl) as (A & B & C). clear V1 V2 V3 V4 V5 V6 POS. eexists. split; [reflexivity|].
    set (vb := k * d1 - h * d2) in *. set (vc := g * d2 - h * d1) in *.
    replace (g * k - h * h - vb - vc + vb + vc) with (g * k - h * h) in * by ring. set (D := g * k - h * h) in *.
    assert (Dp : 0 < D) by lra.
    assert (Ev : vb * (1 / D) * D = vb) by (field; lra). assert (Ew : vc * (1 / D) * D = vc) by (field; lra).
    set (v := vb * (1 / D)) in *. set (w := vc * (1 / D)) in *. clearbody v w.
    assert (X : v * g + w * h - d1 = 0).
    { apply (Rmult_eq_reg_l D); [|lra]. replace (D * (v * g + w * h - d1)) with ((v * D) * g + (w * D) * h - D * d1) by ring. rewrite Ev, Ew. unfold vb, vc, D. ring. }
    assert (Y : v * h + w * k - d2 = 0).
    { apply (Rmult_eq_reg_l D); [|lra]. replace (D * (v * h + w * k - d2)) with ((v * D) * h + (w * D) * k - D * d2) by ring. rewrite Ev, Ew. unfold vb, vc, D. ring. }
    apply (NV v w); [reflexivity| | | | | |]; try (rewrite X, Y; lra).
    + apply (frac01 v D vb Dp Ev); lra.
    + apply (frac01 w D vc Dp Ew); lra.
    + apply (Rmult_le_reg_r D); lra.
Qed.
