(** Meshes of Bezier patches *)
From Coq Require Import ZArith Reals List Bool Arith Lia Lra.
From Verif Require Import Model.Scalar Model.Vec Model.Aabb Model.Mesh Model.Interp Model.Bezier Model.Transforms Model.MeshGen Spec.MeshGenSpec Spec.SurfaceSpec
  Spec.WindingSpec Spec.TextureSpec Spec.ChartSpec Spec.BezierSpec Spec.NormalSpec Proofs.VecLemmas Proofs.MeshGenLoops Proofs.MeshGenResult Proofs.MeshGenInv Proofs.MeshGenTotal Proofs.MeshGenMain Proofs.MeshGenSurface
  Proofs.MeshGenChains Proofs.MeshGenClosed Proofs.MeshGenWinding Proofs.MeshGenTexture Proofs.BezierFlat.
Import ListNotations.
Local Open Scope R_scope.

Lemma bezier_form d m m' v : valid (DBezier d) -> generate (DBezier d) m = Ok m' -> In v (new_vertices m m') ->
  exists i j, (i <= Nat.max 1 (bp_v d))%nat /\ (j <= Nat.max 1 (bp_u d))%nat /\ bezier_vertex d (Nat.max 1 (bp_u d)) (Nat.max 1 (bp_v d)) i j = Some v.
Proof.
  intros W G Hn. destruct (generate_inv _ _ _ G) as [DF _]. rewrite (generate_result _ _ _ W G), new_vertices_result in Hn. cbn [pieces] in Hn. apply in_flat_map in Hn. destruct Hn as (p & Hp & Hv).
  unfold bezier_pieces in Hp. cbn zeta in Hp. in_pieces Hp. subst p. cbn [pv] in Hv. apply in_grid_verts in Hv. destruct Hv as (i & j & Hi & Hj & ->). cbn [defined] in DF. specialize (DF i j Hi Hj).
  exists i, j. split; [assumption|]. split; [assumption|]. destruct (bezier_vertex d _ _ i j); [reflexivity|congruence].
Qed.
Lemma bezier_parts d H V i j v : bezier_vertex d H V i j = Some v -> exists c cu cv,
  patch_eval (bp_patch d) (frac j H) (frac i V) = Some c /\ patch_eval (bp_patch d) (frac j H + 1 / 100) (frac i V) = Some cu /\ patch_eval (bp_patch d) (frac j H) (frac i V + 1 / 100) = Some cv /\
  let n := normalize (cross (vsub cu c) (vsub cv c)) in
  v = (if bp_back d then mkVertex c n (V2 (frac j H) (frac i V)) else mkVertex c (vopp n) (V2 (frac j H) (1 - frac i V))).
Proof.
  unfold bezier_vertex. cbn zeta. intros E. destruct (patch_eval (bp_patch d) (frac _ _) (frac _ _)) as [c|]; [|discriminate]. destruct (patch_eval (bp_patch d) (_ + _) _) as [cu|]; [|discriminate].
  destruct (patch_eval (bp_patch d) _ (_ + _)) as [cv|]; [|discriminate]. exists c, cu, cv. repeat split. destruct (bp_back d); congruence.
Qed.
Lemma nonzero_cross a b : cross a b <> vzero -> 0 < dot (cross a b) (cross a b).
Proof.
  intros N. destruct (Rtotal_order 0 (dot (cross a b) (cross a b))) as [|[E|E]]; [assumption| |]; exfalso.
  - apply N. apply vec3_ext; cbn [vx vy vz vzero]; unfold dot in E; set (w := cross a b) in *; nra.
  - unfold dot in E. nra.
Qed.
Lemma normalize_form w : 0 < dot w w -> exists k, 0 < k /\ normalize w = vscale k w /\ k * k * dot w w = 1.
Proof.
  intros P. exists (/ len w). assert (L : 0 < len w) by (unfold len; now apply sqrt_lt_R0). assert (L2 : len w * len w = dot w w) by (unfold len; apply sqrt_sqrt; lra). split; [now apply Rinv_0_lt_compat|]. split.
  - unfold normalize. destruct (Reqb (dot w w) 0) eqn:E0; [apply Reqb_iff in E0; lra|]. destruct (Reqb (dot w w) 1) eqn:E1; [|reflexivity]. apply Reqb_iff in E1.
    unfold len. rewrite E1, sqrt_1, Rinv_1. destruct w as [a b c]. vecs. f_equal; ring.
  - rewrite <- L2. field. lra.
Qed.
Theorem bezier_normals d m m' v : valid (DBezier d) -> generate (DBezier d) m = Ok m' -> In v (new_vertices m m') ->
  let x := x2 (tex_coord v) in let y := y2 (tex_coord v) in let s := if bp_back d then 1 else -1 in
  exists a b, bezier_at d (x + 1 / 100) y = Some (vadd (position v) a) /\ bezier_at d x (y + s * (1 / 100)) = Some (vadd (position v) b) /\
    (cross a b = vzero -> normal v = vzero) /\ (cross a b <> vzero -> unit_normal s a b (normal v)).
Proof.
  intros W G Hn. destruct (bezier_form _ _ _ _ W G Hn) as (i & j & _ & _ & E). apply bezier_parts in E. destruct E as (c & cu & cv & E0 & E1 & E2 & ->). cbn zeta.
  exists (vsub cu c), (vsub cv c). set (a := vsub cu c). set (b := vsub cv c).
  assert (A : vadd c a = cu) by (unfold a; apply vec3_ext; vecs; ring). assert (B : vadd c b = cv) by (unfold b; apply vec3_ext; vecs; ring).
  unfold bezier_at. assert (NZ : cross a b = vzero -> normalize (cross a b) = vzero).
  { intros ->. unfold normalize. replace (dot vzero vzero) with 0 by (vecs; ring). replace (Reqb 0 0) with true by (symmetry; now apply Reqb_iff). reflexivity. }
  assert (NN : cross a b <> vzero -> exists k, 0 < k /\ normalize (cross a b) = vscale k (cross a b) /\ k * k * dot (cross a b) (cross a b) = 1) by (intros N; now apply normalize_form, nonzero_cross).
  assert (O : forall k, dot (vscale k (cross a b)) a = 0 /\ dot (vscale k (cross a b)) b = 0) by (intros k; split; vecs; ring).
  destruct (bp_back d); cbn [position normal tex_coord x2 y2].
  - rewrite A, B, Rmult_1_l. split; [assumption|]. split; [assumption|]. split; [assumption|]. intros N. destruct (NN N) as (k & K & K1 & K2). rewrite K1. destruct (O k) as [O1 O2].
    split; [assumption|]. split; [assumption|]. split.
    + unfold len. replace (dot _ _) with (k * k * dot (cross a b) (cross a b)) by (vecs; ring). rewrite K2. apply sqrt_1.
    + replace (1 * dot _ _) with (k * dot (cross a b) (cross a b)) by (vecs; ring). apply Rmult_lt_0_compat; [assumption|now apply nonzero_cross].
  - rewrite A, B. set (y := frac i _) in *. replace (1 - (1 - y)) with y by ring. replace (1 - (1 - y + -1 * (1 / 100))) with (y + 1 / 100) by ring.
    split; [assumption|]. split; [assumption|]. split; [intros N; rewrite (NZ N); apply vec3_ext; vecs; ring|]. intros N. destruct (NN N) as (k & K & K1 & K2). rewrite K1. destruct (O (- k)) as [O1 O2].
    replace (vopp (vscale k (cross a b))) with (vscale (- k) (cross a b)) by (apply vec3_ext; vecs; ring).
    split; [assumption|]. split; [assumption|]. split.
    + unfold len. replace (dot _ _) with (k * k * dot (cross a b) (cross a b)) by (vecs; ring). rewrite K2. apply sqrt_1.
    + replace (-1 * dot _ _) with (k * dot (cross a b) (cross a b)) by (vecs; ring). apply Rmult_lt_0_compat; [assumption|now apply nonzero_cross].
Qed.

(** ** Flat patches *)
Lemma flat_vertex d o a b H V i j : let n := Z.to_nat (Bezier.order (bp_patch d)) in (1 <= n <= 20)%nat -> flat_sheet (bp_patch d) o a b -> cross a b <> vzero ->
  exists v, bezier_vertex d H V i j = Some v /\ position v = vadd o (vadd (vscale (INR n * frac j H) a) (vscale (INR n * frac i V) b)) /\
    normal v = vscale (if bp_back d then 1 else -1) (normalize (cross a b)).
Proof.
  intros n N F C. unfold bezier_vertex. cbn zeta. rewrite !(patch_even _ o a b) by assumption. fold n. eexists. split; [reflexivity|].
  set (x := frac j H). set (y := frac i V).
  assert (E : normalize (cross (vsub (vadd o (vadd (vscale (INR n * (x + 1 / 100)) a) (vscale (INR n * y) b))) (vadd o (vadd (vscale (INR n * x) a) (vscale (INR n * y) b))))
    (vsub (vadd o (vadd (vscale (INR n * x) a) (vscale (INR n * (y + 1 / 100)) b))) (vadd o (vadd (vscale (INR n * x) a) (vscale (INR n * y) b))))) = normalize (cross a b)).
  { destruct (normalize_form _ (nonzero_cross _ _ C)) as (k & K & K1 & K2). rewrite K1. assert (0 < INR n) as PN by (apply lt_0_INR; lia).
    set (q := INR n * (1 / 100) * (INR n * (1 / 100)) * / k). assert (0 < q) as PQ by (unfold q; apply Rmult_lt_0_compat; [nra|now apply Rinv_0_lt_compat]).
    rewrite <- (normalize_multiple q (vscale k (cross a b)) PQ); [f_equal; unfold q; apply vec3_ext; vecs; field; lra|]. rewrite <- K2. vecs. ring. }
  rewrite E. destruct (bp_back d); cbn [position normal]; (split; [reflexivity|]); apply vec3_ext; vecs; ring.
Qed.
Theorem flat_normals d o a b m m' v : let n := Z.to_nat (Bezier.order (bp_patch d)) in (1 <= n <= 20)%nat -> flat_sheet (bp_patch d) o a b -> cross a b <> vzero ->
  valid (DBezier d) -> generate (DBezier d) m = Ok m' -> In v (new_vertices m m') -> normal v = vscale (if bp_back d then 1 else -1) (normalize (cross a b)).
Proof.
  intros n N F C W G Hn. destruct (bezier_form _ _ _ _ W G Hn) as (i & j & _ & _ & E). destruct (flat_vertex d o a b (Nat.max 1 (bp_u d)) (Nat.max 1 (bp_v d)) i j N F C) as (v' & E' & _ & NV). congruence.
Qed.
Theorem flat_faces d o a b m m' : let n := Z.to_nat (Bezier.order (bp_patch d)) in (1 <= n <= 20)%nat -> flat_sheet (bp_patch d) o a b -> cross a b <> vzero ->
  valid (DBezier d) -> (Z.of_nat (vertex_count (DBezier d)) <= 2 ^ 32)%Z -> generate (DBezier d) m = Ok m' ->
  forall t, In t (new_triangles m m') -> exists c, corners m' t = Some c /\ faces normal c.
Proof.
  intros n N F C W L G. apply (new_corners (DBezier d) m m' normal W L G). apply surface_faces. cbn [patches]. apply Forall_cons; [|apply Forall_nil].
  set (f := fun i j => match bezier_vertex d (Nat.max 1 (bp_u d)) (Nat.max 1 (bp_v d)) i j with Some v => v | None => no_vertex end).
  apply (grid_faces normal f). intros i j _ _.
  assert (FV : forall i j, position (f i j) = vadd o (vadd (vscale (INR n * frac j (Nat.max 1 (bp_u d))) a) (vscale (INR n * frac i (Nat.max 1 (bp_v d))) b)) /\ normal (f i j) = vscale (if bp_back d then 1 else -1) (normalize (cross a b))).
  { intros i' j'. unfold f. destruct (flat_vertex d o a b (Nat.max 1 (bp_u d)) (Nat.max 1 (bp_v d)) i' j' N F C) as (v' & -> & P & Q). now split. }
  pose proof (inv_pos (Nat.max 1 (bp_u d)) ltac:(lia)) as IH. pose proof (inv_pos (Nat.max 1 (bp_v d)) ltac:(lia)) as IV. assert (0 < INR n) as PN by (apply lt_0_INR; lia).
  replace (if bp_back d then O1 else O0) with (if false then if bp_back d then O3 else O2 else if bp_back d then O1 else O0) by reflexivity.
  apply (trap_all normal (bp_back d) f i j (vscale (INR n * (1 / INR (Nat.max 1 (bp_v d)))) b) (vscale (INR n * (1 / INR (Nat.max 1 (bp_u d)))) a) 1 1 false); [lra|lra| | | |].
  1-3: cbn zeta beta iota; rewrite !(proj1 (FV _ _)), ?frac_next; apply vec3_ext; vecs; ring.
  right. intros i' j' _ _. rewrite (proj2 (FV _ _)). destruct (normalize_form _ (nonzero_cross _ _ C)) as (k & K & -> & _). pose proof (nonzero_cross _ _ C) as PC.
  value (INR n * (1 / INR (Nat.max 1 (bp_v d))) * (INR n * (1 / INR (Nat.max 1 (bp_u d)))) * k * dot (cross a b) (cross a b)).
  destruct (bp_back d); vecs; ring.
Qed.
