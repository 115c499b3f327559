(** C89: bounding boxes of generated meshes. *)
From Coq Require Import ZArith Reals List Bool Arith Lia Lra.
From Verif Require Import Model.Scalar Model.Vec Model.Aabb Model.Mesh Model.Interp Model.Bezier Model.Transforms Model.MeshGen Spec.AabbSpec Spec.MeshGenSpec Spec.SurfaceSpec
  Spec.ExtentSpec Proofs.MeshGenMain Proofs.MeshGenSurface Proofs.CircleLemmas Proofs.MeshGenExtent Props.MeshProps.
Import ListNotations.
Local Open Scope R_scope.

(** ** The numbers in the boxes *)

Lemma ole_real M x y : ole (real_order M) x y <-> x <= y.
Proof. unfold ole, real_order. cbn. unfold Rltb. destruct (Rlt_dec y x); split; intros; try lra; try discriminate; reflexivity. Qed.
Lemma real_laws M : order_laws (real_order M) (fun _ => True).
Proof.
  split; try (intros; exact I); unfold real_order; cbn; unfold Rltb.
  - intros x y _ _. destruct (Rlt_dec x y), (Rlt_dec y x); intros; try discriminate; try reflexivity. lra.
  - intros x y z _ _ _. destruct (Rlt_dec x z), (Rlt_dec x y), (Rlt_dec y z); intros; try discriminate; try tauto. lra.
Qed.

Definition below (a b : vec3) : Prop := vx a <= vx b /\ vy a <= vy b /\ vz a <= vz b.

Lemma spans_box M lo hi m : spans lo hi (verts m) -> below (V3 (- M) (- M) (- M)) lo -> below hi (V3 M M M) ->
  bounding_box (real_order M) (fun v => coords (position v)) (fun p => p) m = box_of lo hi.
Proof.
  intros [In T] (L1 & L2 & L3) (H1 & H2 & H3). cbn in L1, L2, L3, H1, H2, H3.
  assert (Ok : forall v, List.In v (verts m) -> ok_point (real_order M) (fun _ => True) 3 (coords (position v))).
  { intros v _. split; [reflexivity|]. apply Forall_forall. intros; exact I. }
  destruct (C24_bounding_box_tight (real_order M) (fun _ => True) vertex (fun v => coords (position v)) (fun p => p) m (real_laws M) Ok) as [A B].
  set (b := bounding_box (real_order M) (fun v => coords (position v)) (fun p => p) m) in *.
  assert (W : AabbSpec.within (real_order M) b (box_of lo hi)).
  { apply B.
    - destruct T as [(v & V & _) _]. intros E. rewrite E in V. exact V.
    - intros v V. destruct (In v V) as (X & Y & Z). unfold coords. repeat constructor; try (apply ole_real; cbn; lra).
    - split; [reflexivity|]. apply Forall_forall. intros; split; exact I.
    - intros v V. destruct (In v V) as (X & Y & Z). unfold in_box, coords, box_of. repeat constructor; try (apply ole_real; cbn; lra). }
  unfold AabbSpec.within, box_of in W. inversion W as [|ix ox bx rx [X1 X2] Wx E1 E2]; subst. inversion Wx as [|iy oy by' ry [Y1 Y2] Wy F1 F2]; subst.
  inversion Wy as [|iz oz bz rz [Z1 Z2] Wz G1 G2]; subst. inversion Wz; subst.
  apply ole_real in X1, X2, Y1, Y2, Z1, Z2. cbn [fst snd] in X1, X2, Y1, Y2, Z1, Z2.
  assert (At : forall v, List.In v (verts m) -> fst ix <= vx (position v) <= snd ix /\ fst iy <= vy (position v) <= snd iy /\ fst iz <= vz (position v) <= snd iz).
  { intros v V. specialize (A v V). unfold in_box, coords in A. rewrite <- E1 in A. inversion A as [|? ? ? ? [a1 a2] A' ]; subst. inversion A' as [|? ? ? ? [b1 b2] A'' ]; subst.
    inversion A'' as [|? ? ? ? [c1 c2] A3 ]; subst. apply ole_real in a1, a2, b1, b2, c1, c2. repeat split; assumption. }
  destruct T as ((v1 & V1 & T1) & (v2 & V2 & T2) & (v3 & V3 & T3) & (v4 & V4 & T4) & (v5 & V5 & T5) & (v6 & V6 & T6)).
  apply At in V1, V2, V3, V4, V5, V6. unfold box_of. destruct ix as [ix1 ix2], iy as [iy1 iy2], iz as [iz1 iz2]. cbn [fst snd] in *.
  repeat f_equal; lra.
Qed.

(** What the division points of a circle reach, as [across] and [backwards] say *)
Theorem C89_division_points n : (2 <= n)%nat ->
  (forall k, (k <= n)%nat -> - across n <= sin (2 * PI * INR k / INR n) <= across n) /\ (exists k, (k <= n)%nat /\ sin (2 * PI * INR k / INR n) = across n) /\
  (forall k, (k <= n)%nat -> - backwards n <= cos (2 * PI * INR k / INR n) <= 1) /\ (exists k, (k <= n)%nat /\ cos (2 * PI * INR k / INR n) = - backwards n).
Proof.
  intros H. split; [|split; [|split]].
  - intros k K. split; [apply (across_lb n ltac:(lia) k K)|apply (across_ub n ltac:(lia) k K)].
  - exists ((n + 1) / 4)%nat. split; [apply quarter_le; lia|apply (across_hit n ltac:(lia))].
  - intros k K. split; [apply (backwards_lb n ltac:(lia) k H K)|apply COS_bound].
  - exists (n / 2)%nat. split; [apply half_le; lia|apply (backwards_hit n ltac:(lia))].
Qed.
Print Assumptions C89_division_points.

(** ** The boxes *)
Lemma opp_le a b : - a <= - b <-> b <= a. Proof. lra. Qed.
Lemma shrink s r : 0 <= s <= 1 -> 0 <= r -> 0 <= s * r <= r. Proof. intros; split; nra. Qed.
Lemma shrink2 s t : 0 <= s <= 1 -> 0 <= t <= 1 -> 0 <= s * t <= 1. Proof. intros; split; nra. Qed.

(** The box around the vertices is never larger than the one around the shape. *)
Theorem C89_within_shape d : sized d -> below (highest d) (extent d) /\ below (vopp (extent d)) (lowest d) /\ below (lowest d) vzero /\ below vzero (highest d).
Proof.
  destruct d as [d|d|d|d|d|d|d|d|d|d|d|d]; try (intros []; fail); cbn [sized]; unfold below, highest, lowest, extent; cbn zeta.
  - cbn. intros. repeat split; lra.
  - set (U := Nat.max 3 _). set (V := (2 * Nat.max 2 _)%nat). assert (U3 : (3 <= U)%nat) by (subst U; lia). assert (V3 : (3 <= V)%nat) by (subst V; lia). clearbody U V.
    intros (X & Y & Z). cbn. pose proof (across_pos U ltac:(lia)) as A. pose proof (across_pos V ltac:(lia)) as B. pose proof (backwards_pos U ltac:(lia) ltac:(lia)) as C.
    pose proof (shrink _ _ B X). pose proof (shrink _ _ (shrink2 _ _ B C) X). pose proof (shrink _ _ (shrink2 _ _ B A) Z). repeat split; lra.
  - set (U := Nat.max 3 _). assert (U3 : (3 <= U)%nat) by (subst U; lia). clearbody U. intros (X & Z & Y). cbn.
    pose proof (shrink _ _ (across_pos U ltac:(lia)) X). pose proof (shrink _ _ (backwards_pos U ltac:(lia) ltac:(lia)) Z). repeat split; lra.
  - set (U := Nat.max 3 _). assert (U3 : (3 <= U)%nat) by (subst U; lia). clearbody U. intros (X & Z & Y). cbn.
    pose proof (shrink _ _ (across_pos U ltac:(lia)) X). pose proof (shrink _ _ (backwards_pos U ltac:(lia) ltac:(lia)) Z). repeat split; lra.
  - set (U := Nat.max 3 _). assert (U3 : (3 <= U)%nat) by (subst U; lia). clearbody U. intros (X & Z & Y). cbn.
    pose proof (shrink _ (x2 (pp_outer d)) (across_pos U ltac:(lia)) ltac:(lra)). pose proof (shrink _ (y2 (pp_outer d)) (backwards_pos U ltac:(lia) ltac:(lia)) ltac:(lra)). repeat split; lra.
  - set (U := Nat.max 3 _). assert (U3 : (3 <= U)%nat) by (subst U; lia). clearbody U. intros (X & Y & Z & T). cbn.
    pose proof (shrink _ _ (across_pos U ltac:(lia)) X). pose proof (shrink _ _ (backwards_pos U ltac:(lia) ltac:(lia)) Z). repeat split; lra.
  - set (U := Nat.max 3 (to_u d)). set (V := Nat.max 3 (to_v d)). assert (U3 : (3 <= U)%nat) by (subst U; lia). assert (V3 : (3 <= V)%nat) by (subst V; lia). clearbody U V.
    intros (X & Y & Z). cbn. pose proof (across_pos U ltac:(lia)) as A. pose proof (backwards_pos U ltac:(lia) ltac:(lia)) as B.
    pose proof (across_pos V ltac:(lia)) as C. pose proof (backwards_pos V ltac:(lia) ltac:(lia)) as D.
    pose proof (shrink _ _ C (proj1 X)). pose proof (shrink _ _ C (proj1 Z)). pose proof (shrink _ _ D Y).
    pose proof (shrink _ (x2 (to_ring d) + across V * vx (to_tube d)) A ltac:(lra)). pose proof (shrink _ (y2 (to_ring d) + across V * vz (to_tube d)) B ltac:(lra)). repeat split; lra.
Qed.
Print Assumptions C89_within_shape.

Theorem C89_bounding_box d m M : valid d -> sized d -> below (extent d) (V3 M M M) -> generate d (mkMesh [] []) = Ok m ->
  bounding_box (real_order M) (fun v => coords (position v)) (fun p => p) m = box_of (lowest d) (highest d).
Proof.
  intros W S E G. destruct (C89_within_shape d S) as ((A1 & A2 & A3) & (B1 & B2 & B3) & _). destruct E as (E1 & E2 & E3). cbn in *.
  apply spans_box.
  - pose proof (spans_holds d _ _ W S G) as P. unfold new_vertices in P. cbn [verts length skipn] in P. exact P.
  - unfold below. cbn. repeat split; lra.
  - unfold below. cbn. repeat split; lra.
Qed.
Print Assumptions C89_bounding_box.

(** Meshes can be added to others: each new vertex is in the box of its shape. *)
Theorem C89_new_vertices d m m' v : valid d -> sized d -> generate d m = Ok m' -> In v (new_vertices m m') ->
  below (lowest d) (position v) /\ below (position v) (highest d).
Proof. intros W S G I. destruct (spans_holds d _ _ W S G) as [A _]. destruct (A v I) as ((a & b) & (c & e) & (f & g)). repeat split; assumption. Qed.
Print Assumptions C89_new_vertices.

(** ** The shapes *)
Lemma sq_le x r : 0 <= r -> x ^ 2 <= r ^ 2 -> - r <= x <= r. Proof. intros; split; nra. Qed.
Lemma ratio_le x r : 0 < r -> (x / r) ^ 2 <= 1 -> - r <= x <= r.
Proof.
  intros R H. apply sq_le; [lra|]. replace x with (x / r * r) at 1 by (field; lra). rewrite Rpow_mult_distr. assert (0 <= r ^ 2) by apply pow2_ge_0. nra.
Qed.
Lemma disc_le rx rz x z : 0 < rx -> 0 < rz -> ellipse_disc rx rz x z -> (- rx <= x <= rx) /\ (- rz <= z <= rz).
Proof.
  unfold ellipse_disc. intros A B E. pose proof (pow2_ge_0 (x / rx)). pose proof (pow2_ge_0 (z / rz)). split; apply ratio_le; lra.
Qed.
Lemma ellipse_le rx rz x z : 0 < rx -> 0 < rz -> ellipse rx rz x z -> (- rx <= x <= rx) /\ (- rz <= z <= rz).
Proof. intros A B E. apply disc_le; try assumption. unfold ellipse_disc, ellipse in *. lra. Qed.
Lemma nonzero_pos r : r <> 0 -> 0 <= r -> 0 < r. Proof. lra. Qed.
Lemma within_le h y : 0 <= h -> SurfaceSpec.within h y -> - (h / 2) <= y <= h / 2. Proof. apply within_abs. Qed.
Lemma end_le h y : 0 <= h -> at_end h y -> - (h / 2) <= y <= h / 2. Proof. intros A [-> | ->]; lra. Qed.

(** [extent] is the extent of the shape: no point of its surface is beyond. *)
Theorem C89_extent d p : sized d -> regular d -> on_surface d p -> below (vopp (extent d)) p /\ below p (extent d).
Proof.
  enough (Q : sized d -> regular d -> on_surface d p -> inside (vopp (extent d)) (extent d) p).
  { intros A B C. destruct (Q A B C) as ((a & b) & (c & e) & (f & g)). repeat split; assumption. }
  destruct d as [d|d|d|d|d|d|d|d|d|d|d|d]; try (intros []; fail); cbn [sized regular on_surface]; unfold inside, extent; cbn [vx vy vz vopp].
  - intros (X & Y & Z) _ (A & B & C & _). apply within_le in A; [|exact X]. apply within_le in B; [|exact Y]. apply within_le in C; [|exact Z]. repeat split; lra.
  - intros (X & Y & Z) (A & B & C) E. unfold on_ellipsoid in E. pose proof (pow2_ge_0 (vx p / vx (el_radius d))). pose proof (pow2_ge_0 (vy p / vy (el_radius d))).
    pose proof (pow2_ge_0 (vz p / vz (el_radius d))). split; [|split]; apply ratio_le; lra.
  - intros (X & Z & Y) ((A & B) & C) [(E & W)|(E & W)].
    + apply within_le in W; [|exact Y]. assert (T : ((co_height d / 2 - vy p) / co_height d) ^ 2 <= 1).
      { assert (0 < co_height d) by lra. assert (0 <= (co_height d / 2 - vy p) / co_height d <= 1); [|nra]. split.
        - apply Rmult_le_pos; [lra|left; apply Rinv_0_lt_compat; lra].
        - apply Rmult_le_reg_r with (co_height d); [lra|]. unfold Rdiv. rewrite Rmult_assoc, Rinv_l by lra. lra. }
      destruct (disc_le (x2 (co_radius d)) (y2 (co_radius d)) (vx p) (vz p)) as [P Q]; [lra|lra|unfold ellipse_disc; lra|]. repeat split; lra.
    + apply disc_le in E; [|lra|lra]. rewrite W. repeat split; lra.
  - intros (X & Z & Y) (A & B) [(E & W)|(E & W)].
    + apply within_le in W; [|exact Y]. apply ellipse_le in E; [|lra|lra]. tauto.
    + apply end_le in W; [|exact Y]. apply disc_le in E; [|lra|lra]. tauto.
  - intros (X & Z & Y) (A & B & C & D) [(E & W)|[(E & W)|(W & t & T & E)]].
    + apply within_le in W; [|exact Y]. apply ellipse_le in E; [|lra|lra]. tauto.
    + apply within_le in W; [|exact Y]. apply ellipse_le in E; [|lra|lra]. repeat split; lra.
    + apply end_le in W; [|exact Y].
      assert (0 < (1 - t) * x2 (pp_inner d) + t * x2 (pp_outer d) <= x2 (pp_outer d)) by (split; nra).
      assert (0 < (1 - t) * y2 (pp_inner d) + t * y2 (pp_outer d) <= y2 (pp_outer d)) by (split; nra).
      apply ellipse_le in E; [|lra|lra]. repeat split; lra.
  - intros (X & Y & Z & T) (A & B & C) [(E & W)|(s & S & E & P)].
    + apply within_le in W; [|exact T]. apply ellipse_le in E; [|lra|lra]. repeat split; lra.
    + unfold on_ellipsoid in E. cbn [vx vy vz] in E. pose proof (pow2_ge_0 (vx p / vx (ca_radius d))).
      pose proof (pow2_ge_0 ((vy p - s * (ca_height d / 2)) / vy (ca_radius d))). pose proof (pow2_ge_0 (vz p / vz (ca_radius d))).
      assert (K : - vy (ca_radius d) <= vy p - s * (ca_height d / 2) <= vy (ca_radius d)) by (apply ratio_le; lra).
      split; [apply ratio_le; lra|split; [|apply ratio_le; lra]]. destruct S as [-> | ->]; lra.
  - intros (X & Y & Z) (A & B & C) (a & b & E1 & E2 & E3). pose proof (SIN_bound a) as SA. pose proof (SIN_bound b) as SB. pose proof (COS_bound a) as CA. pose proof (COS_bound b) as CB.
    assert (WX : 0 <= x2 (to_ring d) + sin b * vx (to_tube d) <= x2 (to_ring d) + vx (to_tube d)) by (split; nra).
    assert (WZ : 0 <= y2 (to_ring d) + sin b * vz (to_tube d) <= y2 (to_ring d) + vz (to_tube d)) by (split; nra).
    rewrite E1, E2, E3. set (wx := x2 (to_ring d) + sin b * vx (to_tube d)) in *. set (wz := y2 (to_ring d) + sin b * vz (to_tube d)) in *.
    assert (- wx <= sin a * wx <= wx) by (split; nra). assert (- wz <= cos a * wz <= wz) by (split; nra).
    assert (- vy (to_tube d) <= cos b * vy (to_tube d) <= vy (to_tube d)) by (split; nra). repeat split; lra.
Qed.
Print Assumptions C89_extent.

(** ** How close the boxes are *)

Lemma across4 n : (n mod 4 = 0)%nat -> across n = 1. Proof. intros E. unfold across. now rewrite E. Qed.
Lemma mod4 a : ((4 * a) mod 4 = 0)%nat. Proof. rewrite Nat.mul_comm. apply Nat.mod_mul. lia. Qed.
Lemma backwards4 a : backwards (4 * a) = 1.
Proof. unfold backwards. replace (4 * a)%nat with (2 * (2 * a))%nat by lia. rewrite Nat.even_mul. reflexivity. Qed.

(** When the segments meet the far points the box of the mesh is the box of the shape. *)
Theorem C89_exact d : sized d -> quartered d -> highest d = extent d /\ lowest d = vopp (extent d).
Proof.
  assert (X4 : forall a, (0 < a)%nat -> Nat.max 3 (4 * a) = (4 * a)%nat) by (intros; lia).
  destruct d as [d|d|d|d|d|d|d|d|d|d|d|d]; try (intros []; fail); cbn [quartered]; unfold highest, lowest, extent; cbn zeta; intros S Q; [tauto|..].
  - destruct Q as (a & b & E1 & E2 & A & B). rewrite E1, E2, X4 by assumption. replace (2 * Nat.max 2 (2 * b))%nat with (4 * b)%nat by lia.
    rewrite !across4, backwards4 by apply mod4. split; [destruct (el_radius d)|]; cbn; unfold vopp; cbn; f_equal; ring.
  - destruct Q as (a & E & A). rewrite E, X4, across4, backwards4 by (apply mod4 || assumption). split; unfold vopp; cbn; f_equal; ring.
  - destruct Q as (a & E & A). rewrite E, X4, across4, backwards4 by (apply mod4 || assumption). split; unfold vopp; cbn; f_equal; ring.
  - destruct Q as (a & E & A). rewrite E, X4, across4, backwards4 by (apply mod4 || assumption). split; unfold vopp; cbn; f_equal; ring.
  - destruct Q as (a & E & A). rewrite E, X4, across4, backwards4 by (apply mod4 || assumption). split; unfold vopp; cbn; f_equal; ring.
  - destruct Q as (a & b & E1 & E2 & A & B). rewrite E1, E2, !X4, !across4, !backwards4 by (apply mod4 || assumption). split; unfold vopp; cbn; f_equal; ring.
Qed.
Print Assumptions C89_exact.

Lemma close_mono n k : (3 <= n)%nat -> (n <= k)%nat -> PI ^ 2 / (2 * INR k ^ 2) <= PI ^ 2 / (2 * INR n ^ 2).
Proof.
  intros A B. apply le_INR in B. assert (3 <= INR n) by (apply (le_INR 3) in A; cbn in A; lra). apply Rmult_le_compat_l; [apply pow2_ge_0|].
  apply Rinv_le_contravar; nra.
Qed.
Lemma across_from n k : (3 <= n)%nat -> (n <= k)%nat -> 1 - PI ^ 2 / (2 * INR n ^ 2) <= across k.
Proof. intros A B. pose proof (across_close k ltac:(lia)). pose proof (close_mono n k A B). lra. Qed.
Lemma backwards_from n k : (3 <= n)%nat -> (n <= k)%nat -> 1 - PI ^ 2 / (2 * INR n ^ 2) <= backwards k.
Proof. intros A B. pose proof (backwards_close k ltac:(lia)). pose proof (close_mono n k A B). lra. Qed.

Lemma keep e s r : 1 - e <= s -> 0 <= r -> (1 - e) * r <= s * r. Proof. intros; nra. Qed.
Lemma keep2 e s t : 0 <= s <= 1 -> 0 <= t <= 1 -> 1 - e / 2 <= s -> 1 - e / 2 <= t -> 1 - e <= s * t. Proof. intros; nra. Qed.

(** With n segments, at most a part of pi^2/n^2 of the shape's extent is missing. *)
Theorem C89_close n d : (3 <= n)%nat -> sized d -> fine n d ->
  let k := 1 - PI ^ 2 / INR n ^ 2 in below (vscale k (extent d)) (highest d) /\ below (lowest d) (vscale (- k) (extent d)).
Proof.
  intros N S F. cbn zeta. set (e := PI ^ 2 / INR n ^ 2). assert (N3 : 3 <= INR n) by (apply (le_INR 3) in N; cbn in N; lra).
  assert (E0 : 0 <= e) by (apply Rmult_le_pos; [apply pow2_ge_0|left; apply Rinv_0_lt_compat; nra]).
  assert (E2 : PI ^ 2 / (2 * INR n ^ 2) = e / 2) by (unfold e; field; lra).
  assert (A : forall k, (n <= k)%nat -> 1 - e / 2 <= across k) by (intros k K; rewrite <- E2; apply across_from; assumption).
  assert (B : forall k, (n <= k)%nat -> 1 - e / 2 <= backwards k) by (intros k K; rewrite <- E2; apply backwards_from; assumption).
  clearbody e. assert (W : forall r, 0 <= r -> (1 - e) * r <= r) by (intros; nra).
  destruct d as [d|d|d|d|d|d|d|d|d|d|d|d]; try (destruct S; fail); cbn [sized fine] in S, F; unfold below, highest, lowest, extent; cbn zeta.
  - cbn. destruct S as (X & Y & Z). repeat split; nra.
  - assert (U3 : (n <= Nat.max 3 (el_u d))%nat) by lia. assert (V3 : (n <= 2 * Nat.max 2 (el_v d))%nat) by lia.
    set (U := Nat.max 3 _) in *. set (V := (2 * Nat.max 2 _)%nat) in *. clearbody U V. destruct S as (X & Y & Z). cbn.
    pose proof (across_pos V ltac:(lia)) as PV. pose proof (across_pos U ltac:(lia)) as PU. pose proof (backwards_pos U ltac:(lia) ltac:(lia)) as PB.
    pose proof (keep e (across V) _ ltac:(specialize (A V V3); lra) X).
    pose proof (keep e _ _ (keep2 e _ _ PV PB (A V V3) (B U U3)) X). pose proof (keep e _ _ (keep2 e _ _ PV PU (A V V3) (A U U3)) Z).
    pose proof (W _ Y). repeat split; lra.
  - assert (U3 : (n <= Nat.max 3 (co_u d))%nat) by lia. set (U := Nat.max 3 _) in *. clearbody U. destruct S as (X & Z & Y). cbn.
    pose proof (keep e (across U) _ ltac:(specialize (A U U3); lra) X). pose proof (keep e (backwards U) _ ltac:(specialize (B U U3); lra) Z).
    pose proof (W _ Y). pose proof (W _ Z). repeat split; lra.
  - assert (U3 : (n <= Nat.max 3 (cy_u d))%nat) by lia. set (U := Nat.max 3 _) in *. clearbody U. destruct S as (X & Z & Y). cbn.
    pose proof (keep e (across U) _ ltac:(specialize (A U U3); lra) X). pose proof (keep e (backwards U) _ ltac:(specialize (B U U3); lra) Z).
    pose proof (W _ Y). pose proof (W _ Z). repeat split; lra.
  - assert (U3 : (n <= Nat.max 3 (pp_u d))%nat) by lia. set (U := Nat.max 3 _) in *. clearbody U. destruct S as (X & Z & Y). cbn.
    pose proof (keep e (across U) (x2 (pp_outer d)) ltac:(specialize (A U U3); lra) ltac:(lra)).
    pose proof (keep e (backwards U) (y2 (pp_outer d)) ltac:(specialize (B U U3); lra) ltac:(lra)).
    pose proof (W _ Y). pose proof (W (y2 (pp_outer d)) ltac:(lra)). repeat split; lra.
  - assert (U3 : (n <= Nat.max 3 (ca_u d))%nat) by lia. set (U := Nat.max 3 _) in *. clearbody U. destruct S as (X & Y & Z & T). cbn.
    pose proof (keep e (across U) _ ltac:(specialize (A U U3); lra) X). pose proof (keep e (backwards U) _ ltac:(specialize (B U U3); lra) Z).
    pose proof (W (ca_height d / 2 + vy (ca_radius d)) ltac:(lra)). pose proof (W _ Z). repeat split; lra.
  - assert (U3 : (n <= Nat.max 3 (to_u d))%nat) by lia. assert (V3 : (n <= Nat.max 3 (to_v d))%nat) by lia.
    set (U := Nat.max 3 (to_u d)) in *. set (V := Nat.max 3 (to_v d)) in *. clearbody U V. destruct S as (X & Y & Z). cbn.
    pose proof (across_pos V ltac:(lia)) as PV. pose proof (across_pos U ltac:(lia)) as PU. pose proof (backwards_pos U ltac:(lia) ltac:(lia)) as PB.
    pose proof (backwards_pos V ltac:(lia) ltac:(lia)) as PBV.
    assert (KX : (1 - e) * (x2 (to_ring d) + vx (to_tube d)) <= across U * (x2 (to_ring d) + across V * vx (to_tube d))).
    { pose proof (keep e (across U) (x2 (to_ring d)) ltac:(specialize (A U U3); lra) ltac:(lra)).
      pose proof (keep e _ (vx (to_tube d)) (keep2 e _ _ PU PV (A U U3) (A V V3)) ltac:(lra)). lra. }
    assert (KZ : (1 - e) * (y2 (to_ring d) + vz (to_tube d)) <= backwards U * (y2 (to_ring d) + across V * vz (to_tube d))).
    { pose proof (keep e (backwards U) (y2 (to_ring d)) ltac:(specialize (B U U3); lra) ltac:(lra)).
      pose proof (keep e _ (vz (to_tube d)) (keep2 e _ _ PB PV (B U U3) (A V V3)) ltac:(lra)). lra. }
    pose proof (shrink _ (vz (to_tube d)) PV ltac:(lra)).
    pose proof (shrink _ (y2 (to_ring d) + across V * vz (to_tube d)) PB ltac:(lra)).
    pose proof (keep e (backwards V) _ ltac:(specialize (B V V3); lra) Y). pose proof (W _ Y). repeat split; lra.
Qed.
Print Assumptions C89_close.

(** A cylinder of 6 segments: its box is narrower in x than the cylinder, but not in z. *)
Example C89_example : let d := DCylinder (mkCylinder (V2 2 3) 4 6 1 0 0 false) in
  (forall m, generate d (mkMesh [] []) = Ok m -> bounding_box (real_order 10) (fun v => coords (position v)) (fun p => p) m = [(- sqrt 3, sqrt 3); (-2, 2); (-3, 3)]) /\
  (exists m, generate d (mkMesh [] []) = Ok m).
Proof.
  cbn zeta. assert (V : valid (DCylinder (mkCylinder (V2 2 3) 4 6 1 0 0 false))).
  { intros n [<-|[<-|[<-|[<-|[]]]]]; reflexivity. }
  assert (A : across 6 = sqrt 3 / 2).
  { unfold across. cbn. replace (PI / (1 + 1 + 1 + 1 + 1 + 1)) with (PI / 6) by field. apply cos_PI6. }
  split.
  - intros m G. erewrite (C89_bounding_box _ m 10 V); [|cbn; lra|unfold below; cbn; lra|exact G]. unfold box_of, lowest, highest, extent. cbn zeta. cbn [cy_radius cy_height cy_u].
    replace (Nat.max 3 6) with 6%nat by reflexivity. rewrite A. unfold vopp. cbn [vx vy vz x2 y2]. unfold backwards. cbn [Nat.even]. repeat f_equal; field.
  - apply succeeds_holds; [exact V|exact I|reflexivity].
Qed.
