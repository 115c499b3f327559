(** C89: the smallest boxes around the vertices of the generated meshes. *)
From Coq Require Import ZArith Reals List Bool Arith Lia Lra.
From Verif Require Import Model.Scalar Model.Vec Model.Aabb Model.Mesh Model.Interp Model.Bezier Model.Transforms Model.MeshGen Spec.MeshGenSpec Spec.SurfaceSpec
  Spec.ExtentSpec Proofs.MeshGenLoops Proofs.MeshGenPieces Proofs.MeshGenResult Proofs.MeshGenInv Proofs.MeshGenMain Proofs.MeshGenSurface Proofs.CircleLemmas.
Import ListNotations.
Local Open Scope R_scope.

Definition inside (lo hi p : vec3) : Prop := vx lo <= vx p <= vx hi /\ vy lo <= vy p <= vy hi /\ vz lo <= vz p <= vz hi.
Definition touches (lo hi : vec3) (vs : list vertex) : Prop :=
  (exists v, In v vs /\ vx (position v) = vx lo) /\ (exists v, In v vs /\ vx (position v) = vx hi) /\
  (exists v, In v vs /\ vy (position v) = vy lo) /\ (exists v, In v vs /\ vy (position v) = vy hi) /\
  (exists v, In v vs /\ vz (position v) = vz lo) /\ (exists v, In v vs /\ vz (position v) = vz hi).
Definition spans (lo hi : vec3) (vs : list vertex) : Prop := (forall v, In v vs -> inside lo hi (position v)) /\ touches lo hi vs.

Lemma grid_has f R C i j : (i <= R)%nat -> (j <= C)%nat -> In (f i j) (grid_verts f R C).
Proof. intros A B. unfold grid_verts. apply in_flat_map. exists i. split; [apply in_seq; lia|]. apply in_map. apply in_seq. lia. Qed.
Lemma cone_has f t H V i j : (i <= H)%nat -> (1 <= j <= V)%nat -> In (f i j) (cone_verts f t H V).
Proof. intros A B. unfold cone_verts. apply in_flat_map. exists i. split; [apply in_seq; lia|]. apply in_or_app. left. apply in_map. apply in_seq. lia. Qed.

Lemma angle_turn H u : (0 < H)%nat -> at_angle 0 (1 / INR H * pi_2) u = turn u H.
Proof. intros P. apply lt_0_INR in P. unfold at_angle, turn, pi_2. field. lra. Qed.
Lemma frac_turn H u : (0 < H)%nat -> frac u H * pi_2 = turn u H.
Proof. intros P. apply lt_0_INR in P. unfold frac, turn, pi_2. field. lra. Qed.
Lemma frac_half V v : (0 < V)%nat -> frac v V * PI = turn v (2 * V).
Proof. intros P. apply lt_0_INR in P. unfold frac, turn. rewrite mult_INR. cbn [INR]. field. lra. Qed.
Lemma frac_0 n : frac 0 n = 0. Proof. unfold frac. cbn. ring. Qed.
Lemma frac_n n : (0 < n)%nat -> frac n n = 1. Proof. intros P. apply lt_0_INR in P. unfold frac. field. lra. Qed.

Lemma mul_bounds a b c t r : 0 <= t <= 1 -> 0 <= r -> 0 <= a -> 0 <= b -> - a <= c <= b -> - (a * r) <= t * (c * r) <= b * r.
Proof. intros T R A B [C D]. assert (- (a * r) <= c * r <= b * r) by (split; nra). assert (0 <= a * r) by nra. assert (0 <= b * r) by nra. split; nra. Qed.

Lemma part_of t h : 0 <= t <= 1 -> 0 <= h -> 0 <= t * h <= h.
Proof. intros A B. split; nra. Qed.
Section Ring.
Variable H : nat.
Hypothesis H3 : (3 <= H)%nat.
Lemma ring_x t rx u : 0 <= t <= 1 -> 0 <= rx -> (u <= H)%nat -> - (across H * rx) <= t * (sin (turn u H) * rx) <= across H * rx.
Proof.
  intros T R U. pose proof (across_pos H ltac:(lia)). apply mul_bounds; try tauto. split; [apply across_lb|apply across_ub]; lia.
Qed.
Lemma ring_z t rz u : 0 <= t <= 1 -> 0 <= rz -> (u <= H)%nat -> - (backwards H * rz) <= t * (cos (turn u H) * rz) <= rz.
Proof.
  intros T R U. pose proof (backwards_pos H ltac:(lia) ltac:(lia)). pose proof (mul_bounds (backwards H) 1 (cos (turn u H)) t rz T R ltac:(lra) ltac:(lra)
    (conj (backwards_lb H ltac:(lia) u ltac:(lia) U) (proj2 (COS_bound _)))). lra.
Qed.
End Ring.

Lemma t1 : 0 <= 1 <= 1. Proof. lra. Qed.
Lemma lerp_half h t : 0 <= h -> 0 <= t <= 1 -> - (h / 2) <= lerp (h * (1 / 2)) (- (h * (1 / 2))) t <= h / 2.
Proof. intros A B. unfold lerp. split; nra. Qed.

(** Points of mantles and covers *)
Definition ring_box (rx h rz : R) (H : nat) : vec3 * vec3 :=
  (vopp (V3 (across H * rx) (h / 2) (backwards H * rz)), V3 (across H * rx) (h / 2) rz).
Lemma mantle_inside rx rz h side H V u v sx sz : (3 <= H)%nat -> (0 < V)%nat -> (u <= H)%nat -> (v <= V)%nat -> 0 <= rx <= sx -> 0 <= rz <= sz -> 0 <= h ->
  inside (fst (ring_box sx h sz H)) (snd (ring_box sx h sz H)) (position (mantle_vertex rx rz (h * (1 / 2)) side H V (at_angle 0 (1 / INR H * pi_2) u) u v)).
Proof.
  intros H3 V0 U Vv X Z Hh. rewrite angle_turn by lia. unfold inside, ring_box, mantle_vertex. cbn.
  pose proof (ring_x H H3 1 rx u t1 ltac:(lra) U). pose proof (ring_z H H3 1 rz u t1 ltac:(lra) U).
  pose proof (across_pos H ltac:(lia)). pose proof (backwards_pos H ltac:(lia) ltac:(lia)).
  pose proof (lerp_half h (frac v V) Hh (frac_bounds v V Vv V0)).
  assert (across H * rx <= across H * sx) by (apply Rmult_le_compat_l; lra). assert (backwards H * rz <= backwards H * sz) by (apply Rmult_le_compat_l; lra).
  repeat split; lra.
Qed.
Lemma disc_inside rx rz h y side flip H K u v : (3 <= H)%nat -> (0 < K)%nat -> (u <= H)%nat -> (v <= K)%nat -> 0 <= rx -> 0 <= rz -> - (h / 2) <= y <= h / 2 ->
  inside (fst (ring_box rx h rz H)) (snd (ring_box rx h rz H)) (position (disc_vertex rx rz y side flip K (at_angle 0 (1 / INR H * pi_2) u) v)).
Proof.
  intros H3 K0 U Vv X Z Y. rewrite angle_turn by lia. unfold inside, ring_box, disc_vertex. cbn. pose proof (frac_bounds v K Vv K0) as F.
  pose proof (ring_x H H3 _ rx u F X U). pose proof (ring_z H H3 _ rz u F Z U). repeat split; lra.
Qed.
Lemma center_inside rx rz h y side H : (3 <= H)%nat -> 0 <= rx -> 0 <= rz -> - (h / 2) <= y <= h / 2 ->
  inside (fst (ring_box rx h rz H)) (snd (ring_box rx h rz H)) (position (disc_center y side)).
Proof.
  intros H3 X Z Y. unfold inside, ring_box, disc_center. cbn. pose proof (across_pos H ltac:(lia)). pose proof (backwards_pos H ltac:(lia) ltac:(lia)).
  assert (0 <= across H * rx) by nra. assert (0 <= backwards H * rz) by nra. repeat split; lra.
Qed.
Lemma mantle_touches rx rz h side H V : (3 <= H)%nat -> (0 < V)%nat ->
  touches (fst (ring_box rx h rz H)) (snd (ring_box rx h rz H))
    (grid_verts (fun u v => mantle_vertex rx rz (h * (1 / 2)) side H V (at_angle 0 (1 / INR H * pi_2) u) u v) H V).
Proof.
  intros H3 V0. pose proof (quarter_le H ltac:(lia)) as Q. pose proof (half_le H ltac:(lia)) as Q2.
  assert (E : forall u v (P : vertex -> Prop), (u <= H)%nat -> (v <= V)%nat -> P (mantle_vertex rx rz (h * (1 / 2)) side H V (at_angle 0 (1 / INR H * pi_2) u) u v) ->
    exists w, In w (grid_verts (fun u v => mantle_vertex rx rz (h * (1 / 2)) side H V (at_angle 0 (1 / INR H * pi_2) u) u v) H V) /\ P w).
  { intros u v P A B X. eexists. split; [|exact X]. apply (grid_has (fun u v => mantle_vertex rx rz (h * (1 / 2)) side H V (at_angle 0 (1 / INR H * pi_2) u) u v)); assumption. }
  unfold ring_box. cbn [fst snd]. split; [|split; [|split; [|split; [|split]]]].
  - apply (E (H - (H + 1) / 4)%nat 0%nat); [lia|lia|]. rewrite angle_turn by lia. unfold mantle_vertex, cone_vertex. cbn [position vx vy vz vopp lerp3 vadd vscale vsub]. rewrite across_hit_low by lia. ring.
  - apply (E ((H + 1) / 4)%nat 0%nat); [lia|lia|]. rewrite angle_turn by lia. unfold mantle_vertex, cone_vertex. cbn [position vx vy vz vopp lerp3 vadd vscale vsub]. rewrite across_hit by lia. ring.
  - apply (E 0%nat V); [lia|lia|]. cbn. rewrite frac_n by lia. unfold lerp. field.
  - apply (E 0%nat 0%nat); [lia|lia|]. cbn. rewrite frac_0. unfold lerp. field.
  - apply (E (H / 2)%nat 0%nat); [lia|lia|]. rewrite angle_turn by lia. unfold mantle_vertex, cone_vertex. cbn [position vx vy vz vopp lerp3 vadd vscale vsub]. rewrite backwards_hit by lia. ring.
  - apply (E 0%nat 0%nat); [lia|lia|]. rewrite angle_turn by lia. unfold mantle_vertex, cone_vertex. cbn [position vx vy vz vopp lerp3 vadd vscale vsub]. rewrite cos_0_hit by lia. ring.
Qed.

Lemma touches_app lo hi a b : touches lo hi a -> touches lo hi (a ++ b).
Proof.
  intros (A & B & C & D & E & F). repeat split;
    [destruct A as (v & I & X)|destruct B as (v & I & X)|destruct C as (v & I & X)|destruct D as (v & I & X)|destruct E as (v & I & X)|destruct F as (v & I & X)];
    exists v; (split; [apply in_or_app; left; exact I|exact X]).
Qed.

Ltac side := unfold extent; cbn [vx vy vz]; lia || lra || (split; lra).
Lemma cylinder_spans d : sized (DCylinder d) -> spans (lowest (DCylinder d)) (highest (DCylinder d)) (flat_map pv (cylinder_pieces d)).
Proof.
  cbn [sized]. intros (X & Z & Y). split.
  - intros v I. apply in_flat_map in I. destruct I as (p & Hp & Hv). unfold cylinder_pieces in Hp. cbn zeta in Hp.
    in_pieces Hp; subst p; cbn [pv mantle_piece disc_piece] in Hv.
    + apply in_grid_verts in Hv. destruct Hv as (i & j & Hi & Hj & ->). apply mantle_inside; side.
    + apply in_disc_verts in Hv. destruct Hv as [->|(i & j & Hi & Hj & ->)]; [apply center_inside|apply disc_inside]; side.
    + apply in_disc_verts in Hv. destruct Hv as [->|(i & j & Hi & Hj & ->)]; [apply center_inside|apply disc_inside]; side.
  - unfold cylinder_pieces. cbn [flat_map]. apply touches_app. apply mantle_touches; lia.
Qed.

Lemma ring_inside d h y side flip H K u v : (3 <= H)%nat -> (0 < K)%nat -> (u <= H)%nat -> (v <= K)%nat -> 0 <= x2 (pp_inner d) <= x2 (pp_outer d) ->
  0 <= y2 (pp_inner d) <= y2 (pp_outer d) -> - (h / 2) <= y <= h / 2 ->
  inside (fst (ring_box (x2 (pp_outer d)) h (y2 (pp_outer d)) H)) (snd (ring_box (x2 (pp_outer d)) h (y2 (pp_outer d)) H))
    (position (ring_vertex d y side flip K (at_angle 0 (1 / INR H * pi_2) u) v)).
Proof.
  intros H3 K0 U Vv X Z Y. rewrite angle_turn by lia. unfold inside, ring_box, ring_vertex. cbn. pose proof (frac_bounds v K Vv K0) as F.
  set (t := frac v K) in *.
  pose proof (ring_x H H3 1 (x2 (pp_inner d) + t * (x2 (pp_outer d) - x2 (pp_inner d))) u t1 ltac:(nra) U).
  pose proof (ring_z H H3 1 (y2 (pp_inner d) + t * (y2 (pp_outer d) - y2 (pp_inner d))) u t1 ltac:(nra) U).
  pose proof (across_pos H ltac:(lia)). pose proof (backwards_pos H ltac:(lia) ltac:(lia)).
  assert (across H * (x2 (pp_inner d) + t * (x2 (pp_outer d) - x2 (pp_inner d))) <= across H * x2 (pp_outer d)) by (apply Rmult_le_compat_l; [lra|nra]).
  assert (backwards H * (y2 (pp_inner d) + t * (y2 (pp_outer d) - y2 (pp_inner d))) <= backwards H * y2 (pp_outer d)) by (apply Rmult_le_compat_l; [lra|nra]).
  assert (y2 (pp_inner d) + t * (y2 (pp_outer d) - y2 (pp_inner d)) <= y2 (pp_outer d)) by nra.
  repeat split; lra.
Qed.
Lemma pipe_spans d : sized (DPipe d) -> spans (lowest (DPipe d)) (highest (DPipe d)) (flat_map pv (pipe_pieces d)).
Proof.
  cbn [sized]. intros (X & Z & Y). split.
  - intros v I. apply in_flat_map in I. destruct I as (p & Hp & Hv). unfold pipe_pieces in Hp. cbn zeta in Hp.
    in_pieces Hp; subst p; cbn [pv mantle_piece ring_piece] in Hv; apply in_grid_verts in Hv; destruct Hv as (i & j & Hi & Hj & ->).
    + apply mantle_inside; side.
    + apply mantle_inside; side.
    + apply ring_inside; side.
    + apply ring_inside; side.
  - unfold pipe_pieces. cbn [flat_map]. apply touches_app. apply mantle_touches; lia.
Qed.

Lemma cone_spans d : sized (DCone d) -> spans (lowest (DCone d)) (highest (DCone d)) (flat_map pv (cone_pieces d)).
Proof.
  cbn [sized]. intros (X & Z & Y). set (H := Nat.max 3 (co_u d)). set (V := Nat.max 1 (co_v d)).
  assert (H3 : (3 <= H)%nat) by (subst H; lia). assert (V0 : (0 < V)%nat) by (subst V; lia). split.
  - intros v I. apply in_flat_map in I. destruct I as (p & Hp & Hv). unfold cone_pieces in Hp. cbn zeta in Hp.
    in_pieces Hp; subst p; cbn [pv disc_piece] in Hv.
    + apply in_cone_verts in Hv. fold H V in Hv. destruct Hv as [(i & Hi & ->)|(i & j & Hi & Hj & ->)].
      * apply (center_inside _ _ _ _ 1); side.
      * change (lowest (DCone d)) with (fst (ring_box (x2 (co_radius d)) (co_height d) (y2 (co_radius d)) H)).
        change (highest (DCone d)) with (snd (ring_box (x2 (co_radius d)) (co_height d) (y2 (co_radius d)) H)).
        clearbody H V. rewrite angle_turn by lia. unfold inside, ring_box, cone_vertex. cbn. pose proof (frac_bounds j V ltac:(lia) V0) as F.
        pose proof (ring_x H H3 _ _ i F X Hi). pose proof (ring_z H H3 _ _ i F Z Hi).
        pose proof (part_of _ _ F Y). repeat split; lra.
    + apply in_disc_verts in Hv. destruct Hv as [->|(i & j & Hi & Hj & ->)]; [apply center_inside|apply disc_inside]; side.
  - unfold cone_pieces. cbn [flat_map]. apply touches_app. cbn [pv]. fold H V.
    change (lowest (DCone d)) with (fst (ring_box (x2 (co_radius d)) (co_height d) (y2 (co_radius d)) H)).
    change (highest (DCone d)) with (snd (ring_box (x2 (co_radius d)) (co_height d) (y2 (co_radius d)) H)).
    unfold ring_box. cbn [fst snd]. clearbody H V.
    pose proof (quarter_le H ltac:(lia)) as Q. pose proof (half_le H ltac:(lia)) as Q2.
    assert (E : forall u (P : vertex -> Prop), (u <= H)%nat -> P (cone_vertex d (co_height d * (1 / 2)) H V (at_angle 0 (1 / INR H * pi_2) u) u V) ->
      exists w, In w (cone_verts (fun u v => cone_vertex d (co_height d * (1 / 2)) H V (at_angle 0 (1 / INR H * pi_2) u) u v) (cone_tip (co_height d * (1 / 2)) H) H V) /\ P w).
    { intros u P A B. eexists. split; [|exact B]. apply (cone_has (fun u v => cone_vertex d (co_height d * (1 / 2)) H V (at_angle 0 (1 / INR H * pi_2) u) u v)); lia. }
    split; [|split; [|split; [|split; [|split]]]].
    + apply (E (H - (H + 1) / 4)%nat); [lia|]. rewrite angle_turn by lia. unfold mantle_vertex, cone_vertex. cbn [position vx vy vz vopp lerp3 vadd vscale vsub]. rewrite frac_n, across_hit_low by lia. ring.
    + apply (E ((H + 1) / 4)%nat); [lia|]. rewrite angle_turn by lia. unfold mantle_vertex, cone_vertex. cbn [position vx vy vz vopp lerp3 vadd vscale vsub]. rewrite frac_n, across_hit by lia. ring.
    + apply (E 0%nat); [lia|]. cbn. rewrite frac_n by lia. field.
    + exists (cone_tip (co_height d * (1 / 2)) H 0). split; [|cbn; field]. unfold cone_verts. apply in_flat_map. exists 0%nat. split; [apply in_seq; lia|].
      apply in_or_app. right. destruct (Nat.ltb_spec 0 H); [left; reflexivity|lia].
    + apply (E (H / 2)%nat); [lia|]. rewrite angle_turn by lia. unfold mantle_vertex, cone_vertex. cbn [position vx vy vz vopp lerp3 vadd vscale vsub]. rewrite frac_n, backwards_hit by lia. ring.
    + apply (E 0%nat); [lia|]. rewrite angle_turn by lia. unfold mantle_vertex, cone_vertex. cbn [position vx vy vz vopp lerp3 vadd vscale vsub]. rewrite frac_n, cos_0_hit by lia. ring.
Qed.

Lemma half_circle V v : (0 < V)%nat -> (v <= V)%nat -> 0 <= sin (turn v (2 * V)) <= across (2 * V).
Proof.
  intros V0 Hv. split; [|apply across_ub; lia]. apply lt_0_INR in V0. apply le_INR in Hv. pose proof (pos_INR v). pose proof PI_RGT_0.
  replace (turn v (2 * V)) with (PI * (INR v / INR V)) by (unfold turn; rewrite mult_INR; cbn [INR]; field; lra).
  assert (0 <= INR v / INR V <= 1) by (split; [apply Rmult_le_pos; [lra|left; now apply Rinv_0_lt_compat]|apply Rmult_le_reg_r with (INR V); [lra|]; unfold Rdiv; rewrite Rmult_assoc, Rinv_l; lra]).
  apply sin_ge_0; nra.
Qed.
Lemma prod_bounds s S c a b r : 0 <= s <= S -> - a <= c <= b -> 0 <= a -> 0 <= b -> 0 <= r -> - (S * a * r) <= s * c * r <= S * b * r.
Proof.
  intros A C Ha Hb Hr. assert (- (S * a) <= s * c <= S * b) by (split; nra). split; nra.
Qed.
Lemma ellipsoid_spans d : sized (DEllipsoid d) -> spans (lowest (DEllipsoid d)) (highest (DEllipsoid d)) (flat_map pv (ellipsoid_pieces d)).
Proof.
  cbn [sized]. intros (X & Y & Z). unfold ellipsoid_pieces. cbn zeta. cbn [flat_map pv]. rewrite app_nil_r.
  unfold lowest, highest, extent. cbn zeta. set (U := Nat.max 3 (el_u d)). set (V := Nat.max 2 (el_v d)).
  assert (U3 : (3 <= U)%nat) by (subst U; lia). assert (V2 : (2 <= V)%nat) by (subst V; lia). clearbody U V.
  assert (P : forall v u, position (ellipsoid_vertex d U V v u) = V3 (sin (turn v (2 * V)) * cos (turn u U) * vx (el_radius d))
    (cos (turn v (2 * V)) * vy (el_radius d)) (sin (turn v (2 * V)) * sin (turn u U) * vz (el_radius d))).
  { intros. unfold ellipsoid_vertex. cbn [position]. rewrite frac_half, frac_turn by lia. reflexivity. }
  pose proof (across_pos U ltac:(lia)). pose proof (backwards_pos U ltac:(lia) ltac:(lia)).
  split.
  - intros w I. apply in_grid_verts in I. destruct I as (v & u & Hv & Hu & ->). rewrite P. unfold inside. cbn [vx vy vz vopp].
    pose proof (half_circle V v ltac:(lia) Hv). pose proof (COS_bound (turn v (2 * V))). pose proof (COS_bound (turn u U)).
    pose proof (prod_bounds _ _ _ (backwards U) 1 _ H1 (conj (backwards_lb U ltac:(lia) u ltac:(lia) Hu) (proj2 H3)) (proj1 H0) Rle_0_1 X).
    pose proof (prod_bounds _ _ _ (across U) (across U) _ H1 (conj (across_lb U ltac:(lia) u Hu) (across_ub U ltac:(lia) u Hu)) (proj1 H) (proj1 H) Z).
    assert (- vy (el_radius d) <= cos (turn v (2 * V)) * vy (el_radius d) <= vy (el_radius d)) by (clear - H2 Y; split; nra). repeat split; lra.
  - pose proof (quarter_le U ltac:(lia)) as Q. pose proof (half_le U ltac:(lia)) as Q2.
    assert (Q3 : ((2 * V + 1) / 4 <= V)%nat) by (apply Nat.div_le_upper_bound; lia).
    assert (E : forall v u (T : vertex -> Prop), (v <= V)%nat -> (u <= U)%nat -> T (ellipsoid_vertex d U V v u) ->
      exists w, In w (grid_verts (ellipsoid_vertex d U V) V U) /\ T w).
    { intros v u T A B C. eexists. split; [|exact C]. apply grid_has; assumption. }
    split; [|split; [|split; [|split; [|split]]]].
    + apply (E ((2 * V + 1) / 4)%nat (U / 2)%nat); [lia|lia|]. rewrite P. cbn [vx vopp]. rewrite across_hit, backwards_hit by lia. ring.
    + apply (E ((2 * V + 1) / 4)%nat 0%nat); [lia|lia|]. rewrite P. cbn [vx vopp]. rewrite across_hit, cos_0_hit by lia. ring.
    + apply (E V 0%nat); [lia|lia|]. rewrite P. cbn [vy vopp]. replace (turn V (2 * V)) with PI; [rewrite cos_PI; ring|].
      unfold turn. rewrite mult_INR. cbn [INR]. field. apply not_0_INR. lia.
    + apply (E 0%nat 0%nat); [lia|lia|]. rewrite P. cbn [vy vopp]. rewrite cos_0_hit by lia. ring.
    + apply (E ((2 * V + 1) / 4)%nat (U - (U + 1) / 4)%nat); [lia|lia|]. rewrite P. cbn [vz vopp]. rewrite across_hit, across_hit_low by lia. ring.
    + apply (E ((2 * V + 1) / 4)%nat ((U + 1) / 4)%nat); [lia|lia|]. rewrite P. cbn [vz vopp]. rewrite !across_hit by lia. ring.
Qed.

Lemma cap_pos d half side H C v u : (0 < H)%nat -> side = 1 \/ side = -1 ->
  position (cap_vertex d half side H C v u) = V3 (- (sin (frac v C * pi_0_5) * (side * sin (turn u H)) * vx (ca_radius d)))
    (cos (frac v C * pi_0_5) * side * vy (ca_radius d) + half * side) (sin (frac v C * pi_0_5) * cos (turn u H) * vz (ca_radius d)).
Proof.
  intros H0 S. unfold cap_vertex. cbn [position]. rewrite frac_turn by assumption. unfold spherical, vmul. cbn [vx vy vz].
  replace (turn u H * side + pi_0_5) with (side * turn u H + PI / 2) by (unfold pi_0_5; field).
  assert (A : cos (side * turn u H + PI / 2) = - (side * sin (turn u H)) /\ sin (side * turn u H + PI / 2) = cos (turn u H)).
  { rewrite cos_plus, sin_plus, cos_PI2, sin_PI2. destruct S as [-> | ->]; [rewrite !Rmult_1_l; lra|].
    replace (-1 * turn u H) with (- turn u H) by ring. rewrite sin_neg, cos_neg. lra. }
  destruct A as [-> ->]. f_equal; ring.
Qed.
Lemma capsule_spans d : sized (DCapsule d) -> spans (lowest (DCapsule d)) (highest (DCapsule d)) (flat_map pv (capsule_pieces d)).
Proof.
  cbn [sized]. intros (X & Y & Z & Hh). unfold capsule_pieces. cbn zeta. cbn [flat_map]. rewrite app_nil_r. cbn [pv mantle_piece].
  unfold lowest, highest, extent. cbn zeta. set (H := Nat.max 3 (ca_u d)). set (V := Nat.max 1 (ca_v d)). set (C := Nat.max 2 (ca_cap d)).
  assert (H3 : (3 <= H)%nat) by (subst H; lia). assert (V1 : (0 < V)%nat) by (subst V; lia). assert (C2 : (2 <= C)%nat) by (subst C; lia). clearbody H V C.
  pose proof (across_pos H ltac:(lia)). pose proof (backwards_pos H ltac:(lia) ltac:(lia)).
  assert (Cap : forall side v u, side = 1 \/ side = -1 -> (v <= C)%nat -> (u <= H)%nat ->
    inside (vopp (V3 (across H * vx (ca_radius d)) (ca_height d / 2 + vy (ca_radius d)) (backwards H * vz (ca_radius d))))
      (V3 (across H * vx (ca_radius d)) (ca_height d / 2 + vy (ca_radius d)) (vz (ca_radius d))) (position (cap_vertex d (ca_height d * (1 / 2)) side H C v u))).
  { intros side v u S Hv Hu. rewrite cap_pos by (lia || assumption). unfold inside. cbn. pose proof (frac_bounds v C Hv ltac:(lia)) as F.
    pose proof PI_RGT_0. assert (A : 0 <= frac v C * pi_0_5 <= PI / 2) by (unfold pi_0_5; nra). set (a := frac v C * pi_0_5) in *.
    assert (Sa : 0 <= sin a <= 1) by (split; [apply sin_ge_0; lra|apply SIN_bound]). assert (Ca : 0 <= cos a <= 1) by (split; [apply cos_ge_0; lra|apply COS_bound]).
    assert (SX : - across H <= side * sin (turn u H) <= across H).
    { pose proof (across_lb H ltac:(lia) u Hu). pose proof (across_ub H ltac:(lia) u Hu). destruct S as [-> | ->]; lra. }
    pose proof (prod_bounds _ _ _ _ _ _ Sa SX (proj1 H0) (proj1 H0) X) as PX.
    pose proof (prod_bounds _ _ _ _ _ _ Sa (conj (backwards_lb H ltac:(lia) u ltac:(lia) Hu) (proj2 (COS_bound (turn u H)))) (proj1 H1) Rle_0_1 Z) as PZ.
    pose proof (part_of _ _ Ca Y).
    assert (cos a * side * vy (ca_radius d) = side * (cos a * vy (ca_radius d))) by ring.
    destruct S as [-> | ->]; repeat split; lra. }
  split.
  - intros w I. apply in_app_or in I. destruct I as [I|I]; [|apply in_app_or in I; destruct I as [I|I]]; apply in_grid_verts in I; destruct I as (i & j & Hi & Hj & ->).
    + pose proof (mantle_inside _ _ _ 1 H V i j _ _ H3 V1 Hi Hj (conj X (Rle_refl _)) (conj Z (Rle_refl _)) Hh) as M. revert M. unfold inside, ring_box. cbn. intros; repeat split; lra.
    + apply Cap; tauto.
    + apply Cap; tauto.
  - destruct (mantle_touches (vx (ca_radius d)) (vz (ca_radius d)) (ca_height d) 1 H V H3 V1) as (A & B & _ & _ & E & F).
    set (g := grid_verts _ H V) in *. assert (W : forall P : vertex -> Prop, (exists v, In v g /\ P v) ->
      exists v, In v (g ++ grid_verts (cap_vertex d (ca_height d * (1 / 2)) 1 H C) C H ++ grid_verts (cap_vertex d (ca_height d * (1 / 2)) (-1) H C) C H) /\ P v).
    { intros P (v & I & Q). exists v. split; [apply in_or_app; left; exact I|exact Q]. }
    split; [|split; [|split; [|split; [|split]]]].
    + apply W. exact A.
    + apply W. exact B.
    + exists (cap_vertex d (ca_height d * (1 / 2)) (-1) H C 0 0). split; [apply in_or_app; right; apply in_or_app; right; apply grid_has; lia|].
      rewrite cap_pos by (lia || tauto). cbn [vy vopp]. rewrite frac_0. rewrite Rmult_0_l, cos_0. field.
    + exists (cap_vertex d (ca_height d * (1 / 2)) 1 H C 0 0). split; [apply in_or_app; right; apply in_or_app; left; apply grid_has; lia|].
      rewrite cap_pos by (lia || tauto). cbn [vy vopp]. rewrite frac_0. rewrite Rmult_0_l, cos_0. field.
    + apply W. exact E.
    + apply W. exact F.
Qed.

Lemma torus_spans d : sized (DTorus d) -> spans (lowest (DTorus d)) (highest (DTorus d)) (flat_map pv (torus_pieces d)).
Proof.
  cbn [sized]. intros (X & Y & Z). unfold torus_pieces. cbn zeta. cbn [flat_map pv]. rewrite app_nil_r.
  unfold lowest, highest, extent. cbn zeta. set (U := Nat.max 3 (to_u d)). set (V := Nat.max 3 (to_v d)).
  assert (U3 : (3 <= U)%nat) by (subst U; lia). assert (V3' : (3 <= V)%nat) by (subst V; lia). clearbody U V.
  assert (P : forall v u, position (torus_vertex d U V v u) = V3 (sin (turn u U) * (x2 (to_ring d) + sin (turn v V) * vx (to_tube d)))
    (cos (turn v V) * vy (to_tube d)) (cos (turn u U) * (y2 (to_ring d) + sin (turn v V) * vz (to_tube d)))).
  { intros. unfold torus_vertex. cbn [position]. rewrite !frac_turn by lia. f_equal; ring. }
  pose proof (across_pos U ltac:(lia)) as AU. pose proof (backwards_pos U ltac:(lia) ltac:(lia)) as BU.
  pose proof (across_pos V ltac:(lia)) as AV. pose proof (backwards_pos V ltac:(lia) ltac:(lia)) as BV.
  split.
  - intros w I. apply in_grid_verts in I. destruct I as (v & u & Hv & Hu & ->). rewrite P. unfold inside. cbn [vx vy vz vopp].
    pose proof (across_lb V ltac:(lia) v Hv) as LV. pose proof (across_ub V ltac:(lia) v Hv) as UV. pose proof (SIN_bound (turn v V)) as SV.
    pose proof (across_lb U ltac:(lia) u Hu) as LU. pose proof (across_ub U ltac:(lia) u Hu) as UU.
    pose proof (backwards_lb V ltac:(lia) v ltac:(lia) Hv) as MV. pose proof (backwards_lb U ltac:(lia) u ltac:(lia) Hu) as MU.
    pose proof (COS_bound (turn v V)) as CV. pose proof (COS_bound (turn u U)) as CU.
    assert (WX : 0 <= x2 (to_ring d) + sin (turn v V) * vx (to_tube d) <= x2 (to_ring d) + across V * vx (to_tube d)) by (split; nra).
    assert (WZ : 0 <= y2 (to_ring d) + sin (turn v V) * vz (to_tube d) <= y2 (to_ring d) + across V * vz (to_tube d)) by (split; nra).
    set (wx := x2 (to_ring d) + sin (turn v V) * vx (to_tube d)) in *. set (wz := y2 (to_ring d) + sin (turn v V) * vz (to_tube d)) in *.
    set (hx := x2 (to_ring d) + across V * vx (to_tube d)) in *. set (hz := y2 (to_ring d) + across V * vz (to_tube d)) in *.
    assert (- (backwards V * vy (to_tube d)) <= cos (turn v V) * vy (to_tube d) <= vy (to_tube d)) by (split; nra).
    assert (- (across U * hx) <= sin (turn u U) * wx <= across U * hx) by (split; nra).
    assert (- (backwards U * hz) <= cos (turn u U) * wz <= hz) by (split; nra).
    repeat split; lra.
  - pose proof (quarter_le U ltac:(lia)) as Q. pose proof (half_le U ltac:(lia)) as Q2. pose proof (quarter_le V ltac:(lia)) as Q3. pose proof (half_le V ltac:(lia)) as Q4.
    assert (E : forall v u (T : vertex -> Prop), (v <= V)%nat -> (u <= U)%nat -> T (torus_vertex d U V v u) ->
      exists w, In w (grid_verts (torus_vertex d U V) V U) /\ T w).
    { intros v u T A B C. eexists. split; [|exact C]. apply grid_has; assumption. }
    split; [|split; [|split; [|split; [|split]]]].
    + apply (E ((V + 1) / 4)%nat (U - (U + 1) / 4)%nat); [lia|lia|]. rewrite P. cbn [vx vopp]. rewrite across_hit, across_hit_low by lia. ring.
    + apply (E ((V + 1) / 4)%nat ((U + 1) / 4)%nat); [lia|lia|]. rewrite P. cbn [vx vopp]. rewrite !across_hit by lia. ring.
    + apply (E (V / 2)%nat 0%nat); [lia|lia|]. rewrite P. cbn [vy vopp]. rewrite backwards_hit by lia. ring.
    + apply (E 0%nat 0%nat); [lia|lia|]. rewrite P. cbn [vy vopp]. rewrite cos_0_hit by lia. ring.
    + apply (E ((V + 1) / 4)%nat (U / 2)%nat); [lia|lia|]. rewrite P. cbn [vz vopp]. rewrite across_hit, backwards_hit by lia. ring.
    + apply (E ((V + 1) / 4)%nat 0%nat); [lia|lia|]. rewrite P. cbn [vz vopp]. rewrite across_hit, cos_0_hit by lia. ring.
Qed.

Lemma within_abs h y : 0 <= h -> within h y -> - (h / 2) <= y <= h / 2.
Proof. unfold within. intros A B. split; nra. Qed.
Lemma cuboid_spans d : sized (DCuboid d) -> spans (lowest (DCuboid d)) (highest (DCuboid d)) (flat_map pv (cuboid_pieces d)).
Proof.
  cbn [sized]. intros (X & Y & Z). split.
  - intros v I. destruct (cuboid_on d v I) as (A & B & C & _). unfold inside. cbn.
    apply within_abs in A; [|exact X]. apply within_abs in B; [|exact Y]. apply within_abs in C; [|exact Z]. repeat split; lra.
  - set (sx := vx (cu_size d)) in *. set (sy := vy (cu_size d)) in *. set (sz := vz (cu_size d)) in *.
    set (mx := Nat.max 1 (cu_x d)) in *. set (my := Nat.max 1 (cu_y d)) in *.
    assert (N : (0 < mx)%nat /\ (0 < my)%nat) by (subst mx my; lia). destruct N as [N1 N2].
    assert (F : forall i j (P : vertex -> Prop), (i <= my)%nat -> (j <= mx)%nat -> P (face_vertex qone sx sy (- sz / 2) mx my i j) ->
      exists v, In v (flat_map pv (cuboid_pieces d)) /\ P v).
    { intros i j P Hi Hj Q. eexists. split; [|exact Q]. unfold cuboid_pieces. cbn [flat_map]. apply in_or_app. left. cbn [pv]. apply grid_has; assumption. }
    assert (G : forall i j (P : vertex -> Prop), (i <= my)%nat -> (j <= mx)%nat -> P (face_vertex (euler_y PI) sx sy (- sz / 2) mx my i j) ->
      exists v, In v (flat_map pv (cuboid_pieces d)) /\ P v).
    { intros i j P Hi Hj Q. eexists. split; [|exact Q]. unfold cuboid_pieces. cbn [flat_map]. apply in_or_app. right. apply in_or_app. left. cbn [pv]. apply grid_has; assumption. }
    unfold lowest, highest, extent. cbn zeta. cbn [vopp vx vy vz]. fold sx sy sz.
    split; [|split; [|split; [|split; [|split]]]].
    + apply (F 0%nat 0%nat); [lia|lia|]. unfold face_vertex. cbn [position]. rewrite rot0, (frac_0 mx), (frac_0 my). cbn [vopp vx vy vz]. field.
    + apply (F 0%nat mx); [lia|lia|]. unfold face_vertex. cbn [position]. rewrite rot0, (frac_n mx) by assumption. cbn [vopp vx vy vz]. field.
    + apply (F 0%nat 0%nat); [lia|lia|]. unfold face_vertex. cbn [position]. rewrite rot0, (frac_0 mx), (frac_0 my). cbn [vopp vx vy vz]. field.
    + apply (F my 0%nat); [lia|lia|]. unfold face_vertex. cbn [position]. rewrite rot0, (frac_n my) by assumption. cbn [vopp vx vy vz]. field.
    + apply (F 0%nat 0%nat); [lia|lia|]. unfold face_vertex. cbn [position]. rewrite rot0. cbn. field.
    + apply (G 0%nat 0%nat); [lia|lia|]. unfold face_vertex. cbn [position]. rewrite rot_y, cos_PI, sin_PI. cbn. field.
Qed.

Lemma spans_holds d m m' : valid d -> sized d -> generate d m = Ok m' -> spans (lowest d) (highest d) (new_vertices m m').
Proof.
  intros W S G. rewrite (generate_result _ _ _ W G), new_vertices_result. destruct d; try (destruct S; fail); cbn [pieces].
  - apply cuboid_spans, S.
  - apply ellipsoid_spans, S.
  - apply cone_spans, S.
  - apply cylinder_spans, S.
  - apply pipe_spans, S.
  - apply capsule_spans, S.
  - apply torus_spans, S.
Qed.
