(** Triangles of spirals face outwards. *)
From Coq Require Import ZArith Reals List Bool Arith Lia Lra.
From Verif Require Import Model.Scalar Model.Vec Model.Aabb Model.Mesh Model.Interp Model.Bezier Model.Transforms Model.MeshGen Spec.MeshGenSpec Spec.SurfaceSpec
  Spec.WindingSpec Spec.ChartSpec Spec.NormalSpec Spec.SpiralSpec Proofs.VecLemmas Proofs.MeshGenLoops Proofs.MeshGenResult Proofs.MeshGenInv Proofs.MeshGenTotal Proofs.MeshGenMain Proofs.MeshGenSurface
  Proofs.MeshGenChains Proofs.MeshGenClosed Proofs.MeshGenWinding.
Import ListNotations.
Local Open Scope R_scope.

Section Tube.
Variables (d : spiral) (r Rg turns : R) (U V : nat).
Hypothesis HU : (3 <= U)%nat.
Hypothesis HV : (3 <= V)%nat.
Hypothesis B : 0 < r < Rg.
Hypothesis ET : sp_tube d = V3 r r r.
Hypothesis ER : sp_ring d = V2 Rg Rg.
Let f (i j : nat) := spiral_vertex d turns U V i j.
Let th := at_angle 0 (1 / INR V * pi_2).
Let ph := at_angle 0 (1 / INR U * pi_2).
Let lift (j : nat) := (frac j U - turns * (1 / 2)) * sp_displacement d.

Lemma spiral_position i j : position (f i j) = V3 (sin (ph j) * (Rg + r * sin (th i))) (r * cos (th i) + lift j) (cos (ph j) * (Rg + r * sin (th i))).
Proof.
  assert (TE : frac i V * pi_2 = th i) by (unfold frac, th, at_angle; ring). assert (PE : frac j U * pi_2 = ph j) by (unfold frac, ph, at_angle; ring).
  unfold f, spiral_vertex. rewrite ET, ER. cbn [position x2 y2 vx vy vz]. rewrite TE, PE. unfold lift. apply vec3_ext; cbn [vx vy vz]; ring.
Qed.
Lemma spiral_normal i j : normal (f i j) = V3 (sin (ph j) * sin (th i)) (cos (th i)) (cos (ph j) * sin (th i)).
Proof.
  assert (TE : frac i V * pi_2 = th i) by (unfold frac, th, at_angle; ring). assert (PE : frac j U * pi_2 = ph j) by (unfold frac, ph, at_angle; ring).
  unfold f, spiral_vertex. rewrite ET, ER. cbn [normal x2 y2 vx vy vz]. rewrite TE, PE.
  replace (V3 _ _ _) with (vscale (/ r) (V3 (sin (ph j) * sin (th i)) (cos (th i)) (cos (ph j) * sin (th i)))) by (apply vec3_ext; vecs; unfold Rdiv; ring).
  apply normalize_multiple; [apply Rinv_0_lt_compat; lra|]. vecs.
  replace (_ + _ + _) with (Rsqr (sin (th i)) * (Rsqr (sin (ph j)) + Rsqr (cos (ph j))) + Rsqr (cos (th i))) by (unfold Rsqr; ring).
  rewrite sin2_cos2, Rmult_1_r. apply sin2_cos2.
Qed.

(** The front is on the side of the two corners in the ring [k] *)
Lemma tube_front i j k i1 t : (k = j \/ k = j + 1)%nat -> (i1 = i \/ i1 = i + 1)%nat ->
  front t = cross (vsub (position (f (i + 1) k)) (position (f i k))) (vsub (position (f i1 (j + 1))) (position (f i1 j))) ->
  0 < dot (front t) (normal (f i k)) /\ 0 < dot (front t) (normal (f (i + 1) k)).
Proof.
  intros Hk Hi E. rewrite E, !spiral_position, !spiral_normal.
  pose proof (turn_det (ph j) (1 / INR U * pi_2)) as TP. pose proof (turn_det (th i) (1 / INR V * pi_2)) as TT.
  assert (NP : ph (j + 1)%nat = ph j + 1 / INR U * pi_2) by apply angle_next. assert (NT : th (i + 1)%nat = th i + 1 / INR V * pi_2) by apply angle_next.
  rewrite <- NP in TP. rewrite <- NT in TT. pose proof (SIN_bound (th i1)) as B0. pose proof (sin_full U HU) as SU. pose proof (sin_full V HV) as SV.
  assert (P : 0 < r * (Rg + r * sin (th i1)) * (sin (1 / INR U * pi_2) * sin (1 / INR V * pi_2))) by (assert (0 < Rg + r * sin (th i1)) by nra; products).
  assert (C : forall a b, a = r * (Rg + r * sin (th i1)) * (sin (1 / INR U * pi_2) * sin (1 / INR V * pi_2)) -> b = r * (Rg + r * sin (th i1)) * (sin (1 / INR U * pi_2) * sin (1 / INR V * pi_2)) -> 0 < a /\ 0 < b)
    by (intros; subst; now split).
  apply C; rewrite <- TP, <- TT; destruct Hk as [-> | ->]; clear; vecs; ring.
Qed.

Lemma tube_cell ac i j : Forall (faces_two normal) (map (tmap (fun l => f (fst l) (snd l))) (cell O3 ac i j)).
Proof.
  cbn [cell]. rewrite map_cut. cbn [fst snd].
  pose proof (tube_front i j j i (f i (j + 1), f i j, f (i + 1) j)%nat ltac:(auto) ltac:(auto)) as T1.
  pose proof (tube_front i j (j + 1) (i + 1) (f i (j + 1), f (i + 1) j, f (i + 1) (j + 1))%nat ltac:(auto) ltac:(auto)) as T2.
  pose proof (tube_front i j (j + 1) i (f i (j + 1), f i j, f (i + 1) (j + 1))%nat ltac:(auto) ltac:(auto)) as T3.
  pose proof (tube_front i j j (i + 1) (f i j, f (i + 1) j, f (i + 1) (j + 1))%nat ltac:(auto) ltac:(auto)) as T4.
  unfold cut. destruct (ac i j); repeat apply Forall_cons; try apply Forall_nil; unfold faces_two.
  - destruct T1 as [A C]; [unfold front; clear; apply vec3_ext; vecs; ring|auto].
  - destruct T2 as [A C]; [unfold front; clear; apply vec3_ext; vecs; ring|auto].
  - destruct T3 as [A C]; [unfold front; clear; apply vec3_ext; vecs; ring|auto].
  - destruct T4 as [A C]; [unfold front; clear; apply vec3_ext; vecs; ring|auto].
Qed.
Lemma tube_grid ac M C : Forall (faces_two normal) (map (tmap (fun l => f (fst l) (snd l))) (grid O3 ac M C)).
Proof. apply Forall_map_flat. intros i Hi. apply Forall_map_flat. intros j Hj. apply tube_cell. Qed.
End Tube.

Section Cover.
Variables (d : spiral) (r Rg turns phi side : R) (up : bool) (V K : nat).
Hypothesis HV : (3 <= V)%nat.
Hypothesis PK : (0 < K)%nat.
Hypothesis B : 0 < r.
Hypothesis ET : sp_tube d = V3 r r r.
Hypothesis ER : sp_ring d = V2 Rg Rg.
Let f (i j : nat) := if (j =? 0)%nat then spiral_center d turns phi side else spiral_cover_vertex d turns phi side up K (at_angle 0 (1 / INR V * pi_2) i) j.
Let th := at_angle 0 (1 / INR V * pi_2).
Let y := (phi / pi_2 - turns * (1 / 2)) * sp_displacement d.
Lemma cover_position i j : position (f i j) =
  V3 (sin phi * (Rg + frac j K * (r * sin (th i)))) (y + frac j K * (r * cos (th i))) (cos phi * (Rg + frac j K * (r * sin (th i)))).
Proof.
  unfold f. destruct (j =? 0)%nat eqn:J.
  - apply Nat.eqb_eq in J. subst j. unfold spiral_center, cover_coord, frac. cbn [position]. rewrite ER. cbn [x2 y2 INR]. fold y. apply vec3_ext; cbn [vx vy vz]; ring.
  - unfold spiral_cover_vertex, cover_coord, lerp3, lerp. cbn [position]. rewrite ER, ET. cbn [x2 y2 vx vy vz]. fold y. fold th. apply vec3_ext; vecs; ring.
Qed.
Lemma cover_trap N i j : (j < K)%nat -> (forall i' j', 0 < (if up then 1 else -1) * dot (V3 (cos phi) 0 (- sin phi)) (N (f i' j'))) ->
  cell_trap N f (if up then O1 else O0) i j.
Proof.
  intros Hj NY. pose proof (inv_pos K PK) as IK. pose proof (sin_full V HV) as SV.
  assert (F : 0 <= frac j K <= 1) by (apply frac_bounds; lia). assert (F' : 0 <= frac (j + 1) K <= 1) by (apply frac_bounds; lia).
  pose proof (turn_det (th i) (1 / INR V * pi_2)) as TT. assert (NT : th (i + 1)%nat = th i + 1 / INR V * pi_2) by apply angle_next. rewrite <- NT in TT.
  set (s := sin (th i)) in *. set (c := cos (th i)) in *. set (s' := sin (th (i + 1)%nat)) in *. set (c' := cos (th (i + 1)%nat)) in *.
  apply (trap_all N up f i j (V3 (sin phi * (r * (s' - s))) (r * (c' - c)) (cos phi * (r * (s' - s)))) (V3 (1 / INR K * (sin phi * (r * s))) (1 / INR K * (r * c)) (1 / INR K * (cos phi * (r * s))))
    (frac j K) (frac (j + 1) K) false); [lra|lra| | | |].
  1-3: cbn zeta beta iota; rewrite !cover_position; rewrite ?(frac_next j); fold s c s' c'; apply vec3_ext; vecs; ring.
  right. intros i' j' _ _. specialize (NY i' j'). value (1 / INR K * (r * r) * sin (1 / INR V * pi_2) * ((if up then 1 else -1) * dot (V3 (cos phi) 0 (- sin phi)) (N (f i' j')))).
  rewrite <- TT. vecs. ring.
Qed.
End Cover.

Lemma cover_faces N d r Rg turns phi side (up : bool) V K : (3 <= V)%nat -> (0 < K)%nat -> 0 < r -> sp_tube d = V3 r r r -> sp_ring d = V2 Rg Rg ->
  (forall v, normal v = vscale side (cover_normal phi) -> 0 < (if up then 1 else -1) * dot (V3 (cos phi) 0 (- sin phi)) (N v)) ->
  patch_faces N (spiral_patch d up turns phi side V K).
Proof.
  intros HV PK B ET ER NY. unfold patch_faces, spiral_patch. cbn [p_tris p_at].
  apply (disc_faces N (fun i j => if (j =? 0)%nat then spiral_center d turns phi side else spiral_cover_vertex d turns phi side up K (at_angle 0 (1 / INR V * pi_2) i) j)); [assumption|reflexivity|].
  intros i j Hi Hj. apply (cover_trap d r Rg); try assumption. intros i' j'. apply NY. destruct (j' =? 0)%nat; reflexivity.
Qed.
Lemma cover_lies d turns phi side (up : bool) V K l : turns = Rmax 0 (sp_turns d) ->
  lies_on (section_part d phi (if up then -1 else 1)) (p_at (spiral_patch d up turns phi side V K) l).
Proof.
  intros ->. pose proof PI_RGT_0. unfold spiral_patch. cbn [p_at]. destruct (snd l =? 0)%nat.
  - unfold lies_on, section_part, spiral_center, cover_coord, pi_2. cbn zeta. cbn [position tex_coord x2 y2 vx vy vz]. destruct up; f_equal; field; lra.
  - unfold lies_on, section_part, spiral_cover_vertex, cover_coord, pi_2, lerp3, lerp. cbn zeta. cbn [position tex_coord x2 y2 vx vy vz]. vecs. destruct up; f_equal; field; lra.
Qed.

Theorem spiral_winding d r Rg m m' : valid (DSpiral d) -> (Z.of_nat (vertex_count (DSpiral d)) <= 2 ^ 32)%Z -> 0 < r < Rg -> sp_tube d = V3 r r r -> sp_ring d = V2 Rg Rg ->
  generate (DSpiral d) m = Ok m' ->
  let top := 2 * PI * Rmax 0 (sp_turns d) in
  forall t, In t (new_triangles m m') -> exists c, corners m' t = Some c /\
    (faces_two normal c \/ faces normal c \/ (all_corners (lies_on (section_part d top (-1))) c /\ faces (fun _ => V3 (cos top) 0 (- sin top)) c)).
Proof.
  intros W L B ET ER G top t Ht. pose proof (indices_hold _ m m' W L G) as E. apply (in_map (corners m')) in Ht. rewrite E in Ht.
  apply in_map_iff in Ht. destruct Ht as (c & Ec & Hc). exists c. split; [now symmetry|]. clear Ec E G.
  unfold surface in Hc. apply in_flat_map in Hc. destruct Hc as (p & Hp & Hc). cbn [patches] in Hp. cbn zeta in Hp. destruct Hp as [<-|Hp].
  - left. cbn [p_tris p_at] in Hc. revert Hc. apply Forall_forall. apply (tube_grid d r Rg); try assumption; lia.
  - apply in_app_or in Hp. destruct Hp as [Hp|Hp].
    + destruct (0 <? sp_bottom d)%nat eqn:K; [|destruct Hp]. destruct Hp as [<-|[]]. apply Nat.ltb_lt in K. right; left. revert Hc. apply Forall_forall.
      apply (cover_faces normal d r Rg); try assumption; try lia; try lra. intros v ->. unfold cover_normal. vecs. rewrite cos_0, sin_0. lra.
    + destruct (0 <? sp_top d)%nat eqn:K; [|destruct Hp]. destruct Hp as [<-|[]]. apply Nat.ltb_lt in K. right; right.
      replace (Rmax 0 (sp_turns d) * pi_2) with top in Hc by (unfold top, pi_2; ring). split.
      * apply in_map_iff in Hc. destruct Hc as (((a & b) & e) & <- & _). cbn [tmap all_corners]. repeat split; now apply (cover_lies d _ _ _ true).
      * revert Hc. apply Forall_forall. apply (cover_faces _ d r Rg); try assumption; try lia; try lra. intros v _. vecs. pose proof (sin2_cos2 top) as Q. unfold Rsqr in Q. nra.
Qed.

(** With a large displacement the third corner can be on the other side. *)
Definition steep_spiral : spiral := mkSpiral (V2 2 2) (V3 1 1 1) (-20) 1 4 4 0 0 false.
Lemma steep_segments : spiral_segments steep_spiral = 4%nat.
Proof.
  unfold spiral_segments. cbn [steep_spiral sp_turns sp_u]. rewrite Rmax_right by lra. replace (1 * INR (Nat.max 3 4)) with (IZR 4) by (cbn; lra).
  replace (Int_part (IZR 4)) with 4%Z; [reflexivity|]. unfold Int_part. pose proof (up_tech (IZR 4) 4 (Rle_refl _) ltac:(apply IZR_lt; lia)). lia.
Qed.
Lemma steep_ok : valid (DSpiral steep_spiral) /\ defined (DSpiral steep_spiral) /\ (Z.of_nat (vertex_count (DSpiral steep_spiral)) < 2 ^ 32)%Z.
Proof.
  split; [intros n; cbn [steep_spiral segment_counts sp_u sp_v sp_top sp_bottom In]; lia|]. split.
  - cbn [defined steep_spiral sp_turns sp_u]. rewrite Rmax_right by lra. replace (INR (Nat.max 3 4)) with 4 by (cbn; lra). apply Rlt_trans with (IZR 5); [lra|]. apply IZR_lt. reflexivity.
  - cbn [vertex_count]. rewrite steep_segments. vm_compute. reflexivity.
Qed.
Theorem spiral_steep : exists d m m' t c, valid (DSpiral d) /\ sp_tube d = V3 1 1 1 /\ sp_ring d = V2 2 2 /\ generate (DSpiral d) m = Ok m' /\
  In t (new_triangles m m') /\ corners m' t = Some c /\ dot (front c) (normal (snd (fst c))) < 0.
Proof.
  destruct steep_ok as (W & D & S). destruct (succeeds_holds _ (mkMesh [] []) W D S) as [m' G].
  pose proof (indices_hold _ (mkMesh [] []) m' W ltac:(unfold MeshGenIdeal.fits; lia) G) as E.
  set (q := fun i j => spiral_vertex steep_spiral 1 4 4 i j). set (c := (q 0%nat 1%nat, q 1%nat 0%nat, q 1%nat 1%nat)).
  assert (Hc : In c (surface (DSpiral steep_spiral))).
  { unfold surface. cbn [patches flat_map]. apply in_or_app. left. cbn zeta. rewrite steep_segments. cbn [p_tris p_at steep_spiral sp_turns sp_u sp_v sp_alt]. rewrite Rmax_right by lra.
    right. left. reflexivity. }
  apply (in_map Some) in Hc. rewrite <- E in Hc. apply in_map_iff in Hc. destruct Hc as (t & Ht & It).
  exists steep_spiral, (mkMesh [] []), m', t, c. do 6 (split; [first [exact W|reflexivity|assumption]|]). unfold c. cbn [fst snd]. unfold front, q.
  rewrite (spiral_normal _ 1 2), !(spiral_position _ 1 2); try reflexivity; try lra.
  assert (A0 : at_angle 0 (1 / INR 4 * pi_2) 0 = 0) by apply angle_0.
  assert (A1 : at_angle 0 (1 / INR 4 * pi_2) 1 = PI / 2) by (unfold at_angle, pi_2; cbn [INR]; field).
  rewrite A0, A1, sin_0, cos_0, sin_PI2, cos_PI2. unfold frac. cbn [steep_spiral sp_displacement INR]. vecs. lra.
Qed.
