(** Which triangles of tubes around closed curves face outwards. *)
From Coq Require Import ZArith Reals List Bool Arith Lia Lra.
From Verif Require Import Model.Scalar Model.Vec Model.Aabb Model.Mesh Model.Interp Model.Bezier Model.Transforms Model.MeshGen Spec.MeshGenSpec
  Spec.CurveSpec Spec.WindingSpec Spec.SpiralSpec Proofs.VecLemmas Proofs.MeshGenLoops Proofs.MeshGenResult Proofs.MeshGenInv Proofs.MeshGenTotal Proofs.MeshGenMain Proofs.MeshGenSurface
  Proofs.MeshGenIdeal Proofs.MeshGenWinding Proofs.MeshGenTexture Proofs.MeshGenCurve.
From Verif Require Proofs.PlaneLemmas.
Import ListNotations.
Local Open Scope R_scope.

Lemma rotated_form s a : slanted s -> rotate_around (first_normal s) (normalize s) a = vadd (vscale (cos a) (first_normal s)) (vscale (sin a) (cross (normalize s) (first_normal s))).
Proof.
  intros H. destruct (first_normal_facts s H) as (N & P). assert (P' : dot (normalize s) (first_normal s) = 0) by (rewrite <- P; unfold dot; ring).
  unfold rotate_around. rewrite P'. unfold vadd, vscale. cbn [vx vy vz]. f_equal; ring.
Qed.
Lemma rotated_cross s a b : slanted s ->
  cross (rotate_around (first_normal s) (normalize s) a) (rotate_around (first_normal s) (normalize s) b) = vscale (sin (b - a)) (normalize s).
Proof.
  intros H. rewrite !rotated_form by assumption. destruct (unit_slanted s H) as (U & S & E). destruct (first_normal_facts s H) as (N & P). set (t := normalize s) in *. set (n := first_normal s) in *.
  clearbody t n. replace (cross _ _) with (vscale (sin b * cos a - cos b * sin a) (vsub (vscale (dot n n) t) (vscale (dot n t) n))) by (clear; apply vec3_ext; vecs; ring).
  rewrite N, P, <- sin_minus. clear. apply vec3_ext; vecs; ring.
Qed.

(** A triangle with two corners in a ring *)
Lemma ring_front p q x r k t C : position p = vadd C (vscale r (normal p)) -> position q = vadd C (vscale r (normal q)) -> cross (normal p) (normal q) = vscale k t ->
  dot (front (p, q, x)) (normal p) = r * k * dot (vsub (position x) (position p)) t /\ dot (front (p, q, x)) (normal q) = r * k * dot (vsub (position x) (position q)) t.
Proof.
  intros P Q K. assert (F : forall e, r * dot (cross (normal p) (normal q)) e = r * k * dot e t) by (intros; rewrite K; vecs; ring).
  split; rewrite <- F; unfold front; rewrite P, Q; clear; vecs; ring.
Qed.
Lemma front_turn a b c : front (b, c, a) = front (a, b, c).
Proof. unfold front. apply vec3_ext; vecs; ring. Qed.
Lemma same_front c a b x : same_triangle c (a, b, x) -> front c = front (a, b, x).
Proof. intros [-> | [-> | ->]]; [reflexivity|apply front_turn|]. rewrite <- front_turn. reflexivity. Qed.
Lemma front_back a b c : front (b, a, c) = vopp (front (a, b, c)).
Proof. unfold front. apply vec3_ext; vecs; ring. Qed.
Lemma front_flat a b c : position a = position b -> front (a, b, c) = vzero.
Proof. intros E. unfold front. rewrite E. apply vec3_ext; vecs; ring. Qed.

Section Tube.
Variables (d : curve_desc) (f : R -> vec3).
Let U := Nat.max 3 (cv_u d).
Let V := Nat.max 3 (cv_v d).
Hypothesis CL : closed_curve f.
Hypothesis NM : cv_modifier d = None.
Hypothesis SL : forall u, (u + 1 < U)%nat -> slanted (step_from f U u).
Let g (u v : nat) := curve_vertex d f U V u v.
(** The step at a ring *)
Let st (u : nat) := step_from f U (u mod (U - 1)).

Lemma st_slanted u : slanted (st u).
Proof. apply SL. assert (u mod (U - 1) < U - 1)%nat by (apply Nat.mod_upper_bound; unfold U; lia). lia. Qed.
Lemma wrapped_st u : (u < U)%nat -> wrapped_step f U u = st u.
Proof.
  intros Hu. unfold st. destruct (Nat.eq_dec u (U - 1)) as [->|N].
  - rewrite Nat.mod_same by (unfold U; lia). apply step_last; [assumption|unfold U; lia].
  - rewrite Nat.mod_small by lia. apply step_closed; [assumption|unfold U; lia|lia].
Qed.
Lemma normal_g u v : (u < U)%nat -> normal (g u v) = rotate_around (first_normal (st u)) (normalize (st u)) (INR v / INR (V - 1) * pi_2).
Proof.
  intros Hu. unfold g, curve_vertex. cbn zeta. cbn [normal]. unfold curve_normal. cbn zeta. unfold curve_tangent.
  change (vsub (curve_sample f ?U ?a) (curve_sample f ?U ?b)) with (vsub (ring_at f U a) (ring_at f U b)). fold (wrapped_step f U u). rewrite (wrapped_st u Hu). reflexivity.
Qed.
Lemma position_g u v : position (g u v) = vadd (ring_at f U u) (vscale (cv_radius d) (normal (g u v))).
Proof. unfold g, curve_vertex. cbn zeta. cbn [position normal]. rewrite NM. reflexivity. Qed.
Lemma cross_g u v : (u < U)%nat -> cross (normal (g u v)) (normal (g u (v + 1))) = vscale (sin (2 * PI / INR (V - 1))) (normalize (st u)).
Proof.
  intros Hu. rewrite !normal_g by assumption. rewrite rotated_cross by apply st_slanted. do 2 f_equal. rewrite plus_INR. cbn [INR]. unfold pi_2. field. apply not_0_INR. unfold V. lia.
Qed.
Lemma seam_v u : (u < U)%nat -> position (g u 0) = position (g u (V - 1)).
Proof.
  intros Hu. rewrite !position_g. do 2 f_equal. rewrite !normal_g by assumption. rewrite last_ratio by (unfold V; lia). cbn [INR]. replace (0 / INR (V - 1) * pi_2) with 0 by (unfold Rdiv; ring).
  rewrite !rotated_form by apply st_slanted. replace (1 * pi_2) with (2 * PI) by (unfold pi_2; ring). rewrite sin_0, cos_0, sin_2PI, cos_2PI. reflexivity.
Qed.
Lemma seam_u v : position (g (U - 1) v) = position (g 0 v).
Proof.
  rewrite !position_g. rewrite !normal_g by (unfold U; lia). unfold st. rewrite Nat.mod_same, Nat.mod_0_l by (unfold U; lia). f_equal.
  unfold ring_at. rewrite last_ratio by (unfold U; lia). cbn [INR]. replace (0 / INR (U - 1)) with 0 by (unfold Rdiv; ring). symmetry. exact CL.
Qed.

Definition ring_corner (u : nat) (w : vertex) : Prop := exists v, (v < V)%nat /\ w = g u v.
Definition tube_triangle (c : vertex * vertex * vertex) : Prop :=
  front c = vzero \/ exists u u' p q x sg, (u < U)%nat /\ (u' < U)%nat /\ ring_corner u p /\ ring_corner u q /\ ring_corner u' x /\ same_triangle c (p, q, x) /\
    (u' = (u + 1)%nat /\ sg = 1 \/ u = (u' + 1)%nat /\ sg = -1) /\
    dot (front c) (normal p) = sg * (cv_radius d * sin (2 * PI / INR (V - 1)) * dot (vsub (position x) (position p)) (normalize (st u))) /\
    dot (front c) (normal q) = sg * (cv_radius d * sin (2 * PI / INR (V - 1)) * dot (vsub (position x) (position q)) (normalize (st u))).
Lemma ahead_triangle u v x c : (u + 1 < U)%nat -> (v + 1 < V)%nat -> ring_corner (u + 1) x -> same_triangle c (g u v, g u (v + 1), x) -> tube_triangle c.
Proof.
  intros Hu Hv X S. right. exists u, (u + 1)%nat, (g u v), (g u (v + 1)%nat), x, 1. split; [lia|]. split; [lia|]. split; [exists v; split; [lia|reflexivity]|]. split; [exists (v + 1)%nat; split; [lia|reflexivity]|].
  split; [assumption|]. split; [assumption|]. split; [auto|]. rewrite !Rmult_1_l.
  assert (F : front c = front (g u v, g u (v + 1)%nat, x)) by now apply same_front.
  rewrite F. apply (ring_front _ _ _ _ _ _ (ring_at f U u)); [apply position_g|apply position_g|apply cross_g; lia].
Qed.
Lemma behind_triangle u v x c : (u + 1 < U)%nat -> (v + 1 < V)%nat -> ring_corner u x -> same_triangle c (g (u + 1) (v + 1), g (u + 1) v, x) -> tube_triangle c.
Proof.
  intros Hu Hv X S. right. exists (u + 1)%nat, u, (g (u + 1)%nat (v + 1)%nat), (g (u + 1)%nat v), x, (-1). split; [lia|]. split; [lia|].
  split; [exists (v + 1)%nat; split; [lia|reflexivity]|]. split; [exists v; split; [lia|reflexivity]|].
  split; [assumption|]. split; [assumption|]. split; [auto|].
  assert (F : front c = vopp (front (g (u + 1)%nat v, g (u + 1)%nat (v + 1)%nat, x))) by (rewrite <- front_back; now apply same_front).
  rewrite F. destruct (ring_front (g (u + 1)%nat v) (g (u + 1)%nat (v + 1)%nat) x (cv_radius d) (sin (2 * PI / INR (V - 1))) (normalize (st (u + 1))) (ring_at f U (u + 1))) as [A B];
    [apply position_g|apply position_g|apply cross_g; lia|].
  assert (O : forall a b, dot (vopp a) b = -1 * dot a b) by (intros; vecs; ring). rewrite !O, A, B. split; reflexivity.
Qed.

Lemma tube_all : Forall tube_triangle (map (tmap (fun l => g (fst l) (snd l))) (tube (diagonal (cv_alt d)) U V)).
Proof.
  apply Forall_map_flat. intros u Hu. apply Forall_map_flat. intros v Hv. apply in_seq in Hu, Hv. rewrite map_cut. cbn [fst snd].
  unfold next. destruct (u + 1 <? U)%nat eqn:Eu; [apply Nat.ltb_lt in Eu|apply Nat.ltb_ge in Eu].
  - destruct (v + 1 <? V)%nat eqn:Ev; [apply Nat.ltb_lt in Ev|apply Nat.ltb_ge in Ev].
    + unfold cut. destruct (diagonal _ u v); repeat apply Forall_cons; try apply Forall_nil.
      * apply (ahead_triangle u v (g (u + 1) (v + 1))%nat); try assumption; [exists (v + 1)%nat; split; [lia|reflexivity]|unfold same_triangle; auto].
      * apply (behind_triangle u v (g u v)); try assumption; [exists v; split; [lia|reflexivity]|unfold same_triangle; auto].
      * apply (ahead_triangle u v (g (u + 1) v)%nat); try assumption; [exists v; split; [lia|reflexivity]|unfold same_triangle; auto].
      * apply (behind_triangle u v (g u (v + 1))%nat); try assumption; [exists (v + 1)%nat; split; [lia|reflexivity]|unfold same_triangle; auto].
    + assert (v = V - 1)%nat as -> by lia. pose proof (seam_v u ltac:(lia)) as S0. pose proof (seam_v (u + 1) ltac:(lia)) as S1.
      unfold cut. destruct (diagonal _ u _); repeat apply Forall_cons; try apply Forall_nil; left.
      * apply front_flat. now symmetry.
      * rewrite <- front_turn. now apply front_flat.
      * apply front_flat. now symmetry.
      * rewrite <- front_turn. now apply front_flat.
  - assert (u = U - 1)%nat as -> by lia.
    unfold cut. destruct (diagonal _ _ v); repeat apply Forall_cons; try apply Forall_nil; left.
    + rewrite <- front_turn. apply front_flat, seam_u.
    + rewrite <- front_turn, <- front_turn. apply front_flat. symmetry. apply seam_u.
    + rewrite <- front_turn, <- front_turn. apply front_flat. symmetry. apply seam_u.
    + apply front_flat, seam_u.
Qed.
End Tube.

Lemma tube_nth_at f U V u v : (u < U)%nat -> (v < V)%nat -> nth_error (tube_verts f U V) (u * V + v) = Some (f u v).
Proof. intros Hu Hv. unfold tube_verts. rewrite (flat_map_nth _ V) by (try lia; intros; rewrite map_length, seq_length; lia). rewrite map_seq_nth by lia. reflexivity. Qed.
Lemma curve_at d f m m' u v : let U := Nat.max 3 (cv_u d) in let V := Nat.max 3 (cv_v d) in valid (DCurve d) -> cv_curve d = Some f -> generate (DCurve d) m = Ok m' -> (u < U)%nat -> (v < V)%nat ->
  ring_vertex_at m m' V u v (curve_vertex d f U V u v).
Proof.
  cbn zeta. intros W C G Hu Hv. unfold ring_vertex_at. rewrite (generate_result _ _ _ W G), new_vertices_result. cbn [pieces]. unfold curve_pieces. cbn zeta. rewrite C.
  cbn [flat_map pv]. rewrite app_nil_r. now apply tube_nth_at.
Qed.

Theorem tube_winding d f m m' : let U := Nat.max 3 (cv_u d) in let V := Nat.max 3 (cv_v d) in let ring u w := exists v, (v < V)%nat /\ ring_vertex_at m m' V u v w in
  let unit_step u := let s := step_from f U (u mod (U - 1)) in vscale (/ len s) s in
  valid (DCurve d) -> (Z.of_nat (vertex_count (DCurve d)) <= 2 ^ 32)%Z -> cv_curve d = Some f -> closed_curve f -> cv_modifier d = None ->
  (forall u, (u + 1 < U)%nat -> slanted (step_from f U u)) -> generate (DCurve d) m = Ok m' ->
  forall t, In t (new_triangles m m') -> exists c, corners m' t = Some c /\
    (front c = vzero \/ exists u u' p q x sg, (u < U)%nat /\ (u' < U)%nat /\ ring u p /\ ring u q /\ ring u' x /\ same_triangle c (p, q, x) /\
      (u' = (u + 1)%nat /\ sg = 1 \/ u = (u' + 1)%nat /\ sg = -1) /\
      dot (front c) (normal p) = sg * (cv_radius d * sin (2 * PI / INR (V - 1)) * dot (vsub (position x) (position p)) (unit_step u)) /\
      dot (front c) (normal q) = sg * (cv_radius d * sin (2 * PI / INR (V - 1)) * dot (vsub (position x) (position q)) (unit_step u))).
Proof.
  cbn zeta. intros W L C CL NM SL G t Ht. pose proof (indices_hold _ m m' W L G) as E. apply (in_map (corners m')) in Ht. rewrite E in Ht.
  apply in_map_iff in Ht. destruct Ht as (c & Ec & Hc). exists c. split; [now symmetry|]. clear Ec E.
  pose proof (tube_all d f CL NM SL) as A. unfold surface in Hc. cbn [patches] in Hc. rewrite C in Hc. cbn [flat_map] in Hc. rewrite app_nil_r in Hc. unfold tube_patch in Hc. cbn [p_tris p_at] in Hc.
  rewrite Forall_forall in A. specialize (A c Hc). destruct A as [A|(u & u' & p & q & x & sg & Hu & Hu' & (v & Hv & P) & (v' & Hv' & Q) & (v'' & Hv'' & X) & S & B & D1 & D2)]; [now left|right].
  assert (NS : normalize (step_from f (Nat.max 3 (cv_u d)) (u mod (Nat.max 3 (cv_u d) - 1))) = vscale (/ len (step_from f (Nat.max 3 (cv_u d)) (u mod (Nat.max 3 (cv_u d) - 1)))) (step_from f (Nat.max 3 (cv_u d)) (u mod (Nat.max 3 (cv_u d) - 1)))).
  { apply normalize_scale. apply slanted_nonzero, SL. assert (u mod (Nat.max 3 (cv_u d) - 1) < Nat.max 3 (cv_u d) - 1)%nat by (apply Nat.mod_upper_bound; lia). lia. }
  rewrite NS in D1, D2. exists u, u', p, q, x, sg. split; [assumption|]. split; [assumption|].
  split; [exists v; split; [assumption|rewrite P; now apply curve_at]|]. split; [exists v'; split; [assumption|rewrite Q; now apply curve_at]|].
  split; [exists v''; split; [assumption|rewrite X; now apply curve_at]|]. split; [assumption|]. split; [assumption|]. split; assumption.
Qed.

Lemma sin_least n : (4 <= n)%nat -> 0 < sin (2 * PI / INR (n - 1)).
Proof.
  intros H. pose proof PI_RGT_0. assert (3 <= INR (n - 1)) by (replace 3 with (INR 3) by (cbn; lra); apply le_INR; lia).
  assert (0 < / INR (n - 1)) by (apply Rinv_0_lt_compat; lra). assert (INR (n - 1) * / INR (n - 1) = 1) by (apply Rinv_r; lra). apply sin_gt_0; unfold Rdiv; [nra|].
  assert (2 * / INR (n - 1) < 1) by nra. nra.
Qed.
Lemma tube_ahead d f m m' : let U := Nat.max 3 (cv_u d) in let V := Nat.max 3 (cv_v d) in
  valid (DCurve d) -> (Z.of_nat (vertex_count (DCurve d)) <= 2 ^ 32)%Z -> cv_curve d = Some f -> closed_curve f -> cv_modifier d = None ->
  (forall u, (u + 1 < U)%nat -> slanted (step_from f U u)) -> generate (DCurve d) m = Ok m' ->
  (4 <= cv_v d)%nat -> 0 < cv_radius d ->
  (forall u v v' w w', (u + 1 < U)%nat -> (v < V)%nat -> (v' < V)%nat -> ring_vertex_at m m' V u v w -> ring_vertex_at m m' V (u + 1) v' w' ->
    0 < dot (vsub (position w') (position w)) (step_from f U u) /\ 0 < dot (vsub (position w') (position w)) (step_from f U ((u + 1) mod (U - 1)))) ->
  forall t, In t (new_triangles m m') -> exists c, corners m' t = Some c /\ (front c = vzero \/ faces_two normal c).
Proof.
  cbn zeta. intros W L C CL NM SL G HV R0 A t Ht. destruct (tube_winding d f m m' W L C CL NM SL G t Ht) as (c & Ec & D). exists c. split; [assumption|].
  destruct D as [D|(u & u' & p & q & x & sg & Hu & Hu' & (v & Hv & P) & (v' & Hv' & Q) & (v'' & Hv'' & X) & S & B & D1 & D2)]; [now left|right].
  pose proof (sin_least (Nat.max 3 (cv_v d)) ltac:(lia)) as SP. set (s := step_from f (Nat.max 3 (cv_u d)) (u mod (Nat.max 3 (cv_u d) - 1))) in *.
  assert (LS : 0 < / len s). { apply Rinv_0_lt_compat, len_pos. intros E. apply dot_self_0 in E. apply (slanted_nonzero s); [|exact E]. apply SL. assert (u mod (Nat.max 3 (cv_u d) - 1) < Nat.max 3 (cv_u d) - 1)%nat by (apply Nat.mod_upper_bound; lia). lia. }
  assert (SC : forall e, dot e (vscale (/ len s) s) = / len s * dot e s) by (intros; vecs; ring). rewrite SC in D1, D2.
  assert (F : 0 < dot (front c) (normal p) /\ 0 < dot (front c) (normal q)).
  { rewrite D1, D2. destruct B as [[-> ->]|[-> ->]].
    - destruct (A u v v'' p x ltac:(lia) Hv Hv'' P X) as [A1 _]. destruct (A u v' v'' q x ltac:(lia) Hv' Hv'' Q X) as [A2 _].
      assert (ES : s = step_from f (Nat.max 3 (cv_u d)) u) by (unfold s; rewrite Nat.mod_small by lia; reflexivity). rewrite ES in LS |- *. split; products.
    - destruct (A u' v'' v x p ltac:(lia) Hv'' Hv X P) as [_ A1]. destruct (A u' v'' v' x q ltac:(lia) Hv'' Hv' X Q) as [_ A2]. fold s in A1, A2.
      assert (O : forall a b, dot (vsub a b) s = - dot (vsub b a) s) by (intros; vecs; ring). rewrite (O (position x) (position p)), (O (position x) (position q)).
      split; [value (cv_radius d * sin (2 * PI / INR (Nat.max 3 (cv_v d) - 1)) * (/ len s * dot (vsub (position p) (position x)) s)); ring
             |value (cv_radius d * sin (2 * PI / INR (Nat.max 3 (cv_v d) - 1)) * (/ len s * dot (vsub (position q) (position x)) s)); ring]. }
  destruct F as [F1 F2]. unfold faces_two. destruct S as [-> | [-> | ->]]; cbn zeta; auto.
Qed.

(** Three segments around the tube make a flat band. *)
Theorem tube_flat d f m m' u v w0 w : let U := Nat.max 3 (cv_u d) in let V := Nat.max 3 (cv_v d) in
  valid (DCurve d) -> cv_curve d = Some f -> generate (DCurve d) m = Ok m' -> closed_curve f -> cv_modifier d = None -> (forall u, (u + 1 < U)%nat -> slanted (step_from f U u)) ->
  (cv_v d <= 3)%nat -> (u < U)%nat -> (v < V)%nat -> ring_vertex_at m m' V u 0 w0 -> ring_vertex_at m m' V u v w ->
  position w = vadd (ring_at f U u) (vscale (if (v =? 1)%nat then - cv_radius d else cv_radius d) (normal w0)).
Proof.
  cbn zeta. intros W C G CL NM SL H3 Hu Hv X0 X. apply (curve_nth d f) in X0; try assumption; try lia. apply (curve_nth d f) in X; try assumption; try lia. subst w w0.
  assert (E3 : Nat.max 3 (cv_v d) = 3%nat) by lia.
  rewrite (position_g d f NM u v), !(normal_g d f CL u) by assumption. rewrite !rotated_form by apply (st_slanted d f SL).
  rewrite E3 in *. set (n := first_normal _). set (b := cross _ _). cbn [INR Nat.sub]. assert (v = 0 \/ v = 1 \/ v = 2)%nat as [-> | [-> | ->]] by lia; cbn [INR Nat.eqb].
  - replace (0 / (1 + 1) * pi_2) with 0 by field. rewrite sin_0, cos_0. f_equal.
  - replace (0 / (1 + 1) * pi_2) with 0 by field. replace (1 / (1 + 1) * pi_2) with PI by (unfold pi_2; field). rewrite sin_0, cos_0, sin_PI, cos_PI. f_equal. clear. apply vec3_ext; vecs; ring.
  - replace (0 / (1 + 1) * pi_2) with 0 by field. replace ((1 + 1) / (1 + 1) * pi_2) with (2 * PI) by (unfold pi_2; field). rewrite sin_0, cos_0, sin_2PI, cos_2PI. reflexivity.
Qed.

(** It is enough that steps are longer than the radius and bend little. *)
Theorem tube_outside d f m m' : let U := Nat.max 3 (cv_u d) in let V := Nat.max 3 (cv_v d) in let step u := step_from f U (u mod (U - 1)) in
  valid (DCurve d) -> (Z.of_nat (vertex_count (DCurve d)) <= 2 ^ 32)%Z -> cv_curve d = Some f -> closed_curve f -> cv_modifier d = None ->
  (forall u, (u + 1 < U)%nat -> slanted (step u) /\ cv_radius d < len (step u) /\ cv_radius d * len (step (u + 1)%nat) < dot (step u) (step (u + 1)%nat)) -> generate (DCurve d) m = Ok m' ->
  (4 <= cv_v d)%nat -> 0 < cv_radius d ->
  forall t, In t (new_triangles m m') -> exists c, corners m' t = Some c /\ (front c = vzero \/ faces_two normal c).
Proof.
  cbn zeta. intros W L C CL NM H G HV R0. assert (SM : forall u, (u + 1 < Nat.max 3 (cv_u d))%nat -> (u mod (Nat.max 3 (cv_u d) - 1) = u)%nat) by (intros; apply Nat.mod_small; lia).
  assert (SL : forall u, (u + 1 < Nat.max 3 (cv_u d))%nat -> slanted (step_from f (Nat.max 3 (cv_u d)) u)) by (intros u Hu; destruct (H u Hu) as (S & _); rewrite SM in S by assumption; exact S).
  apply (tube_ahead d f m m' W L C CL NM SL G HV R0). intros u v v' w w' Hu Hv Hv' X X'.
  apply (curve_nth d f) in X; try assumption; try lia. apply (curve_nth d f) in X'; try assumption; try lia. subst w w'. destruct (H u Hu) as (_ & H1 & H2). rewrite (SM u) in H1, H2 by assumption.
  rewrite !(position_g d f NM). rewrite !(normal_g d f CL) by lia. rewrite (SM u) by assumption. set (s := step_from f (Nat.max 3 (cv_u d)) u) in *. set (s' := step_from f (Nat.max 3 (cv_u d)) ((u + 1) mod (Nat.max 3 (cv_u d) - 1))) in *.
  assert (S : slanted s) by now apply SL. assert (S' : slanted s').
  { apply SL. assert ((u + 1) mod (Nat.max 3 (cv_u d) - 1) < Nat.max 3 (cv_u d) - 1)%nat by (apply Nat.mod_upper_bound; lia). lia. }
  destruct (rotated s (INR v / INR (Nat.max 3 (cv_v d) - 1) * pi_2) S) as (N1 & P1 & _). destruct (rotated s' (INR v' / INR (Nat.max 3 (cv_v d) - 1) * pi_2) S') as (N2 & P2 & _).
  set (n := rotate_around (first_normal s) _ _) in *. set (n' := rotate_around (first_normal s') _ _) in *. clearbody n n'.
  assert (L1 : len n = 1) by (unfold len; rewrite N1; apply sqrt_1). assert (L2 : len n' = 1) by (unfold len; rewrite N2; apply sqrt_1).
  pose proof (cauchy_abs n s') as C1. pose proof (cauchy_abs n' s) as C2. rewrite L1 in C1. rewrite L2 in C2. pose proof (Rle_abs (dot n s')). pose proof (Rle_abs (- dot n s')) as A1. rewrite Rabs_Ropp in A1. pose proof (Rle_abs (dot n' s)). pose proof (Rle_abs (- dot n' s)) as A2. rewrite Rabs_Ropp in A2.
  assert (ES : vsub (ring_at f (Nat.max 3 (cv_u d)) (u + 1)) (ring_at f (Nat.max 3 (cv_u d)) u) = s) by reflexivity.
  assert (EQ : forall e, dot (vsub (vadd (ring_at f (Nat.max 3 (cv_u d)) (u + 1)) (vscale (cv_radius d) n')) (vadd (ring_at f (Nat.max 3 (cv_u d)) u) (vscale (cv_radius d) n))) e =
    dot s e + cv_radius d * dot n' e - cv_radius d * dot n e) by (intros; rewrite <- ES; clear; vecs; ring).
  rewrite !EQ, P1, P2. pose proof (len_sqr s). assert (0 < len s) by lra.
  assert (- len s <= dot n' s) by lra. assert (dot n s' <= len s') by lra. split; nra.
Qed.

(** A circle of radius 3, seen as an octagon *)
Definition octagon : curve_desc := mkCurve (Some (fun t => V3 (3 * sin (2 * PI * t)) 0 (3 * cos (2 * PI * t)))) 1 9 6 true None.
Lemma octagon_at u : ring_at (fun t => V3 (3 * sin (2 * PI * t)) 0 (3 * cos (2 * PI * t))) 9 u = V3 (3 * sin (INR u * (PI / 4))) 0 (3 * cos (INR u * (PI / 4))).
Proof. unfold ring_at. replace (INR (9 - 1)) with 8 by (cbn; lra). replace (2 * PI * (INR u / 8)) with (INR u * (PI / 4)) by field. reflexivity. Qed.
Lemma chord a b : sin a * sin b + cos a * cos b = cos (a - b).
Proof. rewrite cos_minus. ring. Qed.
Lemma octagon_step u : (u < 9)%nat -> step_from (fun t => V3 (3 * sin (2 * PI * t)) 0 (3 * cos (2 * PI * t))) 9 (u mod 8) =
  V3 (3 * (sin (INR u * (PI / 4) + PI / 4) - sin (INR u * (PI / 4)))) 0 (3 * (cos (INR u * (PI / 4) + PI / 4) - cos (INR u * (PI / 4)))).
Proof.
  intros H. assert (NX : forall k, INR (k + 1) * (PI / 4) = INR k * (PI / 4) + PI / 4) by (intros; rewrite plus_INR; cbn [INR]; ring).
  unfold step_from. rewrite !octagon_at, NX. destruct (Nat.eq_dec u 8) as [->|N].
  - change (8 mod 8)%nat with 0%nat. replace (INR 8 * (PI / 4)) with (0 + 2 * PI) by (cbn; field). replace (0 + 2 * PI + PI / 4) with (PI / 4 + 2 * PI) by ring. cbn [INR]. rewrite Rmult_0_l, Rplus_0_l.
    rewrite !sin_plus, !cos_plus, sin_2PI, cos_2PI, sin_0, cos_0. clear. apply vec3_ext; vecs; ring.
  - rewrite Nat.mod_small by lia. clear. apply vec3_ext; vecs; ring.
Qed.
Theorem octagon_ok : let d := octagon in let f := fun t => V3 (3 * sin (2 * PI * t)) 0 (3 * cos (2 * PI * t)) in let U := Nat.max 3 (cv_u d) in let step u := step_from f U (u mod (U - 1)) in
  valid (DCurve d) /\ defined (DCurve d) /\ (Z.of_nat (vertex_count (DCurve d)) <= 2 ^ 32)%Z /\ cv_curve d = Some f /\ closed_curve f /\ cv_modifier d = None /\ (4 <= cv_v d)%nat /\ 0 < cv_radius d /\
  (forall u, (u + 1 < U)%nat -> slanted (step u) /\ cv_radius d < len (step u) /\ cv_radius d * len (step (u + 1)%nat) < dot (step u) (step (u + 1)%nat)).
Proof.
  cbn zeta. split; [intros n; cbn [octagon segment_counts cv_u cv_v In]; lia|]. split; [cbn; discriminate|]. split; [vm_compute; discriminate|]. split; [reflexivity|].
  split; [unfold closed_curve; rewrite Rmult_0_r, Rmult_1_r, sin_0, cos_0, sin_2PI, cos_2PI; reflexivity|]. split; [reflexivity|]. split; [cbn; lia|]. split; [cbn; lra|].
  change (Nat.max 3 (cv_u octagon)) with 9%nat. change (9 - 1)%nat with 8%nat. change (cv_radius octagon) with 1. intros u Hu.
  rewrite !octagon_step by lia. replace (INR (u + 1) * (PI / 4)) with (INR u * (PI / 4) + PI / 4) by (rewrite plus_INR; cbn [INR]; ring). set (a := INR u * (PI / 4)). set (h := PI / 4).
  set (s := V3 (3 * (sin (a + h) - sin a)) 0 (3 * (cos (a + h) - cos a))). set (s' := V3 (3 * (sin (a + h + h) - sin (a + h))) 0 (3 * (cos (a + h + h) - cos (a + h)))).
  assert (Q2 : sqrt 2 * sqrt 2 = 2) by (apply sqrt_sqrt; lra). assert (P2 : 0 < sqrt 2) by (apply sqrt_lt_R0; lra). assert (B2 : 1.4 < sqrt 2 < 1.42) by nra.
  assert (C0 : cos h = sqrt 2 / 2). { unfold h. rewrite cos_PI4. apply (Rmult_eq_reg_r (sqrt 2)); [|lra]. transitivity 1; [field; lra|lra]. }
  assert (one : forall x, sin x * sin x + cos x * cos x = 1) by (intros x; rewrite chord, Rminus_diag_eq, cos_0; reflexivity).
  assert (nx : forall x, sin (x + h) * sin x + cos (x + h) * cos x = sqrt 2 / 2) by (intros x; rewrite chord, <- C0; f_equal; ring).
  assert (nn : sin (a + h + h) * sin a + cos (a + h + h) * cos a = 0) by (rewrite chord; replace (a + h + h - a) with (PI / 2) by (unfold h; field); apply cos_PI2).
  assert (D : dot s s = 9 * (2 - sqrt 2)). { unfold s. vecs. transitivity (9 * ((sin (a + h) * sin (a + h) + cos (a + h) * cos (a + h)) + (sin a * sin a + cos a * cos a) - 2 * (sin (a + h) * sin a + cos (a + h) * cos a))); [ring|]. rewrite !one, nx. field. }
  assert (D' : dot s' s' = 9 * (2 - sqrt 2)). { unfold s'. vecs. transitivity (9 * ((sin (a + h + h) * sin (a + h + h) + cos (a + h + h) * cos (a + h + h)) + (sin (a + h) * sin (a + h) + cos (a + h) * cos (a + h)) - 2 * (sin (a + h + h) * sin (a + h) + cos (a + h + h) * cos (a + h)))); [ring|]. rewrite !one, nx. field. }
  assert (E : dot s s' = 9 * (sqrt 2 - 1)). { unfold s, s'. vecs. transitivity (9 * ((sin (a + h + h) * sin (a + h) + cos (a + h + h) * cos (a + h)) - (sin (a + h) * sin (a + h) + cos (a + h) * cos (a + h)) - (sin (a + h + h) * sin a + cos (a + h + h) * cos a) + (sin (a + h) * sin a + cos (a + h) * cos a))); [ring|]. rewrite one, !nx, nn. field. }
  pose proof (len_sqr s) as LS. pose proof (len_sqr s') as LS'. pose proof (len_ge s). pose proof (len_ge s').
  split; [|split].
  - unfold slanted. destruct (Req_dec (vx s) 0) as [X|X]; [right|now left]. intros Z. assert (dot s s = 0) by (unfold dot; rewrite X, Z; cbn [s vy]; ring). nra.
  - nra.
  - rewrite E. nra.
Qed.
