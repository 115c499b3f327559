(** Properties C27 and C28: clipping a triangle and a mesh at a plane. *)
From Coq Require Import Reals List Bool Arith Lra Lia.
From Verif Require Import Model.Scalar Model.Vec Model.Ext Model.Plane Model.Mesh Model.Interp Model.Clip.
From Verif Require Import Spec.PlaneSpec Spec.MeshSpec Spec.InterpSpec Spec.ClipSpec.
From Verif Require Import Proofs.VecLemmas Proofs.PlaneLemmas Proofs.InterpLemmas Proofs.MeshLemmas2 Proofs.ClipLemmas Proofs.ClipMesh.
Import ListNotations.
Local Open Scope R_scope.

(** ** C27 *)

(** ClipTriangle never runs over its four-element arrays and says InFrontOf (Behind) exactly for the triangles all of whose corners
    are at most eps behind (more than eps behind) the plane.  Otherwise it says Clipped and returns two polygons, drawn as fans.
    Their vertices are points of the triangle, at most eps on the wrong side; together the fans cover the triangle; the points more
    than eps in front (behind) are in the front (back) fan; no fan triangle is turned over.  The back polygon has three or four
    vertices, and so has the front polygon if some corner is more than eps in front of the plane.
    Missing from C27: the number of vertices of the front polygon otherwise, see C27_count_refuted. *)
Theorem C27_clip_triangle_partial alt neg pl a b c eps : 0 <= eps ->
  let at_ w := combine3 w a b c in
  exists r front back, clip_triangle alt neg pl a b c eps = Some (r, (front, back)) /\
  (r = InFrontOf <-> - eps <= side alt pl a /\ - eps <= side alt pl b /\ - eps <= side alt pl c) /\
  (r = Behind <-> side alt pl a < - eps /\ side alt pl b < - eps /\ side alt pl c < - eps) /\
  (r = InFrontOf \/ r = Behind \/ r = Clipped) /\
  (r <> Clipped -> front = [] /\ back = []) /\
  (r = Clipped ->
     (forall w, In w front -> bary w /\ - eps <= side alt pl (at_ w)) /\
     (forall w, In w back -> bary w /\ side alt pl (at_ w) <= eps) /\
     (forall w, in_fan front w -> bary w /\ - eps <= side alt pl (at_ w)) /\
     (forall w, in_fan back w -> bary w /\ side alt pl (at_ w) <= eps) /\
     (forall w, bary w -> in_fan front w \/ in_fan back w) /\
     (forall w, bary w -> eps < side alt pl (at_ w) -> in_fan front w) /\
     (forall w, bary w -> side alt pl (at_ w) < - eps -> in_fan back w) /\
     (forall p q r, In (p, q, r) (fan front) \/ In (p, q, r) (fan back) -> 0 <= orientation p q r) /\
     (3 <= length back <= 4)%nat /\ (length front <= 4)%nat /\
     (eps < side alt pl a \/ eps < side alt pl b \/ eps < side alt pl c -> (3 <= length front)%nat)).
Proof.
  intros He at_. destruct (clip_triangle_spec alt neg pl a b c eps He) as [(F & E)|[(F & E)|(NF & NB & front & back & E & Cov & Pf & Pb & Of & Ob & Lb & Lf & Lf')]].
  - exists InFrontOf, [], []. split; [exact E|]. split; [tauto|]. split; [split; [discriminate|lra]|]. split; [auto|].
    split; [auto|discriminate].
  - exists Behind, [], []. split; [exact E|]. split; [split; [discriminate|lra]|]. split; [tauto|]. split; [auto|].
    split; [auto|discriminate].
  - exists Clipped, front, back. split; [exact E|].
    split; [split; [discriminate|intros H; destruct (NF H)]|]. split; [split; [discriminate|intros H; destruct (NB H)]|].
    split; [auto|]. split; [intros H; destruct (H eq_refl)|]. intros _.
    assert (S : forall w, bary w -> side alt pl (at_ w) = value (side alt pl a) (side alt pl b) (side alt pl c) w)
      by (intros w (_ & _ & _ & H); apply side_combine, H).
    assert (Ff : forall w, in_fan front w -> bary w /\ - eps <= side alt pl (at_ w)).
    { intros w H. destruct (poly_ok_fan _ _ _ _ _ _ _ Pf H) as (B & V). split; [exact B|]. rewrite S by exact B. lra. }
    assert (Fb : forall w, in_fan back w -> bary w /\ side alt pl (at_ w) <= eps).
    { intros w H. destruct (poly_ok_fan _ _ _ _ _ _ _ Pb H) as (B & V). split; [exact B|]. rewrite S by exact B. lra. }
    unfold poly_ok in Pf, Pb. rewrite Forall_forall in Pf, Pb.
    split; [intros w H; destruct (Pf w H) as (B & V); split; [exact B|rewrite S by exact B; lra]|].
    split; [intros w H; destruct (Pb w H) as (B & V); split; [exact B|rewrite S by exact B; lra]|].
    split; [exact Ff|]. split; [exact Fb|]. split; [exact Cov|].
    split; [intros w B H; destruct (Cov w B) as [K|K]; [exact K|apply Fb in K; lra]|].
    split; [intros w B H; destruct (Cov w B) as [K|K]; [apply Ff in K; lra|exact K]|].
    split; [intros p q r [H|H]; [exact (Of p q r H)|exact (Ob p q r H)]|]. auto.
Qed.
Print Assumptions C27_clip_triangle_partial.

Definition ground : plane := mkPlane (V3 0 0 1) 0.
Lemma classify_front d eps : eps < d -> classify d eps = InFrontOf.
Proof. intros H. unfold classify. replace (Rltb eps d) with true; [reflexivity|symmetry; apply Rltb_iff, H]. Qed.
Lemma classify_behind d eps : 0 <= eps -> d < - eps -> classify d eps = Behind.
Proof.
  intros He H. unfold classify. replace (Rltb eps d) with false by (symmetry; apply Rltb_false; lra).
  replace (Rltb d (- eps)) with true; [reflexivity|symmetry; apply Rltb_iff, H].
Qed.
Lemma classify_onto d eps : - eps <= d <= eps -> classify d eps = Onto.
Proof.
  intros H. unfold classify. replace (Rltb eps d) with false by (symmetry; apply Rltb_false; lra).
  replace (Rltb d (- eps)) with false; [reflexivity|symmetry; apply Rltb_false; lra].
Qed.
Lemma side_ground x y z : side false ground (V3 x y z) = z.
Proof. unfold side, ground. vunfold. cbn. vunfold. ring. Qed.
Lemma edge_hit_eq da db t : db - da <> 0 -> t * (db - da) = - da -> 0 <= t <= 1 -> edge_hit da db = Some t.
Proof.
  intros N E T. unfold edge_hit. replace (Reqb (db - da) 0) with false by (symmetry; apply Reqb_false; exact N). cbn zeta.
  replace (- da / (db - da)) with t by (rewrite <- E; field; exact N).
  replace (Rleb 0 t) with true by (symmetry; apply Rleb_iff; lra). replace (Rleb t 1) with true by (symmetry; apply Rleb_iff; lra). reflexivity.
Qed.

(** A triangle crossing the ground plane: corners at height 1, -1, -1; the front polygon is the upper half, a triangle, and the back
    polygon the lower half with four vertices. *)
Example C27_example neg :
  clip_triangle false neg ground (V3 0 0 1) (V3 2 0 (-1)) (V3 0 2 (-1)) 0 =
  Some (Clipped, ([V3 1 0 0; V3 (1/2) (1/2) 0; V3 (1/2) 0 (1/2)], [V3 (1/2) (1/2) 0; V3 0 1 0; V3 0 0 1; V3 (1/2) 0 (1/2)])).
Proof.
  unfold clip_triangle. rewrite !relation_classify, !clip_edge_eq, !side_ground.
  rewrite !(classify_behind (-1) 0) by lra. rewrite (classify_front 1 0) by lra. cbn [relation_eqb negb andb clip_add poly_add length Nat.ltb Nat.leb app].
  unfold edge_step; cbn [relation_eqb Nat.ltb Nat.leb].
  rewrite (edge_hit_eq 1 (-1) (1/2)) by (first [lra | intro; lra]). rewrite (edge_hit_eq (-1) 1 (1/2)) by (first [lra | intro; lra]).
  rewrite (edge_hit_none (-1) (-1)) by (right; split; lra). cbn. replace (1 - 1 / 2) with (1 / 2) by lra. reflexivity.
Qed.

(** The documentation promises three or four vertices for both polygons of a clipped triangle.  Here one corner is on the plane and
    the two others are behind it: the result is Clipped and the front polygon has two vertices (the corner, twice). *)
Theorem C27_count_refuted : exists pl a b c eps front back, 0 <= eps /\ (forall neg,
  clip_triangle false neg pl a b c eps = Some (Clipped, (front, back))) /\ length front = 2%nat.
Proof.
  exists ground, (V3 0 0 0), (V3 1 0 (-1)), (V3 0 1 (-1)), 0, [V3 1 0 0; V3 1 0 0], [V3 1 0 0; V3 1 0 0; V3 0 1 0; V3 0 0 1].
  split; [lra|]. split; [|reflexivity]. intros neg.
  unfold clip_triangle. rewrite !relation_classify, !clip_edge_eq, !side_ground.
  rewrite !(classify_behind (-1) 0) by lra. rewrite (classify_onto 0 0) by lra. cbn [relation_eqb negb andb clip_add poly_add length Nat.ltb Nat.leb app].
  unfold edge_step; cbn [relation_eqb Nat.ltb Nat.leb].
  rewrite (edge_hit_eq 0 (-1) 0) by (first [lra | intro; lra]). rewrite (edge_hit_none (-1) (-1)) by (right; split; lra). cbn. rewrite Rminus_0_r. reflexivity.
Qed.
Print Assumptions C27_count_refuted.

(** ** C28 *)

(** ClipMesh of a well-formed mesh into two other meshes succeeds, whatever these held before.  Both results are well formed.  Every
    point of a triangle of the front (back) mesh is at most eps behind (in front of) the plane.  Every triangle of the results lies
    in a triangle of the input, its vertices (position, normal and texture coordinate) being interpolated from that triangle's
    corners.  A triangle with all corners at most eps behind (more than eps behind) the plane is in the front (back) mesh unchanged. *)
Theorem C28_clip_mesh neg eps m dv pl front back : 0 <= eps -> well_formed m ->
  exists f b, clip_mesh neg eps m dv pl front back = Some (f, b) /\ well_formed f /\ well_formed b /\
  (forall p q r, In (Some (p, q, r)) (triangle_list f) ->
     (forall w, bary w -> - eps <= side false pl (position (combine_vertices w p q r))) /\
     exists x y z wp wq wr, In (Some (x, y, z)) (triangle_list m) /\ bary wp /\ bary wq /\ bary wr /\ 0 <= orientation wp wq wr /\
       p = combine_vertices wp x y z /\ q = combine_vertices wq x y z /\ r = combine_vertices wr x y z) /\
  (forall p q r, In (Some (p, q, r)) (triangle_list b) ->
     (forall w, bary w -> side false pl (position (combine_vertices w p q r)) <= eps) /\
     exists x y z wp wq wr, In (Some (x, y, z)) (triangle_list m) /\ bary wp /\ bary wq /\ bary wr /\ 0 <= orientation wp wq wr /\
       p = combine_vertices wp x y z /\ q = combine_vertices wq x y z /\ r = combine_vertices wr x y z) /\
  (forall x y z, In (Some (x, y, z)) (triangle_list m) ->
     let d v := side false pl (position v) in
     (- eps <= d x /\ - eps <= d y /\ - eps <= d z -> In (Some (x, y, z)) (triangle_list f)) /\
     (d x < - eps /\ d y < - eps /\ d z < - eps -> In (Some (x, y, z)) (triangle_list b))).
Proof.
  intros He W. destruct (wf_soup m W) as (xs & Sm).
  destruct (clip_mesh_soup neg eps m dv pl front back xs He Sm) as (f & b & E & Sf & Sb).
  exists f, b. split; [exact E|]. split; [exact (soup_wf _ _ Sf)|]. split; [exact (soup_wf _ _ Sb)|].
  assert (T : forall mm l x, soup mm l -> (In (Some x) (triangle_list mm) <-> In x l)).
  { intros mm l x S. rewrite S, in_map_iff. split; [intros (y & [= ->] & H); exact H|intros H; exists x; auto]. }
  assert (C0 : bary (V3 1 0 0) /\ bary (V3 0 1 0) /\ bary (V3 0 0 1)) by (unfold bary; cbn; repeat split; lra).
  destruct C0 as (B0 & B1 & B2). assert (O0 : 0 <= orientation (V3 1 0 0) (V3 0 1 0) (V3 0 0 1)) by (unfold orientation; vunfold; lra).
  split; [|split].
  - intros p q r H. apply (T f _ _ Sf) in H. apply in_all_pieces in H. destruct H as (i & [[x y] z] & Hi & H). rewrite Nat.add_0_l in H.
    assert (Hx : In (Some (x, y, z)) (triangle_list m)) by (apply (T m xs _ Sm), (nth_error_In _ _ Hi)).
    unfold pieces in H.
    destruct (C27_clip_triangle_partial false (neg i) pl (position x) (position y) (position z) eps He)
      as (rel & fp & bp & Ec & RF & RB & RC & _ & RP). rewrite Ec in H.
    destruct RC as [ -> | [ -> | -> ]]; cbn [fst] in H.
    + destruct H as [[= <- <- <-]|[]]. destruct RF as [RF _]. specialize (RF eq_refl). split.
      * intros w Hw. cbn [position combine_vertices]. rewrite side_combine by apply Hw. unfold value. destruct Hw as (A & B & C & S).
        assert (Q : - eps = vx w * - eps + vy w * - eps + vz w * - eps) by (transitivity ((vx w + vy w + vz w) * - eps); [rewrite S; ring|ring]).
        rewrite Q. apply Rplus_le_compat; [apply Rplus_le_compat|]; apply Rmult_le_compat_l; tauto.
      * exists x, y, z, (V3 1 0 0), (V3 0 1 0), (V3 0 0 1). destruct (corner_vertex x y z) as (-> & -> & ->). tauto.
    + destruct H.
    + specialize (RP eq_refl). destruct RP as (Pf & _ & Ff & _ & _ & _ & _ & Or & _).
      unfold fan_soup in H. apply in_map_iff in H. destruct H as ([[u v] t] & [= <- <- <-] & H). cbn [fst snd].
      destruct (fan_in _ _ _ _ H) as (Hu & Hv & Ht). split.
      * intros w Hw. rewrite combine_vertices_compose. cbn [position combine_vertices]. apply Ff. exists u, v, t. split; [exact H|exists w; auto].
      * exists x, y, z, u, v, t. destruct (Pf u Hu) as (? & _), (Pf v Hv) as (? & _), (Pf t Ht) as (? & _).
        assert (0 <= orientation u v t) by (apply Or; auto). tauto.
  - intros p q r H. apply (T b _ _ Sb) in H. apply in_all_pieces in H. destruct H as (i & [[x y] z] & Hi & H). rewrite Nat.add_0_l in H.
    assert (Hx : In (Some (x, y, z)) (triangle_list m)) by (apply (T m xs _ Sm), (nth_error_In _ _ Hi)).
    unfold pieces in H.
    destruct (C27_clip_triangle_partial false (neg i) pl (position x) (position y) (position z) eps He)
      as (rel & fp & bp & Ec & RF & RB & RC & _ & RP). rewrite Ec in H.
    destruct RC as [ -> | [ -> | -> ]]; cbn [snd] in H.
    + destruct H.
    + destruct H as [[= <- <- <-]|[]]. destruct RB as [RB _]. specialize (RB eq_refl). split.
      * intros w Hw. cbn [position combine_vertices]. rewrite side_combine by apply Hw. unfold value. destruct Hw as (A & B & C & S).
        assert (Q : eps = vx w * eps + vy w * eps + vz w * eps) by (transitivity ((vx w + vy w + vz w) * eps); [rewrite S; ring|ring]).
        rewrite Q at 1. apply Rplus_le_compat; [apply Rplus_le_compat|]; apply Rmult_le_compat_l; lra.
      * exists x, y, z, (V3 1 0 0), (V3 0 1 0), (V3 0 0 1). destruct (corner_vertex x y z) as (-> & -> & ->). tauto.
    + specialize (RP eq_refl). destruct RP as (_ & Pb & _ & Fb & _ & _ & _ & Or & _).
      unfold fan_soup in H. apply in_map_iff in H. destruct H as ([[u v] t] & [= <- <- <-] & H). cbn [fst snd].
      destruct (fan_in _ _ _ _ H) as (Hu & Hv & Ht). split.
      * intros w Hw. rewrite combine_vertices_compose. cbn [position combine_vertices]. apply Fb. exists u, v, t. split; [exact H|exists w; auto].
      * exists x, y, z, u, v, t. destruct (Pb u Hu) as (? & _), (Pb v Hv) as (? & _), (Pb t Ht) as (? & _).
        assert (0 <= orientation u v t) by (apply Or; auto). tauto.
  - intros x y z H. apply (T m _ _ Sm) in H. apply In_nth_error in H. destruct H as (i & Hi). cbn zeta.
    rewrite (T f _ _ Sf), (T b _ _ Sb).
    destruct (C27_clip_triangle_partial false (neg i) pl (position x) (position y) (position z) eps He)
      as (rel & fp & bp & Ec & RF & RB & _).
    split; intros H; apply in_all_pieces; exists i, (x, y, z); (split; [exact Hi|]); unfold pieces; rewrite Nat.add_0_l, Ec.
    + apply RF in H. subst rel. left. reflexivity.
    + apply RB in H. subst rel. left. reflexivity.
Qed.
Print Assumptions C28_clip_mesh.

(** Nothing is lost: every point of every input triangle, with its interpolated normal and texture coordinate, is a point of a
    triangle of one of the results; of the front mesh if it is more than eps in front of the plane, of the back mesh if it is more
    than eps behind. *)
Theorem C28_nothing_lost neg eps m dv pl front back f b : 0 <= eps -> well_formed m ->
  clip_mesh neg eps m dv pl front back = Some (f, b) ->
  forall x y z w, In (Some (x, y, z)) (triangle_list m) -> bary w ->
  let v := combine_vertices w x y z in
  let inside mesh := exists p q r u, In (Some (p, q, r)) (triangle_list mesh) /\ bary u /\ v = combine_vertices u p q r in
  (inside f \/ inside b) /\
  (eps < side false pl (position v) -> inside f) /\ (side false pl (position v) < - eps -> inside b).
Proof.
  intros He W E x y z w Hx Hw v inside. destruct (wf_soup m W) as (xs & Sm).
  destruct (clip_mesh_soup neg eps m dv pl front back xs He Sm) as (f' & b' & E' & Sf & Sb). rewrite E in E'. injection E' as <- <-.
  assert (K : inside f \/ inside b).
  { rewrite Sm in Hx. apply in_map_iff in Hx. destruct Hx as (x' & [= ->] & Hx). apply In_nth_error in Hx. destruct Hx as (i & Hi).
    destruct (C27_clip_triangle_partial false (neg i) pl (position x) (position y) (position z) eps He)
      as (rel & fp & bp & Ec & _ & _ & RC & _ & RP).
    assert (P : pieces neg eps pl (0 + i) (x, y, z) = pieces neg eps pl i (x, y, z)) by reflexivity.
    unfold pieces in P at 2. rewrite Ec in P.
    assert (A : forall mesh l p q r u, soup mesh l -> In (p, q, r) l -> bary u -> v = combine_vertices u p q r -> inside mesh).
    { intros mesh l p q r u S Hl Hu Ev. exists p, q, r, u. rewrite S. split; [apply in_map, Hl|auto]. }
    destruct RC as [ -> | [ -> | -> ]].
    - left. apply (A f _ x y z w Sf); [apply in_all_pieces; exists i, (x, y, z); rewrite P; split; [exact Hi|left; reflexivity]|exact Hw|reflexivity].
    - right. apply (A b _ x y z w Sb); [apply in_all_pieces; exists i, (x, y, z); rewrite P; split; [exact Hi|left; reflexivity]|exact Hw|reflexivity].
    - specialize (RP eq_refl). destruct RP as (_ & _ & _ & _ & Cov & _).
      assert (Q : forall poly p q r, In (p, q, r) (fan poly) -> In (combine_vertices p x y z, combine_vertices q x y z, combine_vertices r x y z) (fan_soup (fun w => combine_vertices w x y z) poly)).
      { intros poly p q r H. unfold fan_soup. apply in_map_iff. exists (p, q, r). auto. }
      destruct (Cov w Hw) as [(p & q & r & Hp & u & Hu & Ew)|(p & q & r & Hp & u & Hu & Ew)].
      + left. eapply (A f _ _ _ _ u Sf); [apply in_all_pieces; exists i, (x, y, z); rewrite P; split; [exact Hi|apply (Q fp p q r Hp)]|exact Hu|].
        rewrite combine_vertices_compose, <- Ew. reflexivity.
      + right. eapply (A b _ _ _ _ u Sb); [apply in_all_pieces; exists i, (x, y, z); rewrite P; split; [exact Hi|apply (Q bp p q r Hp)]|exact Hu|].
        rewrite combine_vertices_compose, <- Ew. reflexivity. }
  destruct (C28_clip_mesh neg eps m dv pl front back He W) as (f'' & b'' & E'' & _ & _ & Cf & Cb & _). rewrite E in E''. injection E'' as <- <-.
  split; [exact K|]. split; intros H; (destruct K as [K|K]; [try exact K|try exact K]); exfalso; destruct K as (p & q & r & u & Hin & Hu & Ev).
  - apply Cb in Hin. destruct Hin as (Hin & _). specialize (Hin u Hu). rewrite <- Ev in Hin. lra.
  - apply Cf in Hin. destruct Hin as (Hin & _). specialize (Hin u Hu). rewrite <- Ev in Hin. lra.
Qed.
Print Assumptions C28_nothing_lost.

(** A mesh of one triangle in front and one behind the ground plane. *)
Definition two_sides : mesh vertex :=
  mkMesh [mkVertex (V3 0 0 1) vzero (V2 0 0); mkVertex (V3 1 0 2) vzero (V2 0 0); mkVertex (V3 0 1 3) vzero (V2 0 0); mkVertex (V3 0 0 (-1)) vzero (V2 0 0); mkVertex (V3 1 0 (-2)) vzero (V2 0 0); mkVertex (V3 0 1 (-3)) vzero (V2 0 0)]
         [(0, 1, 2)%nat; (3, 4, 5)%nat].
Example C28_example_wf : well_formed two_sides.
Proof. intros t [ <- |[ <- |[]]]; unfold in_range; cbn; lia. Qed.
Example C28_example neg dv : exists f b, clip_mesh neg 0 two_sides dv ground two_sides two_sides = Some (f, b) /\
  (exists t, nth_error (triangle_list two_sides) 0 = Some t /\ In t (triangle_list f)) /\
  (exists t, nth_error (triangle_list two_sides) 1 = Some t /\ In t (triangle_list b)).
Proof.
  destruct (C28_clip_mesh neg 0 two_sides dv ground two_sides two_sides (Rle_refl 0) C28_example_wf) as (f & b & E & _ & _ & _ & _ & K).
  exists f, b. split; [exact E|]. split.
  - eexists. split; [reflexivity|]. apply K; [left; reflexivity|]. cbn [position]. rewrite !side_ground. lra.
  - eexists. split; [reflexivity|]. apply K; [right; left; reflexivity|]. cbn [position]. rewrite !side_ground. lra.
Qed.

(** Clipping in place does not work: given the mesh itself as front mesh, ClipMesh clears it before reading it and both results are
    empty, also if the mesh was not. *)
Theorem C28_in_place_refuted : exists neg eps m dv pl back f b, 0 <= eps /\ well_formed m /\ tris m <> [] /\
  clip_mesh_self neg eps m dv pl back = Some (f, b) /\ tris f = [] /\ tris b = [].
Proof.
  exists (fun _ _ => false), 0, two_sides, (mkVertex vzero vzero (V2 0 0)), ground, two_sides, (clear two_sides), (clear two_sides).
  split; [lra|]. split; [exact C28_example_wf|]. split; [discriminate|]. split; [reflexivity|]. split; reflexivity.
Qed.
Print Assumptions C28_in_place_refuted.
