(** * C90: a cut opens a closed mesh only along the plane *)
From Coq Require Import ZArith Reals List Bool Arith Lra Lia Psatz.
From Verif Require Import Model.Scalar Model.Vec Model.Ext Model.Plane Model.Mesh Model.Interp Model.Clip.
From Verif Require Import Spec.PlaneSpec Spec.MeshSpec Spec.InterpSpec Spec.ClipSpec Spec.ClipAreaSpec Spec.ClosedSpec Spec.CutSpec.
From Verif Require Model.MeshGen Spec.MeshGenSpec Proofs.MeshGenMain Proofs.MeshGenClosed.
From Verif Require Import Proofs.VecLemmas Proofs.PlaneLemmas Proofs.InterpLemmas Proofs.MeshLemmas2 Proofs.ClipLemmas Proofs.ClipMesh Proofs.ClipAreaLemmas Proofs.CutLemmas Proofs.CutVolume.
From Verif Require Spec.VolumeSpec.
Import ListNotations.
Local Open Scope R_scope.

(** Both parts of a closed mesh are closed but for edges in the plane, and the borders of the parts fit together, if no corner is nearer to the plane than the tolerance without being on it. *)
Theorem C90_open_only_along_plane_partial : forall neg eps m dv pl front back f b, 0 <= eps -> well_formed m -> clip_mesh neg eps m dv pl front back = Some (f, b) -> clear_of pl eps m ->
  closed (faces m) -> (forall p q, border (faces f) p q \/ border (faces b) p q -> in_plane pl p q) /\ closed (faces f ++ faces b).
Proof.
  intros neg eps m dv pl front back f b He W E C CL. pose proof (cut_borders pl neg eps m dv front back f b He W E C) as K.
  split; intros p q.
  - intros H. destruct (proj1 (K p q) H) as [P|(x & y & N & _)]; [exact P|]. exfalso. apply N, CL.
  - destruct (Nat.eq_dec (uses (faces f ++ faces b) p q) (uses (faces f ++ faces b) q p)) as [E'|N]; [exact E'|].
    destruct (proj2 (K p q) N) as (x & y & B & _). exfalso. apply B, CL.
Qed.
Print Assumptions C90_open_only_along_plane_partial.

(** Meshes that are open: a border of a part is in the plane or a part of a border of the mesh, and a border of the parts together is always a part of a border of the mesh. *)
Theorem C90_borders_partial : forall neg eps m dv pl front back f b, 0 <= eps -> well_formed m -> clip_mesh neg eps m dv pl front back = Some (f, b) -> clear_of pl eps m ->
  forall p q,
  (border (faces f) p q \/ border (faces b) p q -> in_plane pl p q \/ exists x y, border (faces m) x y /\ part_of_edge x y p q) /\
  (border (faces f ++ faces b) p q -> exists x y, border (faces m) x y /\ part_of_edge x y p q).
Proof. intros neg eps m dv pl front back f b He W E C. exact (cut_borders pl neg eps m dv front back f b He W E C). Qed.
Print Assumptions C90_borders_partial.

(** So each part of a closed mesh has a volume: it can be measured from any point of the plane.  The volumes add up to the volume of the mesh. *)
Theorem C90_volumes_partial : forall neg eps m dv pl front back f b, 0 <= eps -> well_formed m -> clip_mesh neg eps m dv pl front back = Some (f, b) -> clear_of pl eps m ->
  closed (faces m) -> Plane.normal pl <> vzero -> forall p q, on_plane false pl p -> on_plane false pl q ->
  volume_from p (faces f) = volume_from q (faces f) /\ volume_from p (faces b) = volume_from q (faces b) /\
  volume_from p (faces f) + volume_from p (faces b) = VolumeSpec.volume (faces m).
Proof.
  intros neg eps m dv pl front back f b He W E C CL N p q P Q.
  destruct (C90_open_only_along_plane_partial neg eps m dv pl front back f b He W E C CL) as [B _].
  split; [apply (flat_border_volume pl); auto|]. split; [apply (flat_border_volume pl); auto|].
  destruct (wf_soup m W) as (xs & Sm). destruct (clip_mesh_soup neg eps m dv pl front back xs He Sm) as (f' & b' & E' & Sf & Sb). rewrite E in E'. injection E' as <- <-.
  pose proof (proj1 (clip_total neg eps m dv pl front back f b _ He W E (additive_from p)) C) as T.
  rewrite (total_from p f _ Sf), (total_from p b _ Sb), (total_from p m _ Sm) in T. rewrite T, (closed_volume p vzero _ CL).
  unfold volume_from. f_equal. rewrite <- (map_id (faces m)) at 2. apply map_ext. intros [[x y] z]. cbn [MeshGenSpec.tmap]. assert (V : forall v, vsub v vzero = v) by (intros [v1 v2 v3]; unfold vsub, vzero; cbn [vx vy vz]; f_equal; ring). now rewrite !V.
Qed.
Print Assumptions C90_volumes_partial.

(** Without a tolerance no corner is too near. *)
Lemma clear_of_zero pl m : clear_of pl 0 m.
Proof. intros a b c v _ _. cbn zeta. destruct (Req_EM_T (side false pl (position v)) 0) as [Z|N]; [left; exact Z|right; apply Rabs_pos_lt, N]. Qed.
(** The solids of the mesh generators, cut anywhere with tolerance 0. *)
Theorem C90_generated_solids : forall neg d m dv pl front back f b, MeshGenSpec.valid d -> (Z.of_nat (MeshGenSpec.vertex_count d) <= 2 ^ 32)%Z -> solid d ->
  MeshGen.generate d (mkMesh [] []) = MeshGen.Ok m -> clip_mesh neg 0 m dv pl front back = Some (f, b) ->
  (forall p q, border (faces f) p q \/ border (faces b) p q -> in_plane pl p q) /\ closed (faces f ++ faces b).
Proof.
  intros neg d m dv pl front back f b V N S G E.
  pose proof (MeshGenClosed.closed_holds d _ _ V N S G) as CL. change (MeshGenSpec.new_triangles (mkMesh [] []) m) with (tris m) in CL.
  pose proof (MeshGenMain.indices_hold d _ _ V N G) as IX. change (MeshGenSpec.new_triangles (mkMesh [] []) m) with (tris m) in IX.
  refine (C90_open_only_along_plane_partial neg 0 m dv pl front back f b (Rle_refl 0) _ E (clear_of_zero pl m) CL).
  apply (soup_wf m (MeshGenSpec.surface d)). unfold soup, triangle_list. rewrite <- IX. apply map_ext. now intros [[x y] z].
Qed.
Print Assumptions C90_generated_solids.

(** A triangle with two sides: its first corner is behind the plane, but within the tolerance. *)
Definition leaf (eps : R) : mesh vertex :=
  mkMesh [mkVertex (V3 0 0 (- eps)) vzero (V2 0 0); mkVertex (V3 2 0 1) vzero (V2 0 0); mkVertex (V3 0 2 (-1)) vzero (V2 0 0)] [(0, 1, 2)%nat; (0, 2, 1)%nat].
Lemma leaf_wf eps : well_formed (leaf eps).
Proof. intros t [<-|[<-|[]]]; unfold in_range; cbn; lia. Qed.
Lemma leaf_closed eps : closed (faces (leaf eps)).
Proof.
  intros p q. set (A := V3 0 0 (- eps)). set (B := V3 2 0 1). set (C := V3 0 2 (-1)).
  assert (F : faces (leaf eps) = [(A, B, C); (A, C, B)]) by reflexivity. rewrite F.
  pose proof (net_circ p q [(A, B, C); (A, C, B)]) as K. rewrite !circ_cons in K. change (circ (net p q) []) with 0%Z in K.
  pose proof (net_anti p q A B). pose proof (net_anti p q B C). pose proof (net_anti p q A C). lia.
Qed.
Definition ground : plane := mkPlane (V3 0 0 1) 0.
Lemma ground_side x y z : side false ground (V3 x y z) = z.
Proof. unfold side, ground. vunfold. cbn. vunfold. ring. Qed.

(** With a corner within the tolerance, but not on the plane, the edge to a corner far from the plane becomes a border. *)
Theorem C90_tolerance_refuted : forall neg eps dv front back, 0 < eps < 1 -> exists f b p q, well_formed (leaf eps) /\ closed (faces (leaf eps)) /\
  clip_mesh neg eps (leaf eps) dv ground front back = Some (f, b) /\ border (faces f) p q /\ side false ground q = 1.
Proof.
  intros neg eps dv front back He. set (A := mkVertex (V3 0 0 (- eps)) vzero (V2 0 0)). set (B := mkVertex (V3 2 0 1) vzero (V2 0 0)). set (C := mkVertex (V3 0 2 (-1)) vzero (V2 0 0)).
  assert (Sm : soup (leaf eps) [(A, B, C); (A, C, B)]) by reflexivity.
  destruct (clip_mesh_soup neg eps (leaf eps) dv ground front back _ (Rlt_le _ _ (proj1 He)) Sm) as (f & b & E & Sf & Sb).
  exists f, b, (position A), (position B). split; [apply leaf_wf|]. split; [apply leaf_closed|]. split; [exact E|]. split; [|apply ground_side].
  rewrite (faces_soup _ _ Sf). apply border_circ. cbn [all_pieces]. clear Sf Sb E f b.
  destruct (classify_cases (- eps) eps ltac:(lra)) as [(_ & ?)|[(_ & ?)|(E0 & _)]]; [lra..|]. destruct (classify_cases 1 eps ltac:(lra)) as [(E1 & _)|[(_ & ?)|(_ & ?)]]; [|lra..]. destruct (classify_cases (-1) eps ltac:(lra)) as [(_ & ?)|[(E2 & _)|(_ & ?)]]; [lra| |lra].
  assert (SA : side false ground (position A) = - eps) by apply ground_side. assert (SB : side false ground (position B) = 1) by apply ground_side. assert (SC : side false ground (position C) = -1) by apply ground_side.
  assert (Q1 : exists bp, clip_triangle false (neg 0%nat) ground (position A) (position B) (position C) eps =
    Some (Clipped, ([bary_corner 0; bary_edge 0 (- eps / (- eps - 1)); bary_corner 1; bary_edge 1 (1 / (1 - -1))], bp))).
  { unfold clip_triangle. rewrite !relation_classify, !clip_edge_eq, SA, SB, SC, E0, E1, E2. unfold edge_step. cbn [relation_eqb negb andb Nat.ltb Nat.leb].
    rewrite (hit_cross (- eps) 1), (hit_cross 1 (-1)) by lra. cbn [clip_add poly_add length Nat.ltb Nat.leb app]. eexists. reflexivity. }
  assert (Q2 : exists bp, clip_triangle false (neg 1%nat) ground (position A) (position C) (position B) eps =
    Some (Clipped, ([bary_corner 0; bary_edge 1 (-1 / (-1 - 1)); bary_corner 2], bp))).
  { unfold clip_triangle. rewrite !relation_classify, !clip_edge_eq, SA, SB, SC, E0, E1, E2. unfold edge_step. cbn [relation_eqb negb andb Nat.ltb Nat.leb].
    rewrite (edge_hit_none (- eps) (-1)), (hit_cross (-1) 1) by lra. cbn [clip_add poly_add length Nat.ltb Nat.leb app]. eexists. reflexivity. }
  destruct Q1 as (b1 & Q1), Q2 as (b2 & Q2). unfold pieces. rewrite Q1, Q2. cbn [fst snd]. rewrite !map_app, !circ_app, !fan_spaces.
  set (a := position A) in *. set (c := position B) in *. set (r := position C) in *. clearbody a c r. unfold place. cbn [fan fan_from map fst snd].
  rewrite !circ_cons. change (circ (net a c) (map (Spec.MeshGenSpec.tmap position) [])) with 0%Z. change (circ (net a c) []) with 0%Z.
  rewrite !corner_0, !corner_1, !corner_2, !edge_0, !edge_1.
  assert (X : side false ground (seg a c (- eps / (- eps - 1))) = 0) by (rewrite seg_side, SA, SB; field; lra).
  assert (Y : side false ground (seg c r (1 / (1 - -1))) = 0) by (rewrite seg_side, SB, SC; field).
  assert (Z : side false ground (seg r c (-1 / (-1 - 1))) = 0) by (rewrite seg_side, SB, SC; field).
  set (x := seg a c _) in *. set (y := seg c r _) in *. set (z := seg r c _) in *. clearbody x y z.
  assert (O : forall u v, side false ground u = 0 \/ side false ground v = 0 -> net a c u v = 0%Z).
  { intros u v H. apply net_zero; intros [= -> ->]; lra. }
  rewrite (O a x), (O x c), (O c y), (O y a), (O a z), (O z c) by auto.
  assert (N : net a c a c = 1%Z).
  { unfold net, ind. destruct (edge_dec (a, c) (a, c)) as [_|H]; [|congruence]. destruct (edge_dec (a, c) (c, a)) as [H|_]; [|reflexivity]. injection H as H1 H2. exfalso. rewrite H1 in SA. lra. }
  pose proof (net_anti a c a c). lia.
Qed.
Print Assumptions C90_tolerance_refuted.

(** A tetrahedron whose apex is in front of the plane satisfies the hypotheses, and its front part has a border. *)
Definition tent : mesh vertex :=
  mkMesh [mkVertex (V3 0 0 1) vzero (V2 0 0); mkVertex (V3 0 0 (-1)) vzero (V2 0 0); mkVertex (V3 2 0 (-1)) vzero (V2 0 0); mkVertex (V3 0 2 (-1)) vzero (V2 0 0)]
    [(0, 1, 2)%nat; (0, 2, 3)%nat; (0, 3, 1)%nat; (1, 3, 2)%nat].
Lemma tent_side neg k b c : side false ground (position b) = -1 -> side false ground (position c) = -1 ->
  let P := mkVertex (V3 0 0 1) vzero (V2 0 0) in
  map (MeshGenSpec.tmap position) (fst (pieces neg (1 / 2) ground k (P, b, c))) = [(position P, seg (position P) (position b) (1 / 2), seg (position c) (position P) (1 / 2))].
Proof.
  intros SB SC P. assert (SP : side false ground (position P) = 1) by apply ground_side.
  destruct (classify_cases 1 (1 / 2) ltac:(lra)) as [(E1 & _)|[(_ & ?)|(_ & ?)]]; [|lra..]. destruct (classify_cases (-1) (1 / 2) ltac:(lra)) as [(_ & ?)|[(E2 & _)|(_ & ?)]]; [lra| |lra].
  assert (Q : exists bp, clip_triangle false (neg k) ground (position P) (position b) (position c) (1 / 2) =
    Some (Clipped, ([bary_corner 0; bary_edge 0 (1 / (1 - -1)); bary_edge 2 (-1 / (-1 - 1))], bp))).
  { unfold clip_triangle. rewrite !relation_classify, !clip_edge_eq, SP, SB, SC, E1, E2. unfold edge_step. cbn [relation_eqb negb andb Nat.ltb Nat.leb].
    rewrite (hit_cross 1 (-1)), (edge_hit_none (-1) (-1)), (hit_cross (-1) 1) by lra. cbn [clip_add poly_add length Nat.ltb Nat.leb app]. eexists. reflexivity. }
  destruct Q as (bp & Q). unfold pieces. rewrite Q. cbn [fst snd]. rewrite fan_spaces. unfold place. cbn [fan fan_from map fst snd]. rewrite corner_0, edge_0, edge_2.
  replace (1 / (1 - -1)) with (1 / 2) by field. replace (-1 / (-1 - 1)) with (1 / 2) by field. reflexivity.
Qed.
Example C90_example : forall neg dv, well_formed tent /\ closed (faces tent) /\ clear_of ground (1 / 2) tent /\
  exists f b p q, clip_mesh neg (1 / 2) tent dv ground tent tent = Some (f, b) /\ border (faces f) p q.
Proof.
  intros neg dv. set (P := mkVertex (V3 0 0 1) vzero (V2 0 0)). set (Q := mkVertex (V3 0 0 (-1)) vzero (V2 0 0)). set (R := mkVertex (V3 2 0 (-1)) vzero (V2 0 0)). set (S := mkVertex (V3 0 2 (-1)) vzero (V2 0 0)).
  assert (Sm : soup tent [(P, Q, R); (P, R, S); (P, S, Q); (Q, S, R)]) by reflexivity. split; [exact (soup_wf _ _ Sm)|]. split; [|split].
  - intros p q. rewrite (faces_soup _ _ Sm). cbn [map MeshGenSpec.tmap]. set (l := [_; _; _; _]). pose proof (net_circ p q l) as K. unfold l in K at 1. rewrite !circ_cons in K. change (circ (net p q) []) with 0%Z in K.
    set (p1 := position P) in *. set (q1 := position Q) in *. set (r1 := position R) in *. set (s1 := position S) in *.
    pose proof (net_anti p q p1 q1). pose proof (net_anti p q p1 r1). pose proof (net_anti p q p1 s1). pose proof (net_anti p q q1 r1). pose proof (net_anti p q q1 s1). pose proof (net_anti p q r1 s1). lia.
  - intros a b c v I V. cbn zeta. assert (D : v = P \/ v = Q \/ v = R \/ v = S).
    { rewrite Sm in I. cbn [map In] in I. destruct I as [[= <- <- <-]|[[= <- <- <-]|[[= <- <- <-]|[[= <- <- <-]|[]]]]]; tauto. }
    right. destruct D as [ -> | [ -> | [ -> | -> ]]]; unfold P, Q, R, S; cbn [position]; rewrite ground_side; [rewrite Rabs_pos_eq; lra|rewrite Rabs_left; lra..].
  - destruct (clip_mesh_soup neg (1 / 2) tent dv ground tent tent _ ltac:(lra) Sm) as (f & b & E & Sf & _).
    exists f, b, (V3 0 0 0), (V3 1 0 0). split; [exact E|]. rewrite (faces_soup _ _ Sf). apply border_circ. cbn [all_pieces].
    destruct (pieces neg (1 / 2) ground 0 (P, Q, R)) as [f0 b0] eqn:E0. destruct (pieces neg (1 / 2) ground 1 (P, R, S)) as [f1 b1] eqn:E1.
    destruct (pieces neg (1 / 2) ground 2 (P, S, Q)) as [f2 b2] eqn:E2. destruct (pieces neg (1 / 2) ground 3 (Q, S, R)) as [f3 b3] eqn:E3. cbn [fst snd].
    pose proof (tent_side neg 0%nat Q R (ground_side _ _ _) (ground_side _ _ _)) as T0. pose proof (tent_side neg 1%nat R S (ground_side _ _ _) (ground_side _ _ _)) as T1. pose proof (tent_side neg 2%nat S Q (ground_side _ _ _) (ground_side _ _ _)) as T2.
    cbn zeta in T0, T1, T2. fold P in T0, T1, T2. rewrite E0 in T0. rewrite E1 in T1. rewrite E2 in T2. cbn [fst] in T0, T1, T2.
    assert (T3 : f3 = []).
    { unfold pieces in E3. destruct (clip_triangle_spec false (neg 3%nat) ground (position Q) (position S) (position R) (1 / 2) ltac:(lra)) as [(F & _)|[(_ & K)|(_ & F & _)]].
      - exfalso. unfold Q, R, S in F. cbn [position] in F. rewrite !ground_side in F. lra.
      - rewrite K in E3. congruence.
      - exfalso. apply F. unfold Q, R, S. cbn [position]. rewrite !ground_side. lra. }
    subst f3. rewrite !map_app, !circ_app, T0, T1, T2, !circ_cons. cbn [map app]. change (circ (net (V3 0 0 0) (V3 1 0 0)) []) with 0%Z.
    assert (X : seg (position P) (position Q) (1 / 2) = V3 0 0 0 /\ seg (position Q) (position P) (1 / 2) = V3 0 0 0) by (split; unfold seg, P, Q; cbn [position]; vunfold; f_equal; field).
    assert (Y : seg (position P) (position R) (1 / 2) = V3 1 0 0 /\ seg (position R) (position P) (1 / 2) = V3 1 0 0) by (split; unfold seg, P, R; cbn [position]; vunfold; f_equal; field).
    assert (Z : seg (position P) (position S) (1 / 2) = V3 0 1 0 /\ seg (position S) (position P) (1 / 2) = V3 0 1 0) by (split; unfold seg, P, S; cbn [position]; vunfold; f_equal; field).
    destruct X as [-> ->], Y as [-> ->], Z as [-> ->]. change (position P) with (V3 0 0 1).
    assert (D01 : V3 0 0 0 <> V3 1 0 0) by (intros [=]; lra). assert (D02 : V3 0 0 0 <> V3 0 1 0) by (intros [=]; lra). assert (D12 : V3 1 0 0 <> V3 0 1 0) by (intros [=]; lra).
    assert (DP0 : V3 0 0 1 <> V3 0 0 0) by (intros [=]; lra). assert (DP1 : V3 0 0 1 <> V3 1 0 0) by (intros [=]; lra).
    set (x := V3 0 0 0) in *. set (y := V3 1 0 0) in *. set (z := V3 0 1 0) in *. set (p := V3 0 0 1) in *. clearbody x y z p.
    assert (N : net x y x y = 1%Z) by (unfold net, ind; destruct (edge_dec (x, y) (x, y)), (edge_dec (x, y) (y, x)); try congruence; reflexivity).
    rewrite N, !net_zero by congruence. lia.
Qed.
