(** * C87: the parts of a clipped mesh add up to it *)
From Coq Require Import Reals List Bool Arith Lra Lia Psatz.
From Verif Require Import Model.Scalar Model.Vec Model.Ext Model.Plane Model.Mesh Model.Interp Model.Clip.
From Verif Require Import Spec.PlaneSpec Spec.MeshSpec Spec.InterpSpec Spec.ClipSpec Spec.ClipAreaSpec.
From Verif Require Import Proofs.VecLemmas Proofs.PlaneLemmas Proofs.InterpLemmas Proofs.MeshLemmas2 Proofs.ClipLemmas Proofs.ClipMesh Proofs.ClipAreaLemmas.
Import ListNotations.
Local Open Scope R_scope.

(** The surfaces of both parts sum up to that of the mesh, and so do the enclosed volumes and the shadows in every direction, if no corner is nearer to the plane than the tolerance without being on it. *)
Theorem C87_parts_add_up_partial : forall neg eps m dv pl front back f b, 0 <= eps -> well_formed m -> clip_mesh neg eps m dv pl front back = Some (f, b) -> clear_of pl eps m ->
  surface f + surface b = surface m /\ enclosed f + enclosed b = enclosed m /\ forall n, shadow n f + shadow n b = shadow n m.
Proof.
  intros neg eps m dv pl front back f b He W E C. split; [|split; [|intros n]].
  - exact (proj1 (clip_total neg eps m dv pl front back f b _ He W E additive_surface) C).
  - exact (proj1 (clip_total neg eps m dv pl front back f b _ He W E additive_volume) C).
  - exact (proj1 (clip_total neg eps m dv pl front back f b _ He W E (additive_shadow n)) C).
Qed.
Print Assumptions C87_parts_add_up_partial.

(** In any case no surface is lost. *)
Theorem C87_never_less : forall neg eps m dv pl front back f b, 0 <= eps -> well_formed m -> clip_mesh neg eps m dv pl front back = Some (f, b) ->
  surface m <= surface f + surface b.
Proof.
  intros neg eps m dv pl front back f b He W E. apply (proj2 (clip_total neg eps m dv pl front back f b _ He W E additive_surface)).
  intros x y z. unfold tri_surface. pose proof (len_ge (cross (vsub y x) (vsub z x))). lra.
Qed.
Print Assumptions C87_never_less.

Definition slice (h : R) : mesh vertex :=
  mkMesh [mkVertex (V3 0 0 1) vzero (V2 0 0); mkVertex (V3 2 0 h) vzero (V2 0 0); mkVertex (V3 0 2 (-1)) vzero (V2 0 0)] [(0, 1, 2)%nat].
Lemma slice_wf h : well_formed (slice h).
Proof. intros t [<-|[]]. unfold in_range. cbn. lia. Qed.
Definition ground : plane := mkPlane (V3 0 0 1) 0.
Lemma ground_side x y z : side false ground (V3 x y z) = z.
Proof. unfold side, ground. vunfold. cbn. vunfold. ring. Qed.

(** With a corner within the tolerance, but not on the plane, a part of the triangle is in both meshes. *)
Theorem C87_overlap_refuted : forall neg eps dv front back, 0 < eps < 1 -> exists f b, clip_mesh neg eps (slice eps) dv ground front back = Some (f, b) /\ surface (slice eps) < surface f + surface b.
Proof.
  intros neg eps dv front back He. set (A := mkVertex (V3 0 0 1) vzero (V2 0 0)). set (B := mkVertex (V3 2 0 eps) vzero (V2 0 0)). set (C := mkVertex (V3 0 2 (-1)) vzero (V2 0 0)).
  assert (Sm : soup (slice eps) [(A, B, C)]) by reflexivity.
  destruct (clip_mesh_soup neg eps (slice eps) dv ground front back _ (Rlt_le _ _ (proj1 He)) Sm) as (f & b & E & Sf & Sb). exists f, b. split; [exact E|].
  unfold surface. rewrite (total_soup _ _ _ Sf), (total_soup _ _ _ Sb), (total_soup _ _ _ Sm). cbn [all_pieces].
  destruct (clip_triangle_spec false (neg 0%nat) ground (position A) (position B) (position C) eps ltac:(lra)) as [(F & _)|[(F & _)|(_ & _ & fp & bp & K & _ & Pf & Pb & Of & Ob & _)]].
  { exfalso. unfold A, B, C in F. cbn [position] in F. rewrite !ground_side in F. lra. } { exfalso. unfold A, B, C in F. cbn [position] in F. rewrite !ground_side in F. lra. }
  unfold pieces. rewrite K. cbn [fst snd]. rewrite !app_nil_r. assert (BA : forall lo s p, poly_ok (side false ground (position A)) (side false ground (position B)) (side false ground (position C)) lo s p -> Forall bary p) by (intros lo s p; apply Forall_impl; tauto).
  rewrite !fan_piece_sum by (eauto using additive_surface). unfold piece_sum at 1, rsum. cbn [map fold_right fst snd].
  assert (P : 0 < tri_surface (position A) (position B) (position C)).
  { unfold tri_surface. apply Rmult_lt_0_compat; [|lra]. apply sqrt_lt_R0. unfold len_sq, dot, cross, vsub. cbn [position A B C vx vy vz]. nra. }
  assert (G : 1 < fan_sum fp + fan_sum bp); [|nra].
  unfold clip_triangle in K. rewrite !relation_classify, !clip_edge_eq in K. cbn [position A B C] in K. rewrite !ground_side in K. clear - K He.
  destruct (classify_cases 1 eps ltac:(lra)) as [(E0 & _)|[(_ & ?)|(_ & ?)]]; [|lra..]. destruct (classify_cases eps eps ltac:(lra)) as [(_ & ?)|[(_ & ?)|(E1 & _)]]; [lra..|]. destruct (classify_cases (-1) eps ltac:(lra)) as [(_ & ?)|[(E2 & _)|(_ & ?)]]; [lra| |lra].
  rewrite E0, E1, E2 in K. unfold edge_step in K. cbn [relation_eqb negb andb Nat.ltb Nat.leb] in K.
  destruct (edge_hit_cross eps (-1)) as (t & H1); [lra|]. destruct (edge_hit_cross (-1) 1) as (u & H2); [lra|]. rewrite H1, H2 in K. apply edge_hit_some in H1, H2.
  cbn [clip_add poly_add length Nat.ltb Nat.leb app] in K. injection K as <- <-.
  unfold fan_sum, rsum, orientation, dot, cross; cbn [fan fan_from map fold_right fst snd bary_edge bary_corner vx vy vz]. assert (u = 1 / 2) by lra. subst u. nra.
Qed.
Print Assumptions C87_overlap_refuted.

(** A triangle with one corner on the plane, one in front of it and one behind, as C87_parts_add_up_partial asks for; its parts are not empty. *)
Example C87_example : forall neg dv, clear_of ground (1 / 2) (slice 0) /\ well_formed (slice 0) /\
  exists f b, clip_mesh neg (1 / 2) (slice 0) dv ground (slice 0) (slice 0) = Some (f, b) /\ tris f <> [] /\ tris b <> [].
Proof.
  intros neg dv. split; [|split; [apply slice_wf|]].
  - intros a b c v [[= <- <- <-]|[]] [ -> | [ -> | -> ]]; cbn [position]; rewrite ground_side; [right; rewrite Rabs_pos_eq; lra|left; reflexivity|right; rewrite Rabs_left; lra].
  - set (A := mkVertex (V3 0 0 1) vzero (V2 0 0)). set (B := mkVertex (V3 2 0 0) vzero (V2 0 0)). set (C := mkVertex (V3 0 2 (-1)) vzero (V2 0 0)).
    assert (Sm : soup (slice 0) [(A, B, C)]) by reflexivity.
    destruct (clip_mesh_soup neg (1 / 2) (slice 0) dv ground (slice 0) (slice 0) _ ltac:(lra) Sm) as (f & b & E & Sf & Sb). exists f, b. split; [exact E|].
    cbn [all_pieces] in Sf, Sb. unfold pieces in Sf, Sb.
    destruct (clip_triangle_spec false (neg 0%nat) ground (position A) (position B) (position C) (1 / 2) ltac:(lra)) as [(F & _)|[(F & _)|(_ & _ & fp & bp & K & _ & _ & _ & _ & _ & Lb & _ & Lf)]].
    { exfalso. unfold A, B, C in F. cbn [position] in F. rewrite !ground_side in F. lra. } { exfalso. unfold A, B, C in F. cbn [position] in F. rewrite !ground_side in F. lra. }
    rewrite K in Sf, Sb. cbn [fst snd] in Sf, Sb. rewrite app_nil_r in Sf, Sb. cbn [position A B C] in Lf. rewrite !ground_side in Lf. specialize (Lf ltac:(lra)).
    split; intros Z; [unfold soup, triangle_list in Sf; rewrite Z in Sf; destruct fp as [|? [|? [|? ?]]]; cbn in Lf; try lia; discriminate|unfold soup, triangle_list in Sb; rewrite Z in Sb; destruct bp as [|? [|? [|? ?]]]; cbn in Lb; try lia; discriminate].
Qed.
