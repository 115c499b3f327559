(** C68, C69: the solids of the mesh generators are closed and their triangles look outwards. *)
From Coq Require Import ZArith Reals List Bool Arith Lia Lra.
From Verif Require Import Model.Scalar Model.Vec Model.Aabb Model.Mesh Model.Interp Model.Bezier Model.Transforms Model.MeshGen Spec.MeshGenSpec Spec.ClosedSpec
  Spec.WindingSpec Proofs.MeshGenMain Proofs.MeshGenClosed Proofs.MeshGenWinding.
Import ListNotations.
Local Open Scope R_scope.

(** C68: up to 2^32 vertices, every edge of a solid is used as often in one direction as in the other. *)
Theorem C68_closed_partial d m m' : valid d -> (Z.of_nat (vertex_count d) <= 2 ^ 32)%Z -> solid d -> generate d m = Ok m' ->
  closed (geometry m' (new_triangles m m')).
Proof. exact (closed_holds d m m'). Qed.
Print Assumptions C68_closed_partial.

(** A spiral with both covers is closed exactly if it ends where a segment ends. *)
Theorem C68_spiral d m m' : valid (DSpiral d) -> (Z.of_nat (vertex_count (DSpiral d)) <= 2 ^ 32)%Z -> sp_top d <> 0%nat -> sp_bottom d <> 0%nat ->
  vx (sp_tube d) <> 0 -> vy (sp_tube d) <> 0 -> vz (sp_tube d) <> 0 -> generate (DSpiral d) m = Ok m' ->
  closed (geometry m' (new_triangles m m')) <-> exists n, Rmax 0 (sp_turns d) * INR (Nat.max 3 (sp_u d)) = INR n.
Proof. exact (gap_holds d m m'). Qed.
Print Assumptions C68_spiral.

(** Half a turn with three segments per turn *)
Definition half_turn : spiral := mkSpiral (V2 2 2) (V3 1 1 1) 1 (1 / 2) 3 3 1 1 false.
Lemma half_turn_segments : Rmax 0 (sp_turns half_turn) * INR (Nat.max 3 (sp_u half_turn)) = 3 / 2.
Proof. cbn. unfold Rmax. destruct (Rle_dec 0 (1 / 2)); lra. Qed.
Lemma half_turn_ok : valid (DSpiral half_turn) /\ defined (DSpiral half_turn) /\ (Z.of_nat (vertex_count (DSpiral half_turn)) < 2 ^ 32)%Z.
Proof.
  split; [intros n; cbn [half_turn segment_counts sp_u sp_v sp_top sp_bottom In]; lia|].
  split; [unfold defined; rewrite half_turn_segments; lra|].
  unfold vertex_count, spiral_segments. rewrite half_turn_segments.
  assert (E : Int_part (3 / 2) = 1%Z) by (unfold Int_part; rewrite <- (tech_up (3 / 2) 2) by lra; reflexivity). rewrite E. vm_compute. reflexivity.
Qed.
Theorem C68_spiral_refuted : exists d, valid (DSpiral d) /\ sp_top d <> 0%nat /\ sp_bottom d <> 0%nat /\
  forall m, exists m', generate (DSpiral d) m = Ok m' /\ ~ closed (geometry m' (new_triangles m m')).
Proof.
  destruct half_turn_ok as (W & D & S). exists half_turn. split; [exact W|]. split; [discriminate|]. split; [discriminate|]. intros m.
  destruct (succeeds_holds _ m W D S) as [m' G]. exists m'. split; [exact G|]. intros C.
  apply (C68_spiral _ _ _ W ltac:(lia) ltac:(discriminate) ltac:(discriminate) ltac:(cbn; lra) ltac:(cbn; lra) ltac:(cbn; lra) G) in C.
  destruct C as [n N]. rewrite half_turn_segments in N. rewrite INR_IZR_INZ in N.
  assert (1 < Z.of_nat n < 2)%Z; [split; apply lt_IZR; lra|lia].
Qed.
Print Assumptions C68_spiral_refuted.

(** C69: if cross sections are circles, the front of each triangle looks along the normals of its corners. *)
Theorem C69_front_is_normal_partial d m m' : valid d -> (Z.of_nat (vertex_count d) <= 2 ^ 32)%Z -> round d -> generate d m = Ok m' ->
  forall t, In t (new_triangles m m') -> exists c, corners m' t = Some c /\ faces normal c.
Proof. exact (winding_holds d m m'). Qed.
Print Assumptions C69_front_is_normal_partial.

(** For all positive extents, the front of each triangle of a convex solid looks away from its center. *)
Theorem C69_front_is_outside d m m' : valid d -> (Z.of_nat (vertex_count d) <= 2 ^ 32)%Z -> convex_solid d -> generate d m = Ok m' ->
  forall t, In t (new_triangles m m') -> exists c, corners m' t = Some c /\ faces position c.
Proof. exact (outward_holds d m m'). Qed.
Print Assumptions C69_front_is_outside.

(** On an elliptic cylinder a normal can look to the back side of its triangle. *)
Theorem C69_front_is_normal_refuted : exists d m m' t c, valid d /\ convex_solid d /\ generate d m = Ok m' /\ In t (new_triangles m m') /\ corners m' t = Some c /\
  dot (front c) (normal (fst (fst c))) < 0.
Proof. exact winding_refuted_holds. Qed.
Print Assumptions C69_front_is_normal_refuted.

(** ** Examples *)
Definition ex_pie : descriptor := DPie (mkPie (V2 2 2) 3 8 2 2 1 0 true).
Example ex_pie_ok : valid ex_pie /\ defined ex_pie /\ solid ex_pie /\ round ex_pie /\ vertex_count ex_pie = 83%nat /\ triangle_count ex_pie = 96%nat.
Proof.
  split; [intros n; cbn [ex_pie segment_counts pi_u pi_v pi_cover In]; lia|]. split; [exact I|]. split; [cbn; lia|].
  split; [split; [cbn; lra|exists 2; split; [lra|reflexivity]]|]. split; reflexivity.
Qed.
Example ex_capsule_ok : let d := DCapsule (mkCapsule (V3 1 2 3) 4 6 1 3 false) in valid d /\ defined d /\ solid d /\ convex_solid d.
Proof.
  split; [intros n; cbn [segment_counts ca_u ca_v ca_cap In]; lia|]. repeat split; cbn; lra.
Qed.
(** A cylinder without its top is not closed in the sense of [solid], and a triangle whose corners are exchanged has another front. *)
Example ex_front : let a := mkVertex (V3 0 0 0) (V3 0 0 1) (V2 0 0) in let b := mkVertex (V3 1 0 0) (V3 0 0 1) (V2 0 0) in let c := mkVertex (V3 0 1 0) (V3 0 0 1) (V2 0 0) in
  faces normal (a, b, c) /\ ~ faces normal (a, c, b).
Proof.
  cbn zeta. split.
  - right. unfold front, dot, cross, vsub. cbn. lra.
  - intros [H|(H & _)]; [apply (f_equal vz) in H|]; unfold front, dot, cross, vsub in H; cbn in H; lra.
Qed.
