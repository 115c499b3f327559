(** A mesh generator that ends has met the conditions for it. *)
From Coq Require Import ZArith Reals List Bool Arith Lia Lra.
From Verif Require Import Model.Scalar Model.Vec Model.Aabb Model.Mesh Model.Interp Model.Bezier Model.Transforms Model.MeshGen Spec.MeshGenSpec
  Proofs.VecLemmas Proofs.MeshGenLoops Proofs.MeshGenPieces Proofs.MeshGenResult Proofs.MeshGenTotal.
Import ListNotations.
Local Open Scope nat_scope.

Lemma bind_ok {A B} (e : outcome A) (k : A -> outcome B) r : bind e k = Ok r -> exists a, e = Ok a /\ k a = Ok r.
Proof. destruct e; cbn; try discriminate. eauto. Qed.
Lemma for_le_ok {A} k n (body : nat -> A -> outcome A) a r : for_le k n body a = Ok r -> small n /\ for_list (seq k (S n - k)) body a = Ok r.
Proof. unfold for_le. destruct (Z.eqb_spec (Z.of_nat n) u32_max); [discriminate|]. intros H. split; assumption. Qed.
Lemma for_list_all {A} l (body : nat -> A -> outcome A) : forall a r i, for_list l body a = Ok r -> In i l -> exists a' r', body i a' = Ok r'.
Proof.
  induction l as [|x l IH]; intros a r i H Hi; [contradiction|]. cbn in H. apply bind_ok in H. destruct H as (a' & E & H).
  destruct Hi as [->|Hi]; [eauto|]. eapply IH; eassumption.
Qed.
Lemma for_le_all {A} k n (body : nat -> A -> outcome A) a r i : for_le k n body a = Ok r -> k <= i <= n -> exists a' r', body i a' = Ok r'.
Proof. intros H Hi. apply for_le_ok in H. destruct H as [_ H]. eapply for_list_all; [exact H|]. apply in_seq. lia. Qed.
Lemma for_le_small {A} k n (body : nat -> A -> outcome A) a r : for_le k n body a = Ok r -> small n.
Proof. intros H. now apply for_le_ok in H. Qed.

Lemma grid_inv {A} R C (body : nat -> nat -> A -> outcome A) m r :
  for_le 0 R (fun i m => for_le 0 C (body i) m) m = Ok r -> small R /\ small C.
Proof.
  intros H. split; [now apply for_le_small in H|]. destruct (for_le_all _ _ _ _ _ 0 H ltac:(lia)) as (a & r' & E). now apply for_le_small in E.
Qed.
Lemma mantle_inv m start step rx rz half side H V r : mantle_vertices m start step rx rz half side H V = Ok r -> small H /\ small V.
Proof.
  intros E. unfold mantle_vertices in E. apply bind_ok in E. destruct E as (s & E & _).
  split; [now apply for_le_small in E|]. destruct (for_le_all _ _ _ _ _ 0 E ltac:(lia)) as ([a m'] & r' & E'). apply bind_ok in E'.
  destruct E' as (? & E' & _). now apply for_le_small in E'.
Qed.
Lemma disc_inv m start step rx rz y side flip H K r : disc_vertices m start step rx rz y side flip H K = Ok r -> small H /\ small K.
Proof.
  intros E. unfold disc_vertices in E. apply bind_ok in E. destruct E as (s & E & _).
  split; [now apply for_le_small in E|]. destruct (for_le_all _ _ _ _ _ 0 E ltac:(lia)) as ([a m'] & r' & E'). apply bind_ok in E'.
  destruct E' as (? & E' & _). now apply for_le_small in E'.
Qed.
Lemma ring_inv m d step y side flip H K r : ring_vertices m d step y side flip H K = Ok r -> small H /\ small K.
Proof.
  intros E. unfold ring_vertices in E. apply bind_ok in E. destruct E as (s & E & _).
  split; [now apply for_le_small in E|]. destruct (for_le_all _ _ _ _ _ 0 E ltac:(lia)) as ([a m'] & r' & E'). apply bind_ok in E'.
  destruct E' as (? & E' & _). now apply for_le_small in E'.
Qed.
Lemma cone_inv m d step half H V r : cone_vertices m d step half H V = Ok r -> small H /\ small V.
Proof.
  intros E. unfold cone_vertices in E. apply bind_ok in E. destruct E as (s & E & _).
  split; [now apply for_le_small in E|]. destruct (for_le_all _ _ _ _ _ 0 E ltac:(lia)) as ([a m'] & r' & E'). apply bind_ok in E'.
  destruct E' as (? & E' & _). now apply for_le_small in E'.
Qed.
Lemma spiral_cover_inv m d turns phi side flip V K r : spiral_cover m d turns phi side flip V K = Ok r -> small V /\ small K.
Proof.
  intros E. unfold spiral_cover in E. apply bind_ok in E. destruct E as (s & E & _).
  split; [now apply for_le_small in E|]. destruct (for_le_all _ _ _ _ _ 0 E ltac:(lia)) as ([a m'] & r' & E'). apply bind_ok in E'.
  destruct E' as (? & E' & _). now apply for_le_small in E'.
Qed.
Lemma face_inv m rot sh_ sv soz H V alt r : build_face m rot sh_ sv soz H V alt = Ok r -> small H /\ small V.
Proof. intros E. unfold build_face in E. apply bind_ok in E. destruct E as (s & E & _). apply grid_inv in E. tauto. Qed.
Lemma wall_inv m rx rz half side noff tc0 tc1 M V r : wall_vertices m rx rz half side noff tc0 tc1 M V = Ok r -> small M /\ small V.
Proof. intros E. unfold wall_vertices in E. now apply grid_inv in E. Qed.

Lemma small_of_max k n : small (Nat.max k n) -> k < 1000 -> small n.
Proof. unfold small. lia. Qed.
Lemma small_zero : small 0. Proof. unfold small. lia. Qed.

Ltac step H := apply bind_ok in H; let a := fresh "m" in let E := fresh "E" in destruct H as (a & E & H).

Theorem generate_inv d m m' : generate d m = Ok m' -> defined d /\ ends d.
Proof.
  destruct d; cbn [generate]; intros G.
  - split; [exact I|]. unfold generate_cuboid in G. step G. step G. step G. apply face_inv in E, E1. destruct E as [A B], E1 as [C _].
    cbn [ends segment_counts In]. apply small_of_max in A, B, C; try lia. intuition (subst; assumption).
  - split; [exact I|]. unfold generate_ellipsoid in G. step G. apply grid_inv in E. destruct E as [A B].
    cbn [ends segment_counts In]. apply small_of_max in A, B; try lia. intuition (subst; assumption).
  - split; [exact I|]. unfold generate_cone in G. step G. step G. apply cone_inv in E. destruct E as [A B].
    assert (C : small (co_cover d)). { destruct (Nat.ltb_spec 0 (co_cover d)); [now apply disc_inv in E0|unfold small; lia]. }
    cbn [ends segment_counts In]. apply small_of_max in A, B; try lia. intuition (subst; assumption).
  - split; [exact I|]. unfold generate_cylinder in G. step G. step G. step G. apply mantle_inv in E. destruct E as [A B].
    assert (C : small (cy_bottom d)). { destruct (Nat.eqb_spec (cy_bottom d) 0); [unfold small; lia|now apply disc_inv in E0]. }
    assert (D : small (cy_top d)). { destruct (Nat.eqb_spec (cy_top d) 0); [unfold small; lia|now apply disc_inv in E1]. }
    cbn [ends segment_counts In]. apply small_of_max in A, B; try lia. intuition (subst; assumption).
  - split; [exact I|]. unfold generate_pie in G. step G. step G. apply mantle_inv in E. destruct E as [A B]. apply wall_inv in E0. destruct E0 as [C _].
    cbn [ends segment_counts In]. apply small_of_max in A, B, C; try lia. intuition (subst; assumption).
  - split; [exact I|]. unfold generate_pipe in G. step G. step G. step G. step G. apply mantle_inv in E. destruct E as [A B].
    assert (C : small (pp_bottom d)). { destruct (Nat.eqb_spec (pp_bottom d) 0); [unfold small; lia|now apply ring_inv in E1]. }
    assert (D : small (pp_top d)). { destruct (Nat.eqb_spec (pp_top d) 0); [unfold small; lia|now apply ring_inv in E2]. }
    cbn [ends segment_counts In]. apply small_of_max in A, B; try lia. intuition (subst; assumption).
  - split; [exact I|]. unfold generate_capsule in G. step G. step G. apply mantle_inv in E. destruct E as [A B]. apply grid_inv in E0. destruct E0 as [C _].
    cbn [ends segment_counts In]. apply small_of_max in A, B, C; try lia. intuition (subst; assumption).
  - split; [exact I|]. unfold generate_torus in G. step G. apply grid_inv in E. destruct E as [A B].
    cbn [ends segment_counts In]. apply small_of_max in A, B; try lia. intuition (subst; assumption).
  - split; exact I.
  - unfold generate_spiral in G. apply bind_ok in G. destruct G as (T & ET & G). unfold to_u32 in ET.
    destruct (Rltb (Rmax 0 (sp_turns d) * INR (Nat.max 3 (sp_u d))) (IZR (2 ^ 32))) eqn:L; [|discriminate]. injection ET as <-.
    fold (spiral_segments d) in G. split; [now apply Rltb_iff in L|].
    step G. step G. step G. apply grid_inv in E. destruct E as [A B].
    assert (C : small (sp_bottom d)). { destruct (Nat.eqb_spec (sp_bottom d) 0); [unfold small; lia|now apply spiral_cover_inv in E0]. }
    assert (D : small (sp_top d)). { destruct (Nat.eqb_spec (sp_top d) 0); [unfold small; lia|now apply spiral_cover_inv in E1]. }
    apply small_of_max in A; try lia. repeat split; assumption.
  - split; [|exact I]. cbn. unfold generate_curve in G. destruct (cv_curve d); [discriminate|discriminate].
  - unfold generate_bezier in G. step G. split.
    + cbn zeta. unfold defined. intros i j Hi Hj Hn.
      destruct (for_le_all _ _ _ _ _ i E ltac:(lia)) as (a & r & Ei). destruct (for_le_all _ _ _ _ _ j Ei ltac:(lia)) as (a' & r' & Ej).
      cbn beta in Ej. rewrite Hn in Ej. discriminate.
    + apply grid_inv in E. destruct E as [A B]. cbn [ends segment_counts In]. apply small_of_max in A, B; try lia. intuition (subst; assumption).
Qed.

Corollary generate_result d m m' : valid d -> generate d m = Ok m' -> m' = result (pieces d) m.
Proof. intros V G. pose proof (generate_inv _ _ _ G) as [D E]. rewrite (generate_ok d m V D E) in G. now injection G. Qed.
