(** The mesh generators append patches. *)
From Coq Require Import ZArith Reals List Bool Arith Lia Lra.
From Verif Require Import Model.Scalar Model.Vec Model.Aabb Model.Mesh Model.Interp Model.Bezier Model.Transforms Model.MeshGen Spec.MeshGenSpec
  Proofs.MeshGenLoops Proofs.MeshGenPieces Proofs.MeshGenResult Proofs.MeshGenTotal Proofs.MeshGenInv Proofs.MeshGenRange Proofs.MeshGenEdges Proofs.MeshGenIdeal Proofs.MeshGenFacts.
Import ListNotations.
Local Open Scope nat_scope.

Lemma new_vertices_result ps m : new_vertices m (result ps m) = flat_map pv ps.
Proof. unfold new_vertices, result. cbn [verts]. now rewrite skipn_app, skipn_all, Nat.sub_diag. Qed.
Lemma new_triangles_result ps m : new_triangles m (result ps m) = assemble (length (verts m)) ps.
Proof. unfold new_triangles, result. cbn [tris]. now rewrite skipn_app, skipn_all, Nat.sub_diag. Qed.

Lemma assemble_range ps : Forall in_piece ps -> forall off,
  Forall (tri_all (fun k => off <= k < off + nv ps)) (assemble off ps).
Proof.
  induction 1 as [|p ps P _ IH]; intros off; cbn [assemble]; [constructor|]. rewrite nv_cons. apply Forall_app. split.
  - apply (Forall_sh _ _ off) with (1 := P). intros. lia.
  - eapply tri_all_impl; [|apply IH]. intros. cbn beta in *. lia.
Qed.

Lemma extends_holds d m m' : valid d -> generate d m = Ok m' ->
  verts m' = verts m ++ new_vertices m m' /\ tris m' = tris m ++ new_triangles m m' /\
  forall a b c, In (a, b, c) (new_triangles m m') ->
    length (verts m) <= a < length (verts m') /\ length (verts m) <= b < length (verts m') /\ length (verts m) <= c < length (verts m').
Proof.
  intros V G. rewrite (generate_result _ _ _ V G). rewrite new_vertices_result, new_triangles_result. repeat split; try reflexivity.
  all: pose proof (assemble_range _ (pieces_range d) (length (verts m))) as F; rewrite Forall_forall in F; apply F in H; cbn [tri_all] in H;
    cbn [result verts]; rewrite ?app_length, ?nv_flat; lia.
Qed.
Lemma succeeds_holds d m : valid d -> defined d -> (Z.of_nat (vertex_count d) < 2 ^ 32)%Z -> exists m', generate d m = Ok m'.
Proof. intros V D F. eexists. apply generate_ok; [assumption|assumption|now apply fits_ends]. Qed.
Lemma counts_holds d m m' : valid d -> generate d m = Ok m' ->
  length (verts m') = length (verts m) + vertex_count d /\ length (tris m') = length (tris m) + triangle_count d.
Proof.
  intros V G. destruct (generate_inv _ _ _ G) as [D _]. rewrite (generate_result _ _ _ V G). cbn [result verts tris].
  rewrite !app_length, nv_flat, nt_assemble, (pieces_nv d D), (pieces_nt d D). split; reflexivity.
Qed.

(** Edges *)
Lemma edges_in {A} (P : A -> Prop) l : Forall (tri_all P) l -> forall e, In e (directed_edges l) -> P (fst e) /\ P (snd e).
Proof.
  intros F e H. apply in_flat_map in H. destruct H as ([[a b] c] & Ht & He). rewrite Forall_forall in F. apply F in Ht. cbn in Ht, He.
  intuition (subst; cbn; assumption).
Qed.
Lemma nodup_map_on {A B} (f : A -> B) l : (forall x y, In x l -> In y l -> f x = f y -> x = y) -> NoDup l -> NoDup (map f l).
Proof.
  intros I N. induction N as [|x l H N IH]; cbn; constructor.
  - intros C. apply in_map_iff in C. destruct C as (y & E & Hy). apply I in E; [subst; contradiction|now right|now left].
  - apply IH. intros. apply I; [now right|now right|assumption].
Qed.
Lemma nodup_app' {A} (l l' : list A) : NoDup l -> NoDup l' -> (forall x, In x l -> In x l' -> False) -> NoDup (l ++ l').
Proof.
  intros N N' D. induction N as [|x l H N IH]; cbn; [assumption|]. constructor.
  - intros C. apply in_app_or in C. destruct C; [contradiction|]. apply (D x); [now left|assumption].
  - apply IH. intros y Hy. apply D. now right.
Qed.
Lemma stands_edges p q : stands_for p q -> NoDup (directed_edges (pt p)).
Proof.
  intros (P & idx & E & F & _ & I & N). rewrite E, edges_map. apply nodup_map_on; [|exact N].
  intros x y Hx Hy. pose proof (edges_in _ _ F _ Hx) as [X1 X2]. pose proof (edges_in _ _ F _ Hy) as [Y1 Y2]. unfold emap. intros X.
  injection X as A B. destruct x, y; cbn in *. f_equal; now apply I.
Qed.
Lemma edges_sh off (l : list tri) : directed_edges (map (sh off) l) = map (emap (Nat.add off)) (directed_edges l).
Proof. exact (edges_map (Nat.add off) l). Qed.
Lemma edges_app_tri (l l' : list tri) : directed_edges (l ++ l') = directed_edges l ++ directed_edges l'.
Proof. exact (edges_app l l'). Qed.
Lemma emap_inj off e e' : emap (Nat.add off) e = emap (Nat.add off) e' -> e = e'.
Proof. destruct e, e'. unfold emap. cbn. intros X. injection X as A B. f_equal; lia. Qed.
Lemma assemble_edges ps : Forall in_piece ps -> Forall (fun p => NoDup (directed_edges (pt p))) ps -> forall off, NoDup (directed_edges (assemble off ps)).
Proof.
  intros R N. induction ps as [|p ps IH]; intros off; cbn [assemble]; [constructor|]. inversion_clear R. inversion_clear N.
  rewrite edges_app_tri. apply nodup_app'.
  - rewrite edges_sh. apply nodup_map_on; [|assumption]. intros x y _ _. apply emap_inj.
  - now apply IH.
  - intros e A B. rewrite edges_sh in A. apply in_map_iff in A. destruct A as (e0 & <- & A).
    pose proof (edges_in _ _ H _ A) as [L _].
    pose proof (edges_in _ _ (assemble_range _ H0 (off + length (pv p))) _ B) as [L' _]. cbn in L'. lia.
Qed.
Lemma edges_holds d m m' : valid d -> fits (vertex_count d) -> generate d m = Ok m' -> NoDup (directed_edges (new_triangles m m')).
Proof.
  intros V F G. destruct (generate_inv _ _ _ G) as [D _]. rewrite (generate_result _ _ _ V G), new_triangles_result.
  apply assemble_edges; [apply pieces_range|]. pose proof (pieces_stand d D F) as S. induction S; constructor; [eapply stands_edges; eassumption|assumption].
Qed.

Lemma closed_map {A B} (f : A -> B) l : watertight l -> watertight (map (tmap f) l).
Proof.
  intros W a b H. rewrite edges_map in *. apply in_map_iff in H. destruct H as ([x y] & E & H). injection E as <- <-.
  apply in_map_iff. exists (y, x). split; [reflexivity|now apply W].
Qed.
Lemma tube_piece_closed p q off : stands_for p q -> watertight (p_tris q) -> watertight (assemble off [p]).
Proof.
  intros (P & idx & E & _) W. cbn [assemble]. rewrite app_nil_r, E. unfold sh. apply (closed_map (Nat.add off)). now apply closed_map.
Qed.
Lemma watertight_holds d m m' : valid d -> fits (vertex_count d) -> (exists c, d = DCurve c) \/ (exists k, d = DKnot k) ->
  generate d m = Ok m' -> watertight (new_triangles m m').
Proof.
  intros V F T G. destruct (generate_inv _ _ _ G) as [D _]. rewrite (generate_result _ _ _ V G), new_triangles_result.
  pose proof (pieces_stand d D F) as S. destruct T as [[c ->]|[k ->]]; cbn [pieces patches] in *.
  - unfold curve_pieces in *. destruct (cv_curve c) eqn:X; [|contradiction (D X)]. inversion_clear S. eapply tube_piece_closed; [eassumption|].
    intros a b. apply tube_closed; lia.
  - unfold curve_pieces in *. cbn [knot_as_curve cv_curve] in *. inversion_clear S. eapply tube_piece_closed; [eassumption|].
    intros a b. apply tube_closed; lia.
Qed.

(** Alternate grid *)
Lemma assemble_flip ps qs : Forall2 flipped ps qs -> forall off, flat_map pv ps = flat_map pv qs /\ same_but_diagonals (assemble off ps) (assemble off qs).
Proof.
  induction 1 as [|p q ps qs [E S] _ IH]; intros off; cbn [flat_map assemble]; [split; [reflexivity|constructor]|].
  rewrite E. destruct (IH (off + length (pv q))) as [A B]. split; [now rewrite A|]. apply flip_app; [now apply flip_map|exact B].
Qed.
Lemma alternate_same b d : (valid (set_alternate b d) <-> valid d) /\ (defined (set_alternate b d) <-> defined d) /\ (ends (set_alternate b d) <-> ends d).
Proof. destruct d; (split; [|split]); reflexivity. Qed.
Lemma alternate_holds b d m m1 : valid d -> generate d m = Ok m1 ->
  exists m2, generate (set_alternate b d) m = Ok m2 /\ verts m2 = verts m1 /\ length (tris m2) = length (tris m1) /\
    same_but_diagonals (new_triangles m m1) (new_triangles m m2).
Proof.
  intros V G. destruct (generate_inv _ _ _ G) as [D E]. destruct (alternate_same b d) as (V' & D' & E').
  exists (result (pieces (set_alternate b d)) m). split; [apply generate_ok; tauto|].
  rewrite (generate_result _ _ _ V G), !new_triangles_result.
  destruct (assemble_flip _ _ (pieces_flip b d) (length (verts m))) as [X Y]. cbn [result verts tris]. rewrite X. repeat split; [|exact Y].
  rewrite !app_length. f_equal. clear -Y. induction Y; cbn; congruence.
Qed.

(** Corners *)
Lemma assemble_corners ps qs : Forall2 stands_for ps qs -> forall (m : gmesh) pre post, verts m = pre ++ flat_map pv ps ++ post ->
  map (corners m) (assemble (length pre) ps) = map Some (flat_map (fun p => map (tmap (p_at p)) (p_tris p)) qs).
Proof.
  induction 1 as [|p q ps qs S _ IH]; intros m pre post E; cbn [assemble flat_map]; [reflexivity|]. rewrite !map_app. f_equal.
  - destruct S as (P & idx & Et & F & N & _). rewrite Et, !map_map. apply map_ext_in. intros [[x y] z] Ht. rewrite Forall_forall in F. apply F in Ht.
    cbn [tri_all] in Ht. destruct Ht as (A & B & C). unfold sh, tmap, corners. rewrite E.
    assert (L : forall l, P l -> nth_error (pre ++ flat_map pv (p :: ps) ++ post) (length pre + idx l) = Some (p_at q l)).
    { intros l Hl. rewrite nth_error_app2 by lia. replace (length pre + idx l - length pre) with (idx l) by lia. cbn [flat_map].
      rewrite <- app_assoc. rewrite nth_error_app1; [now apply N|]. apply nth_error_Some. now rewrite (N l Hl). }
    now rewrite !L by assumption.
  - rewrite <- app_length. apply (IH m (pre ++ pv p) post). rewrite E. cbn [flat_map]. now rewrite <- !app_assoc.
Qed.
Lemma indices_hold d m m' : valid d -> fits (vertex_count d) -> generate d m = Ok m' ->
  map (corners m') (new_triangles m m') = map Some (surface d).
Proof.
  intros V F G. destruct (generate_inv _ _ _ G) as [D _]. rewrite (generate_result _ _ _ V G), new_triangles_result.
  apply (assemble_corners _ _ (pieces_stand d D F) _ (verts m) []). cbn [result verts]. now rewrite app_nil_r.
Qed.
