(** As long as a piece has at most 2^32 vertices, its indices are the positions of the labelled points. *)
From Coq Require Import ZArith Reals List Bool Arith Lia.
From Verif Require Import Model.Scalar Model.Vec Model.Aabb Model.Mesh Model.Interp Model.Bezier Model.Transforms Model.MeshGen Spec.MeshGenSpec
  Proofs.MeshGenLoops Proofs.MeshGenPieces Proofs.MeshGenResult Proofs.MeshGenRange Proofs.MeshGenEdges.
Import ListNotations.
Local Open Scope nat_scope.

Definition label := (nat * nat)%type.
Definition grid_idx (C : nat) (l : label) : nat := fst l * (C + 1) + snd l.
Definition disc_idx (K : nat) (l : label) : nat := if snd l =? 0 then 0 else 1 + fst l * K + (snd l - 1).
Definition cone_idx (V : nat) (l : label) : nat := fst l * (V + 1) + (if snd l =? 0 then V else snd l - 1).
Definition tube_idx (V : nat) (l : label) : nat := fst l * V + snd l.
Definition fits (n : nat) : Prop := (Z.of_nat n <= 2 ^ 32)%Z.

Lemma cut_eq {A} ac ac' (a b c d a' b' c' d' : A) : ac = ac' -> a = a' -> b = b' -> c = c' -> d = d' -> cut ac a b c d = cut ac' a' b' c' d'.
Proof. intros; subst; reflexivity. Qed.
Lemma map_sh_cut off ac a b c d : map (sh off) (cut ac a b c d) = cut ac (off + a) (off + b) (off + c) (off + d).
Proof. destruct ac; reflexivity. Qed.
Lemma diagonal_sym alt u v : diagonal alt u v = diagonal alt v u.
Proof. unfold diagonal. now rewrite Nat.eqb_sym. Qed.
Lemma u32_in x N : fits N -> x < N -> u32 x = x.
Proof. unfold fits. intros. apply u32_small. lia. Qed.

Ltac drop_u32 N HN := repeat match goal with |- context [u32 ?x] => rewrite (u32_in x N HN) by lia end.

Lemma grid_ideal (g : nat -> nat -> list tri) o ac R C :
  (forall i j, i < R -> j < C -> g i j = map (tmap (grid_idx C)) (cell o ac i j)) ->
  flat_map (fun i => flat_map (g i) (seq 0 C)) (seq 0 R) = map (tmap (grid_idx C)) (grid o ac R C).
Proof.
  intros H. unfold grid. rewrite map_flat_map. apply flat_map_ext_in'. intros i Hi. apply in_seq in Hi.
  rewrite map_flat_map. apply flat_map_ext_in'. intros j Hj. apply in_seq in Hj. apply H; lia.
Qed.

Lemma row_ideal alt rev H V : fits ((V + 1) * (H + 1)) ->
  row_tris alt rev H V = map (tmap (grid_idx H)) (grid (if rev then O1 else O0) (diagonal alt) V H).
Proof.
  intros F. unfold row_tris. apply grid_ideal. intros v u Hv Hu. cbn zeta. pose proof (mul_succ_le v V (H + 1) Hv).
  assert ((v + 1) * (H + 1) = v * (H + 1) + (H + 1)) by lia. assert ((V + 1) * (H + 1) = V * (H + 1) + (H + 1)) by lia.
  drop_u32 ((V + 1) * (H + 1)) F.
  destruct rev; cbn [cell]; rewrite map_cut; (apply cut_eq; [apply diagonal_sym|..]); unfold grid_idx; cbn [fst snd]; lia.
Qed.
Lemma uv_ideal alt rev H V : fits ((V + 1) * (H + 1)) ->
  uv_tris alt rev H V = map (tmap (grid_idx H)) (grid (if rev then O3 else O2) (diagonal alt) V H).
Proof.
  intros F. unfold uv_tris. apply grid_ideal. intros v u Hv Hu. cbn zeta. pose proof (mul_succ_le v V (H + 1) Hv).
  assert ((v + 1) * (H + 1) = v * (H + 1) + (H + 1)) by lia. assert ((V + 1) * (H + 1) = V * (H + 1) + (H + 1)) by lia.
  drop_u32 ((V + 1) * (H + 1)) F.
  destruct rev; cbn [cell]; rewrite map_cut; (apply cut_eq; [apply diagonal_sym|..]); unfold grid_idx; cbn [fst snd]; lia.
Qed.
Lemma mantle_ideal alt rev H V : 0 < H -> fits ((H + 1) * (V + 1)) ->
  mantle_tris alt rev H V = map (tmap (grid_idx V)) (grid (if rev then O0 else O1) (diagonal alt) H V).
Proof.
  intros P F. unfold mantle_tris. rewrite <- (grid_ideal (fun u v => map (sh (u * (1 + V)))
    (let i0 := u32 (v + 1 + V) in let i1 := v in let i2 := u32 (v + 1) in let i3 := u32 (v + 2 + V) in
    if rev then cut (diagonal alt u v) i1 i0 i3 i2 else cut (diagonal alt u v) i0 i1 i2 i3))).
  - apply flat_map_ext. intros u. apply map_flat_map.
  - intros u v Hu Hv. cbn zeta. assert ((H + 1) * (V + 1) >= 2 * (V + 1)) by nia. drop_u32 ((H + 1) * (V + 1)) F.
    destruct rev; cbn [cell]; rewrite map_sh_cut, map_cut; (apply cut_eq; [reflexivity|..]); unfold grid_idx; cbn [fst snd]; lia.
Qed.
Lemma ring_ideal alt rev H V : 0 < H -> fits ((H + 1) * (V + 1)) ->
  ring_tris alt rev H V = map (tmap (grid_idx V)) (grid (if rev then O1 else O0) (diagonal alt) H V).
Proof.
  intros P F. unfold ring_tris. rewrite <- (grid_ideal (fun u v => map (sh (u * (V + 1)))
    (let i0 := v in let i1 := u32 (v + 1 + V) in let i2 := u32 (v + 2 + V) in let i3 := u32 (v + 1) in
    if rev then cut (diagonal alt u v) i1 i0 i3 i2 else cut (diagonal alt u v) i0 i1 i2 i3))).
  - apply flat_map_ext. intros u. apply map_flat_map.
  - intros u v Hu Hv. cbn zeta. assert ((H + 1) * (V + 1) >= 2 * (V + 1)) by nia. drop_u32 ((H + 1) * (V + 1)) F.
    destruct rev; cbn [cell]; rewrite map_sh_cut, map_cut; (apply cut_eq; [reflexivity|..]); unfold grid_idx; cbn [fst snd]; lia.
Qed.
Lemma disc_ideal alt rev H K : 0 < H -> fits (1 + (H + 1) * K) ->
  disc_tris alt rev H K = map (tmap (disc_idx K)) (disc rev (diagonal alt) H K).
Proof.
  intros P F. unfold disc_tris, disc. rewrite map_flat_map. apply flat_map_ext_in'. intros u Hu. apply in_seq in Hu. cbn [map].
  apply (f_equal2 cons).
  - destruct rev; unfold tmap, disc_idx; cbn [fst snd Nat.eqb]; (apply (f_equal2 pair); [apply (f_equal2 pair)|]); lia.
  - rewrite !map_flat_map. apply flat_map_ext_in'. intros v Hv. apply in_seq in Hv. cbn zeta.
    assert (1 + (H + 1) * K >= 1 + 2 * K) by nia. drop_u32 (1 + (H + 1) * K) F.
    assert (X : forall i j, 0 < j -> disc_idx K (i, j) = 1 + i * K + (j - 1)) by (intros i j Hj; unfold disc_idx; cbn [fst snd]; destruct (Nat.eqb_spec j 0); lia).
    destruct rev; cbn [cell]; rewrite map_sh_cut, map_cut; (apply cut_eq; [reflexivity|..]); rewrite !X by lia; lia.
Qed.
Lemma cone_ideal alt H V : 0 < H -> fits ((H + 1) * V + H) ->
  cone_tris alt H V = map (tmap (cone_idx V)) (cone_fan (diagonal alt) H V).
Proof.
  intros P F. unfold cone_tris, cone_fan. rewrite map_flat_map. apply flat_map_ext_in'. intros u Hu. apply in_seq in Hu. cbn [map].
  apply (f_equal2 cons).
  - unfold tmap, cone_idx; cbn [fst snd Nat.eqb]; (apply (f_equal2 pair); [apply (f_equal2 pair)|]); lia.
  - rewrite !map_flat_map. apply flat_map_ext_in'. intros v Hv. apply in_seq in Hv. cbn zeta.
    assert ((H + 1) * V + H >= 1 + 2 * V) by nia. drop_u32 ((H + 1) * V + H) F.
    assert (X : forall i j, 0 < j -> cone_idx V (i, j) = i * (V + 1) + (j - 1)) by (intros i j Hj; unfold cone_idx; cbn [fst snd]; destruct (Nat.eqb_spec j 0); lia).
    cbn [cell]; rewrite map_sh_cut, map_cut; (apply cut_eq; [reflexivity|..]); rewrite !X by lia; lia.
Qed.
Lemma tube_ideal alt U V : fits (U * V) -> tube_tris alt U V = map (tmap (tube_idx V)) (tube (diagonal alt) U V).
Proof.
  intros F. unfold tube_tris, tube. rewrite map_flat_map. apply flat_map_ext_in'. intros u Hu. apply in_seq in Hu.
  rewrite map_flat_map. apply flat_map_ext_in'. intros v Hv. apply in_seq in Hv. cbn zeta.
  pose proof (mul_succ_le u U V ltac:(lia)). pose proof (mul_succ_le (u + 1) U V) as Hu'.
  assert ((u + 1) * V = u * V + V) by lia. assert (V <= U * V) by nia.
  rewrite map_cut. unfold tube_idx, next; cbn [fst snd].
  (apply cut_eq; [reflexivity|..]); destruct (Nat.ltb_spec (v + 1) V); destruct (Nat.ltb_spec (u + 1) U); drop_u32 (U * V) F; lia.
Qed.

(** Labels of the triangles *)
Lemma grid_labels o ac R C : Forall (tri_all (fun l => fst l <= R /\ snd l <= C)) (grid o ac R C).
Proof.
  apply Forall_flat. intros i Hi. apply in_seq in Hi. apply Forall_flat. intros j Hj. apply in_seq in Hj.
  destruct o; apply Forall_cut; cbn [fst snd]; lia.
Qed.
Lemma disc_labels up ac H K : 0 < K -> Forall (tri_all (fun l => fst l <= H /\ snd l <= K /\ (snd l = 0 -> fst l = 0))) (disc up ac H K).
Proof.
  intros P. apply Forall_flat. intros i Hi. apply in_seq in Hi. constructor.
  - destruct up; cbn [tri_all fst snd]; lia.
  - apply Forall_flat. intros j Hj. apply in_seq in Hj. destruct up; apply Forall_cut; cbn [fst snd]; lia.
Qed.
Lemma cone_labels ac H V : 0 < V -> Forall (tri_all (fun l => fst l <= H /\ snd l <= V /\ (snd l = 0 -> fst l < H))) (cone_fan ac H V).
Proof.
  intros P. apply Forall_flat. intros i Hi. apply in_seq in Hi. constructor.
  - cbn [tri_all fst snd]; lia.
  - apply Forall_flat. intros j Hj. apply in_seq in Hj. apply Forall_cut; cbn [fst snd]; lia.
Qed.
Lemma tube_labels ac U V : Forall (tri_all (fun l => fst l < U /\ snd l < V)) (tube ac U V).
Proof.
  apply Forall_flat. intros i Hi. apply in_seq in Hi. apply Forall_flat. intros j Hj. apply in_seq in Hj.
  assert (next U i < U) by (apply next_lt; lia). assert (next V j < V) by (apply next_lt; lia). apply Forall_cut; cbn [fst snd]; lia.
Qed.

(** A piece and the patch it stands for *)
Definition stands_for (p : piece) (q : mesh_patch) : Prop := exists (P : label -> Prop) (idx : label -> nat),
  pt p = map (tmap idx) (p_tris q) /\ Forall (tri_all P) (p_tris q) /\
  (forall l, P l -> nth_error (pv p) (idx l) = Some (p_at q l)) /\
  (forall l l', P l -> P l' -> idx l = idx l' -> l = l') /\
  NoDup (directed_edges (p_tris q)).

Lemma digits w i j i' j' : j < w -> j' < w -> i * w + j = i' * w + j' -> i = i' /\ j = j'.
Proof. intros. destruct (Nat.lt_trichotomy i i') as [L|[L|L]]; [pose proof (mul_succ_le i i' w L)|subst|pose proof (mul_succ_le i' i w L)]; split; lia. Qed.

Lemma grid_stands f ts o ac R C : ts = map (tmap (grid_idx C)) (grid o ac R C) -> forall g, (forall l, g l = f (fst l) (snd l)) ->
  stands_for (mkPiece (grid_verts f R C) ts) (mkPatch (grid o ac R C) g).
Proof.
  intros E g G. exists (fun l => fst l <= R /\ snd l <= C), (grid_idx C). repeat split; cbn [pt pv p_tris p_at].
  - exact E.
  - apply grid_labels.
  - intros l [A B]. rewrite G. now apply grid_verts_nth.
  - intros [i j] [i' j'] [A B] [A' B'] D. unfold grid_idx in D. cbn [fst snd] in *. destruct (digits (C + 1) i j i' j'); try lia. now subst.
  - apply grid_edges.
Qed.
Lemma disc_stands c f alt up H K g : 0 < H -> 0 < K -> fits (1 + (H + 1) * K) -> (forall l, g l = if snd l =? 0 then c else f (fst l) (snd l)) ->
  stands_for (mkPiece (disc_verts c f H K) (disc_tris alt up H K)) (mkPatch (disc up (diagonal alt) H K) g).
Proof.
  intros P PK F G. exists (fun l => fst l <= H /\ snd l <= K /\ (snd l = 0 -> fst l = 0)), (disc_idx K). repeat split; cbn [pt pv p_tris p_at].
  - now apply disc_ideal.
  - now apply disc_labels.
  - intros [i j] (A & B & _). rewrite G. unfold disc_idx. cbn [fst snd] in *. destruct (Nat.eqb_spec j 0); [reflexivity|].
    cbn [disc_verts Nat.add]. unfold disc_verts. cbn [nth_error]. rewrite (flat_map_nth _ K) by (try lia; intros; rewrite map_length, seq_length; lia).
    rewrite map_seq_nth by lia. f_equal. f_equal; lia.
  - intros [i j] [i' j'] (A & B & D) (A' & B' & D'). unfold disc_idx. cbn [fst snd] in *.
    destruct (Nat.eqb_spec j 0), (Nat.eqb_spec j' 0); intros X; try lia; [f_equal; lia|].
    destruct (digits K i (j - 1) i' (j' - 1)); try lia. f_equal; lia.
  - now apply disc_edges.
Qed.
Lemma cone_verts_nth f tip H V i k : i <= H -> k < V + 1 -> (k = V -> i < H) ->
  nth_error (cone_verts f tip H V) (i * (V + 1) + k) = Some (if k =? V then tip i else f i (k + 1)).
Proof.
  intros A B D. unfold cone_verts. rewrite seq_S, flat_map_app. cbn [flat_map Nat.add]. rewrite !app_nil_r.
  assert (L : flat_map (fun u => map (f u) (seq 1 V) ++ (if u <? H then [tip u] else [])) (seq 0 H) = flat_map (fun u => map (f u) (seq 1 V) ++ [tip u]) (seq 0 H)).
  { apply flat_map_ext_in'. intros u Hu. apply in_seq in Hu. destruct (Nat.ltb_spec u H); [reflexivity|lia]. }
  rewrite L. assert (W : forall u, length (map (f u) (seq 1 V) ++ [tip u]) = V + 1) by (intros; rewrite app_length, map_length, seq_length; cbn; lia).
  destruct (Nat.eq_dec i H) as [->|N].
  - rewrite nth_error_app2; rewrite (flat_map_length_const _ _ (V + 1)) by (intros; apply W); rewrite seq_length; [|lia].
    replace (H * (V + 1) + k - H * (V + 1)) with k by lia. rewrite nth_error_app1 by (rewrite map_length, seq_length; lia).
    rewrite map_seq_nth by lia. destruct (Nat.eqb_spec k V); [lia|]. now replace (1 + k) with (k + 1) by lia.
  - rewrite nth_error_app1 by (rewrite (flat_map_length_const _ _ (V + 1)) by (intros; apply W); rewrite seq_length; pose proof (mul_succ_le i H (V + 1)); lia).
    rewrite (flat_map_nth _ (V + 1) W) by lia. cbn [Nat.add]. destruct (Nat.eqb_spec k V) as [->|K].
    + rewrite nth_error_app2; rewrite map_length, seq_length; [|lia]. now rewrite Nat.sub_diag.
    + rewrite nth_error_app1 by (rewrite map_length, seq_length; lia). rewrite map_seq_nth by lia. now replace (1 + k) with (k + 1) by lia.
Qed.
Lemma cone_stands f tip alt H V g : 0 < H -> 0 < V -> fits ((H + 1) * V + H) -> (forall l, g l = if snd l =? 0 then tip (fst l) else f (fst l) (snd l)) ->
  stands_for (mkPiece (cone_verts f tip H V) (cone_tris alt H V)) (mkPatch (cone_fan (diagonal alt) H V) g).
Proof.
  intros P PK F G. exists (fun l => fst l <= H /\ snd l <= V /\ (snd l = 0 -> fst l < H)), (cone_idx V). repeat split; cbn [pt pv p_tris p_at].
  - now apply cone_ideal.
  - now apply cone_labels.
  - intros [i j] (A & B & D). rewrite G. unfold cone_idx. cbn [fst snd] in *. destruct (Nat.eqb_spec j 0).
    + rewrite cone_verts_nth by lia. now rewrite Nat.eqb_refl.
    + rewrite cone_verts_nth by lia. destruct (Nat.eqb_spec (j - 1) V); [lia|]. now replace (j - 1 + 1) with j by lia.
  - intros [i j] [i' j'] (A & B & D) (A' & B' & D'). unfold cone_idx. cbn [fst snd] in *.
    destruct (Nat.eqb_spec j 0), (Nat.eqb_spec j' 0); intros X.
    + destruct (digits (V + 1) i V i' V); try lia. now subst.
    + destruct (digits (V + 1) i V i' (j' - 1)); try lia.
    + destruct (digits (V + 1) i (j - 1) i' V); try lia.
    + destruct (digits (V + 1) i (j - 1) i' (j' - 1)); try lia. f_equal; lia.
  - now apply cone_edges.
Qed.
Lemma tube_stands f alt U V g : 3 <= U -> 3 <= V -> fits (U * V) -> (forall l, g l = f (fst l) (snd l)) ->
  stands_for (mkPiece (tube_verts f U V) (tube_tris alt U V)) (mkPatch (tube (diagonal alt) U V) g).
Proof.
  intros PU PV F G. exists (fun l => fst l < U /\ snd l < V), (tube_idx V). repeat split; cbn [pt pv p_tris p_at].
  - now apply tube_ideal.
  - apply tube_labels.
  - intros [i j] (A & B). rewrite G. unfold tube_idx, tube_verts. cbn [fst snd] in *.
    rewrite (flat_map_nth _ V) by (try lia; intros; rewrite map_length, seq_length; lia). rewrite map_seq_nth by lia. f_equal.
  - intros [i j] [i' j'] (A & B) (A' & B'). unfold tube_idx. cbn [fst snd] in *. intros X. destruct (digits V i j i' j'); try lia. now subst.
  - now apply tube_edges.
Qed.
