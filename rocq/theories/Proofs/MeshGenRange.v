(** Triangles of a piece refer to vertices of the piece; number of triangles; change of the diagonals. *)
From Coq Require Import ZArith List Bool Arith Lia.
From Verif Require Import Model.Mesh Model.Interp Model.MeshGen Spec.MeshGenSpec Proofs.MeshGenLoops Proofs.MeshGenPieces.
Import ListNotations.
Local Open Scope nat_scope.

Definition tri_all {A} (P : A -> Prop) (t : A * A * A) : Prop := let '(a, b, c) := t in P a /\ P b /\ P c.

Lemma Forall_flat {A B} (P : B -> Prop) (f : A -> list B) l : (forall x, In x l -> Forall P (f x)) -> Forall P (flat_map f l).
Proof. intros H. apply Forall_forall. intros y Hy. apply in_flat_map in Hy. destruct Hy as (x & Hx & Hy). specialize (H x Hx). rewrite Forall_forall in H. now apply H. Qed.
Lemma Forall_sh (P Q : nat -> Prop) off l : Forall (tri_all P) l -> (forall k, P k -> Q (off + k)) -> Forall (tri_all Q) (map (sh off) l).
Proof. intros H PQ. induction H as [|[[a b] c] l (A & B & C) _ IH]; cbn; constructor; [|exact IH]. repeat split; apply PQ; assumption. Qed.
Lemma Forall_cut {A} (P : A -> Prop) ac a b c d : P a -> P b -> P c -> P d -> Forall (tri_all P) (cut ac a b c d).
Proof. intros. destruct ac; repeat constructor; assumption. Qed.
Lemma tri_all_impl {A} (P Q : A -> Prop) l : (forall x, P x -> Q x) -> Forall (tri_all P) l -> Forall (tri_all Q) l.
Proof. intros H. apply Forall_impl. intros [[a b] c] (X & Y & Z). repeat split; now apply H. Qed.

Lemma row_tris_range alt rev H V : Forall (tri_all (fun k => k < (V + 1) * (H + 1))) (row_tris alt rev H V).
Proof.
  apply Forall_flat. intros v Hv. apply in_seq in Hv. apply Forall_flat. intros u Hu. apply in_seq in Hu. cbn zeta.
  pose proof (mul_succ_le v V (H + 1) ltac:(lia)). assert ((v + 1) * (H + 1) = v * (H + 1) + (H + 1)) by lia. assert ((V + 1) * (H + 1) = V * (H + 1) + (H + 1)) by lia.
  destruct rev; apply Forall_cut; u32_les; lia.
Qed.
Lemma uv_tris_range alt rev H V : Forall (tri_all (fun k => k < (V + 1) * (H + 1))) (uv_tris alt rev H V).
Proof.
  apply Forall_flat. intros v Hv. apply in_seq in Hv. apply Forall_flat. intros u Hu. apply in_seq in Hu. cbn zeta.
  pose proof (mul_succ_le v V (H + 1) ltac:(lia)). assert ((v + 1) * (H + 1) = v * (H + 1) + (H + 1)) by lia. assert ((V + 1) * (H + 1) = V * (H + 1) + (H + 1)) by lia.
  destruct rev; apply Forall_cut; u32_les; lia.
Qed.
Lemma mantle_tris_range alt rev H V : Forall (tri_all (fun k => k < (H + 1) * (V + 1))) (mantle_tris alt rev H V).
Proof.
  apply Forall_flat. intros u Hu. apply in_seq in Hu. apply (Forall_sh (fun k => k < 2 * (V + 1))).
  - apply Forall_flat. intros v Hv. apply in_seq in Hv. cbn zeta. destruct rev; apply Forall_cut; u32_les; lia.
  - intros k Hk. pose proof (mul_succ_le u H (1 + V) ltac:(lia)). lia.
Qed.
Lemma ring_tris_range alt rev H V : Forall (tri_all (fun k => k < (H + 1) * (V + 1))) (ring_tris alt rev H V).
Proof.
  apply Forall_flat. intros u Hu. apply in_seq in Hu. apply (Forall_sh (fun k => k < 2 * (V + 1))).
  - apply Forall_flat. intros v Hv. apply in_seq in Hv. cbn zeta. destruct rev; apply Forall_cut; u32_les; lia.
  - intros k Hk. pose proof (mul_succ_le u H (1 + V) ltac:(lia)). lia.
Qed.
Lemma disc_tris_range alt rev H K : 0 < K -> Forall (tri_all (fun k => k < 1 + (H + 1) * K)) (disc_tris alt rev H K).
Proof.
  intros HK. apply Forall_flat. intros u Hu. apply in_seq in Hu. pose proof (mul_succ_le u H K ltac:(lia)). constructor.
  - destruct rev; cbn; lia.
  - apply (Forall_sh (fun k => k < 2 * K)); [|intros; lia].
    apply Forall_flat. intros v Hv. apply in_seq in Hv. cbn zeta. destruct rev; apply Forall_cut; u32_les; lia.
Qed.
Lemma cone_tris_range alt H V : 0 < V -> Forall (tri_all (fun k => k < (H + 1) * V + H)) (cone_tris alt H V).
Proof.
  intros HK. apply Forall_flat. intros u Hu. apply in_seq in Hu. pose proof (mul_succ_le u H (1 + V) ltac:(lia)).
  assert (H * (1 + V) = H + H * V) by lia. constructor.
  - cbn [tri_all]. lia.
  - apply (Forall_sh (fun k => k < 1 + 2 * V)); [|intros; lia].
    apply Forall_flat. intros v Hv. apply in_seq in Hv. cbn zeta. apply Forall_cut; u32_les; lia.
Qed.
Lemma tube_tris_range alt U V : Forall (tri_all (fun k => k < U * V)) (tube_tris alt U V).
Proof.
  apply Forall_flat. intros u Hu. apply in_seq in Hu. apply Forall_flat. intros v Hv. apply in_seq in Hv. cbn zeta.
  pose proof (mul_succ_le u U V ltac:(lia)). pose proof (mul_succ_le (u + 1) U V) as Hu'.
  assert ((u + 1) * V = u * V + V) by lia. assert (V <= U * V) by nia.
  apply Forall_cut; destruct (Nat.ltb_spec (v + 1) V); destruct (Nat.ltb_spec (u + 1) U); u32_les; lia.
Qed.

(** Number of triangles *)
Lemma cut_len {A} ac (a b c d : A) : length (cut ac a b c d) = 2. Proof. destruct ac; reflexivity. Qed.
Lemma if_cut_len {A} (r : bool) ac (a b c d a' b' c' d' : A) : length (if r then cut ac a b c d else cut ac a' b' c' d') = 2.
Proof. destruct r; apply cut_len. Qed.
Ltac flat_len n := rewrite (flat_map_length_const _ _ n); [rewrite ?seq_length|intros ? _; cbn zeta; cbn [length]; rewrite ?map_length].
Lemma row_tris_len alt rev H V : length (row_tris alt rev H V) = 2 * V * H.
Proof. unfold row_tris. flat_len (2 * H); [lia|]. flat_len 2; [lia|]. apply if_cut_len. Qed.
Lemma uv_tris_len alt rev H V : length (uv_tris alt rev H V) = 2 * V * H.
Proof. unfold uv_tris. flat_len (2 * H); [lia|]. flat_len 2; [lia|]. apply if_cut_len. Qed.
Lemma mantle_tris_len alt rev H V : length (mantle_tris alt rev H V) = 2 * H * V.
Proof. unfold mantle_tris. flat_len (2 * V); [lia|]. flat_len 2; [lia|]. apply if_cut_len. Qed.
Lemma ring_tris_len alt rev H V : length (ring_tris alt rev H V) = 2 * H * V.
Proof. unfold ring_tris. flat_len (2 * V); [lia|]. flat_len 2; [lia|]. apply if_cut_len. Qed.
Lemma disc_tris_len alt rev H K : 0 < K -> length (disc_tris alt rev H K) = H * (2 * K - 1).
Proof. intros HK. unfold disc_tris. flat_len (2 * K - 1); [lia|]. flat_len 2; [lia|]. apply if_cut_len. Qed.
Lemma cone_tris_len alt H K : 0 < K -> length (cone_tris alt H K) = H * (2 * K - 1).
Proof. intros HK. unfold cone_tris. flat_len (2 * K - 1); [lia|]. flat_len 2; [lia|]. apply cut_len. Qed.
Lemma tube_tris_len alt U V : length (tube_tris alt U V) = 2 * U * V.
Proof. unfold tube_tris. flat_len (2 * V); [lia|]. flat_len 2; [lia|]. apply cut_len. Qed.

(** Only diagonals differ *)
Lemma flip_app l l' k k' : same_but_diagonals l l' -> same_but_diagonals k k' -> same_but_diagonals (l ++ k) (l' ++ k').
Proof. intros H HK. induction H; cbn; [exact HK|constructor; exact IHsame_but_diagonals ..]. Qed.
Lemma flip_flat {A} (f g : A -> list tri) l : (forall x, same_but_diagonals (f x) (g x)) -> same_but_diagonals (flat_map f l) (flat_map g l).
Proof. intros H. induction l; cbn; [constructor|]. now apply flip_app. Qed.
Lemma flip_map off l l' : same_but_diagonals l l' -> same_but_diagonals (map (sh off) l) (map (sh off) l').
Proof. intros H. induction H; cbn; [constructor|constructor; exact IHsame_but_diagonals ..]. Qed.
Lemma flip_refl l : same_but_diagonals l l. Proof. induction l; constructor; assumption. Qed.
Lemma flip_cut b b' x y z w : same_but_diagonals (cut b x y z w) (cut b' x y z w).
Proof. destruct b, b'; cbn; try apply flip_refl; [apply sbd_flip|apply sbd_flip']; constructor. Qed.
Lemma flip_if_cut (r b b' : bool) x y z w x' y' z' w' :
  same_but_diagonals (if r then cut b x y z w else cut b x' y' z' w') (if r then cut b' x y z w else cut b' x' y' z' w').
Proof. destruct r; apply flip_cut. Qed.
Lemma row_tris_flip a b rev H V : same_but_diagonals (row_tris a rev H V) (row_tris b rev H V).
Proof. do 2 (apply flip_flat; intros). apply flip_if_cut. Qed.
Lemma uv_tris_flip a b rev H V : same_but_diagonals (uv_tris a rev H V) (uv_tris b rev H V).
Proof. do 2 (apply flip_flat; intros). apply flip_if_cut. Qed.
Lemma mantle_tris_flip a b rev H V : same_but_diagonals (mantle_tris a rev H V) (mantle_tris b rev H V).
Proof. apply flip_flat; intros. apply flip_map. apply flip_flat; intros. apply flip_if_cut. Qed.
Lemma ring_tris_flip a b rev H V : same_but_diagonals (ring_tris a rev H V) (ring_tris b rev H V).
Proof. apply flip_flat; intros. apply flip_map. apply flip_flat; intros. apply flip_if_cut. Qed.
Lemma disc_tris_flip a b rev H V : same_but_diagonals (disc_tris a rev H V) (disc_tris b rev H V).
Proof. apply flip_flat; intros. apply sbd_same. apply flip_map. apply flip_flat; intros. apply flip_if_cut. Qed.
Lemma cone_tris_flip a b H V : same_but_diagonals (cone_tris a H V) (cone_tris b H V).
Proof. apply flip_flat; intros. apply sbd_same. apply flip_map. apply flip_flat; intros. apply flip_cut. Qed.
Lemma tube_tris_flip a b H V : same_but_diagonals (tube_tris a H V) (tube_tris b H V).
Proof. do 2 (apply flip_flat; intros). apply flip_cut. Qed.
