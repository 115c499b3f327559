(** The loops of the mesh generators as list operations. *)
From Coq Require Import ZArith Reals List Bool Arith Lia Lra.
From Verif Require Import Model.Scalar Model.Vec Model.Aabb Model.Mesh Model.Interp Model.Bezier Model.Transforms Model.MeshGen Spec.MeshGenSpec.
Import ListNotations.
Local Open Scope nat_scope.

Lemma u32_le n : u32 n <= n.
Proof. unfold u32. pose proof (Z.mod_le (Z.of_nat n) (2 ^ 32)). lia. Qed.
Lemma u32_small n : (Z.of_nat n < 2 ^ 32)%Z -> u32 n = n.
Proof. intros. unfold u32. rewrite Z.mod_small by lia. lia. Qed.
Lemma u32_lt n : (Z.of_nat (u32 n) < 2 ^ 32)%Z.
Proof. unfold u32. pose proof (Z.mod_pos_bound (Z.of_nat n) (2 ^ 32)). lia. Qed.

Definition addV (m : gmesh) (vs : list vertex) : gmesh := mkMesh (verts m ++ vs) (tris m).
Definition addT (m : gmesh) (ts : list tri) : gmesh := mkMesh (verts m) (tris m ++ ts).

Lemma addV_nil m : addV m [] = m. Proof. destruct m; unfold addV; cbn; now rewrite app_nil_r. Qed.
Lemma addT_nil m : addT m [] = m. Proof. destruct m; unfold addT; cbn; now rewrite app_nil_r. Qed.
Lemma addV_app m a b : addV (addV m a) b = addV m (a ++ b). Proof. unfold addV; cbn; now rewrite app_assoc. Qed.
Lemma addT_app m a b : addT (addT m a) b = addT m (a ++ b). Proof. unfold addT; cbn; now rewrite app_assoc. Qed.
Lemma addV_len m a : length (verts (addV m a)) = length (verts m) + length a. Proof. cbn; apply app_length. Qed.
Lemma addT_len m a : length (verts (addT m a)) = length (verts m). Proof. reflexivity. Qed.
Lemma addTV m a b : addV (addT m a) b = addT (addV m b) a. Proof. reflexivity. Qed.
Lemma add_v_eq m v : add_v m v = addV m [v]. Proof. reflexivity. Qed.

Lemma for_list_V (l : list nat) body f m :
  (forall i m, In i l -> body i m = Ok (addV m (f i))) -> for_list l body m = Ok (addV m (flat_map f l)).
Proof.
  revert m. induction l as [|i l IH]; intros m H; cbn.
  - now rewrite addV_nil.
  - rewrite H by (now left). cbn. rewrite IH by (intros; apply H; now right). now rewrite addV_app.
Qed.
Lemma for_list_one (l : list nat) (f : nat -> vertex) m :
  for_list l (fun v m => Ok (add_v m (f v))) m = Ok (addV m (map f l)).
Proof.
  rewrite (for_list_V l _ (fun v => [f v])) by (intros; reflexivity). reflexivity.
Qed.

Lemma for_angle (body : nat -> R * gmesh -> outcome (R * gmesh)) f (start step : R) n : forall k m,
  (forall u a m, k <= u < k + n -> body u (a, m) = Ok ((a + step)%R, addV m (f u a))) ->
  for_list (seq k n) body ((start + INR k * step)%R, m)
  = Ok ((start + INR (k + n) * step)%R, addV m (flat_map (fun u => f u (start + INR u * step)%R) (seq k n))).
Proof.
  induction n as [|n IH]; intros k m H.
  - cbn [seq for_list flat_map]. rewrite addV_nil. now rewrite Nat.add_0_r.
  - cbn [seq for_list flat_map]. rewrite H by lia. cbn [bind].
    replace (start + INR k * step + step)%R with (start + INR (S k) * step)%R by (rewrite S_INR; ring).
    rewrite IH by (intros; apply H; lia). rewrite addV_app. now replace (S k + n) with (k + S n) by lia.
Qed.

Lemma for_list_T (l : list nat) body f N m :
  (forall i m, In i l -> length (verts m) = N -> body i m = Ok (addT m (f i))) -> length (verts m) = N ->
  for_list l body m = Ok (addT m (flat_map f l)).
Proof.
  revert m. induction l as [|i l IH]; intros m H E; cbn.
  - now rewrite addT_nil.
  - rewrite H by (now left || easy). cbn. rewrite IH by (try (intros; apply H; [now right|easy]); easy). now rewrite addT_app.
Qed.

Lemma for_off (body : nat -> nat * gmesh -> outcome (nat * gmesh)) f off st N n : forall k m,
  (forall u m, k <= u < k + n -> length (verts m) = N -> body u (off + u * st, m) = Ok (off + u * st + st, addT m (f u (off + u * st)))) ->
  length (verts m) = N ->
  for_list (seq k n) body (off + k * st, m)
  = Ok (off + (k + n) * st, addT m (flat_map (fun u => f u (off + u * st)) (seq k n))).
Proof.
  induction n as [|n IH]; intros k m H E.
  - cbn [seq for_list flat_map]. rewrite addT_nil. now rewrite Nat.add_0_r.
  - cbn [seq for_list flat_map]. rewrite H by (lia || easy). cbn [bind].
    replace (off + k * st + st) with (off + S k * st) by lia.
    rewrite IH by (try (intros; apply H; [lia|easy]); easy). rewrite addT_app. now replace (S k + n) with (k + S n) by lia.
Qed.

Lemma add_t_ok m a b c N : length (verts m) = N -> a < N -> b < N -> c < N -> add_t m a b c = Ok (addT m [(a, b, c)]).
Proof.
  intros E A B C. unfold add_t, add_triangle. rewrite E.
  rewrite (proj2 (Nat.ltb_lt _ _) A), (proj2 (Nat.ltb_lt _ _) B), (proj2 (Nat.ltb_lt _ _) C). reflexivity.
Qed.

Definition sh (off : nat) (t : tri) : tri := tmap (Nat.add off) t.

Lemma add_quad_ok m alt u v a b c d off N : length (verts m) = N -> off + a < N -> off + b < N -> off + c < N -> off + d < N ->
  add_quad m alt u v a b c d off = Ok (addT m (map (sh off) (cut (diagonal alt u v) a b c d))).
Proof.
  intros E A B C D. unfold add_quad, diagonal. destruct (negb alt || _).
  - rewrite (add_t_ok _ _ _ _ N) by assumption. cbn [bind]. rewrite (add_t_ok _ _ _ _ N) by assumption. rewrite addT_app. reflexivity.
  - rewrite (add_t_ok _ _ _ _ N) by assumption. cbn [bind]. rewrite (add_t_ok _ _ _ _ N) by assumption. rewrite addT_app. reflexivity.
Qed.

Lemma for_le_run {A} k n (body : nat -> A -> outcome A) a : Z.of_nat n <> u32_max -> for_le k n body a = for_list (seq k (S n - k)) body a.
Proof. intros. unfold for_le. destruct (Z.eqb_spec (Z.of_nat n) u32_max); [contradiction|reflexivity]. Qed.
Lemma for_le_max {A} k n (body : nat -> A -> outcome A) a : Z.of_nat n = u32_max -> for_le k n body a = Endless.
Proof. intros E. unfold for_le. rewrite E, Z.eqb_refl. reflexivity. Qed.

(** The vertices of a grid, row by row *)
Definition grid_verts (f : nat -> nat -> vertex) (R C : nat) : list vertex := flat_map (fun i => map (f i) (seq 0 (S C))) (seq 0 (S R)).

Lemma for_grid_V f R C m : Z.of_nat R <> u32_max -> Z.of_nat C <> u32_max ->
  for_le 0 R (fun i m => for_le 0 C (fun j m => Ok (add_v m (f i j))) m) m = Ok (addV m (grid_verts f R C)).
Proof.
  intros HR HC. rewrite for_le_run by assumption. apply for_list_V. intros i m' _.
  rewrite for_le_run by assumption. apply for_list_one.
Qed.

Lemma flat_map_length_const {A B} (f : A -> list B) l c : (forall x, In x l -> length (f x) = c) -> length (flat_map f l) = length l * c.
Proof. induction l as [|x l IH]; intros H; cbn; [reflexivity|]. rewrite app_length, H, IH by (intros; (now left) || (apply H; now right)). reflexivity. Qed.

Lemma grid_verts_len f R C : length (grid_verts f R C) = (R + 1) * (C + 1).
Proof. unfold grid_verts. rewrite (flat_map_length_const _ _ (C + 1)) by (intros; rewrite map_length, seq_length; lia). rewrite seq_length. lia. Qed.

Lemma flat_map_nth {A} (f : nat -> list A) w (H : forall i, length (f i) = w) n : forall k i j, i < n -> j < w ->
  nth_error (flat_map f (seq k n)) (i * w + j) = nth_error (f (k + i)) j.
Proof.
  induction n as [|n IH]; intros k i j Hi Hj; [lia|]. cbn [seq flat_map]. destruct i as [|i].
  - rewrite nth_error_app1 by (rewrite H; lia). now rewrite Nat.add_0_r.
  - rewrite nth_error_app2 by (rewrite H; lia). rewrite H. replace (S i * w + j - w) with (i * w + j) by lia.
    rewrite IH by lia. now replace (S k + i) with (k + S i) by lia.
Qed.

Lemma map_seq_nth {A} (f : nat -> A) n k j : j < n -> nth_error (map f (seq k n)) j = Some (f (k + j)).
Proof. intros. rewrite nth_error_map, (nth_error_nth' _ 0) by (rewrite seq_length; lia). cbn. now rewrite seq_nth. Qed.

Lemma grid_verts_nth f R C i j : i <= R -> j <= C -> nth_error (grid_verts f R C) (i * (C + 1) + j) = Some (f i j).
Proof.
  intros. unfold grid_verts. rewrite (flat_map_nth _ (C + 1)) by (try lia; intros; rewrite map_length, seq_length; lia).
  now rewrite map_seq_nth by lia.
Qed.

Lemma flat_map_ext_in' {A B} (f g : A -> list B) l : (forall x, In x l -> f x = g x) -> flat_map f l = flat_map g l.
Proof. induction l; intros H; cbn; [reflexivity|]. rewrite H by (now left). f_equal. apply IHl. intros; apply H; now right. Qed.
