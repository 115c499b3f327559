From Coq Require Import Reals List Bool Arith Lia Sorting Permutation.
From Verif Require Import Model.Scalar Model.Vec Model.Mesh Spec.MeshSpec.
Import ListNotations.

(** ** Edges *)
Lemma edge_lt_iff x y : edge_lt x y = true <-> lex_lt x y.
Proof.
  unfold edge_lt, lex_lt. destruct (Nat.ltb_spec (fst x) (fst y)); [intuition lia|].
  destruct (Nat.ltb_spec (fst y) (fst x)); [split; [discriminate|lia]|]. rewrite Nat.ltb_lt. intuition lia.
Qed.
Lemma edge_lt_false x y : edge_lt x y = false <-> ~ lex_lt x y.
Proof. rewrite <- edge_lt_iff. destruct (edge_lt x y); intuition congruence. Qed.
Lemma edge_eqb_iff x y : edge_eqb x y = true <-> x = y.
Proof.
  unfold edge_eqb. rewrite andb_true_iff, !Nat.eqb_eq. destruct x, y; cbn. split; [intros [-> ->]; reflexivity|intros E; inversion E; auto].
Qed.
Definition lex_le x y := ~ lex_lt y x.
Lemma lex_le_cases x y : lex_le x y <-> lex_lt x y \/ x = y.
Proof. unfold lex_le, lex_lt. destruct x, y; cbn. split; [intros H|intros [H|H]; [|inversion H]; lia]. 
  destruct (Nat.eq_dec n n1); [|left; lia]. destruct (Nat.eq_dec n0 n2); [right; congruence|left; lia]. Qed.
Lemma lex_lt_trans x y z : lex_lt x y -> lex_lt y z -> lex_lt x z.
Proof. unfold lex_lt. lia. Qed.
Lemma lex_le_trans x y z : lex_le x y -> lex_le y z -> lex_le x z.
Proof. unfold lex_le, lex_lt. lia. Qed.
Lemma lex_lt_irrefl x : ~ lex_lt x x.
Proof. unfold lex_lt. lia. Qed.

Lemma edge_insert_perm e l : Permutation (e :: l) (edge_insert e l).
Proof.
  induction l as [|x l IH]; cbn; [reflexivity|]. destruct (edge_lt x e); [|reflexivity].
  rewrite perm_swap. constructor. exact IH.
Qed.
Lemma edge_insert_sorted e l : StronglySorted lex_le l -> StronglySorted lex_le (edge_insert e l).
Proof.
  induction l as [|x l IH]; cbn; intros H; [repeat constructor|]. apply StronglySorted_inv in H. destruct H as [H1 H2].
  destruct (edge_lt x e) eqn:E.
  - constructor; [apply IH; exact H1|]. apply (Permutation_Forall (edge_insert_perm e l)). constructor; [|exact H2].
    apply edge_lt_iff in E. apply lex_le_cases. auto.
  - apply edge_lt_false in E. constructor; [constructor; assumption|]. constructor; [exact E|].
    rewrite Forall_forall in *. intros y Hy. eapply lex_le_trans; [exact E|apply H2; exact Hy].
Qed.
Lemma edge_sort_perm l : Permutation l (edge_sort l).
Proof. induction l as [|x l IH]; cbn; [reflexivity|]. rewrite <- edge_insert_perm. constructor. exact IH. Qed.
Lemma edge_sort_sorted l : StronglySorted lex_le (edge_sort l).
Proof. induction l as [|x l IH]; cbn; [constructor|]. apply edge_insert_sorted. exact IH. Qed.

Lemma unique_from_spec x l : StronglySorted lex_le (x :: l) ->
  StronglySorted lex_lt (x :: unique_from x l) /\ (forall y, In y (x :: unique_from x l) <-> In y (x :: l)).
Proof.
  revert x; induction l as [|y l IH]; intros x H; cbn [unique_from]; [split; [repeat constructor|tauto]|].
  apply StronglySorted_inv in H. destruct H as [H1 H2]. destruct (edge_eqb x y) eqn:E.
  - apply edge_eqb_iff in E; subst y. destruct (IH x H1) as [S I]. split; [exact S|]. intros z. rewrite I. cbn. tauto.
  - destruct (IH y H1) as [S I]. split; [|intros z; cbn [In] in *; rewrite <- I; tauto].
    constructor; [exact S|]. inversion_clear H2 as [|? ? Hxy H3]. apply Forall_forall. intros z Hz.
    assert (Lxy : lex_lt x y). { apply lex_le_cases in Hxy. destruct Hxy as [?|E2]; [assumption|]. apply edge_eqb_iff in E2. congruence. }
    apply I in Hz. cbn in Hz. destruct Hz as [->|Hz]; [exact Lxy|]. apply StronglySorted_inv in H1. destruct H1 as [_ H1].
    rewrite Forall_forall in H1. specialize (H1 z Hz). apply lex_le_cases in H1. destruct H1 as [?| ->]; [eapply lex_lt_trans; eassumption|exact Lxy].
Qed.
Lemma unique_spec l : StronglySorted lex_le l -> StronglySorted lex_lt (unique l) /\ (forall y, In y (unique l) <-> In y l).
Proof. destruct l as [|x l]; cbn [unique]; intros H; [split; [constructor|tauto]|]. apply unique_from_spec. exact H. Qed.

Lemma sorted_ext (l l' : list edge) : StronglySorted lex_lt l -> StronglySorted lex_lt l' -> (forall y, In y l <-> In y l') -> l = l'.
Proof.
  revert l'; induction l as [|x l IH]; intros [|y l'] S S' H.
  - reflexivity.
  - destruct (proj2 (H y)); left; reflexivity.
  - destruct (proj1 (H x)); left; reflexivity.
  - apply StronglySorted_inv in S, S'. destruct S as [S Sx], S' as [S' Sy]. rewrite Forall_forall in Sx, Sy.
    assert (x = y).
    { destruct (proj1 (H x) (or_introl eq_refl)) as [E|E]; [auto|]. destruct (proj2 (H y) (or_introl eq_refl)) as [E2|E2]; [auto|].
      exfalso. apply (lex_lt_irrefl x). eapply lex_lt_trans; [apply Sx; exact E2|apply Sy; exact E]. }
    subst y. f_equal. apply IH; try assumption. intros z. split; intros Hz.
    + destruct (proj1 (H z) (or_intror Hz)) as [<-|?]; [|assumption]. destruct (lex_lt_irrefl _ (Sx _ Hz)).
    + destruct (proj2 (H z) (or_intror Hz)) as [<-|?]; [|assumption]. destruct (lex_lt_irrefl _ (Sy _ Hz)).
Qed.

Lemma add_edge_iff a b x y : (x, y) = add_edge a b <-> x <= y /\ ((x = a /\ y = b) \/ (x = b /\ y = a)).
Proof.
  unfold add_edge. destruct (Nat.ltb_spec a b); split; intros E; try (inversion E; subst; lia);
  destruct E as [E [[-> ->]|[-> ->]]]; f_equal; lia.
Qed.
Lemma raw_edges_iff l x y : In (x, y) (raw_edges l) <-> x <= y /\ exists t, In t l /\ side_of t x y.
Proof.
  unfold raw_edges. rewrite in_flat_map. unfold side_of. split.
  - intros (t & Ht & H). cbn in H. destruct H as [H|[H|[H|[]]]]; symmetry in H; apply add_edge_iff in H; (split; [tauto|]; exists t; tauto).
  - intros [L (t & Ht & H)]. exists t. split; [exact Ht|]. cbn.
    assert (D : (x, y) = add_edge (ta t) (tb t) \/ (x, y) = add_edge (tb t) (tc t) \/ (x, y) = add_edge (tc t) (ta t)).
    { rewrite !add_edge_iff. tauto. }
    destruct D as [D|[D|D]]; auto.
Qed.
Lemma edges_iff {V} (m : mesh V) x y : In (x, y) (edges m) <-> x <= y /\ exists t, In t (tris m) /\ side_of t x y.
Proof.
  unfold edges. rewrite (proj2 (unique_spec _ (edge_sort_sorted _))). rewrite <- raw_edges_iff.
  split; apply Permutation_in; [symmetry|]; apply edge_sort_perm.
Qed.

(** ** FindTriangles *)
Lemma find_from_in p i l k : In k (find_from p i l) <-> exists j t, k = i + j /\ nth_error l j = Some t /\ p t = true.
Proof.
  revert i; induction l as [|t l IH]; intros i; cbn.
  - split; [intros []|]. intros (j & t & _ & H & _). destruct j; discriminate.
  - assert (E : In k (find_from p (S i) l) <-> exists j t', k = i + S j /\ nth_error l j = Some t' /\ p t' = true).
    { rewrite IH. split; intros (j & t' & E & H); exists j, t'; (split; [lia|exact H]). }
    destruct (p t) eqn:Pt; cbn; rewrite E; split.
    + intros [<-|(j & t' & H)]; [exists 0, t; split; [lia|auto]|exists (S j), t'; exact H].
    + intros ([|j] & t' & Ek & H); [left; lia|right; exists j, t'; auto].
    + intros (j & t' & H). exists (S j), t'; exact H.
    + intros ([|j] & t' & Ek & H & Hp); [cbn in H; congruence|exists j, t'; auto].
Qed.
Lemma find_from_ge p i l k : In k (find_from p i l) -> i <= k.
Proof. rewrite find_from_in. intros (j & _ & -> & _). lia. Qed.
Lemma find_from_sorted p i l : StronglySorted lt (find_from p i l).
Proof.
  revert i; induction l as [|t l IH]; intros i; cbn; [constructor|]. destruct (p t); [|apply IH].
  constructor; [apply IH|]. apply Forall_forall. intros k H. apply find_from_ge in H. lia.
Qed.
Lemma has_edge_iff t a b : has_edge t a b || has_edge t b a = true <-> side_of t a b.
Proof.
  unfold has_edge, side_of. rewrite !orb_true_iff, !andb_true_iff, !Nat.eqb_eq. intuition.
Qed.

(** ** Sets as ascending lists *)
Lemma set_insert_in x s y : In y (set_insert x s) <-> y = x \/ In y s.
Proof.
  induction s as [|z s IH]; cbn [set_insert In]; [intuition|]. destruct (Nat.ltb_spec x z); [cbn [In]; split; (intros [E|E]; [left; congruence|right; exact E])|].
  destruct (Nat.ltb_spec z x); cbn; [rewrite IH; tauto|]. assert (x = z) by lia. subst z. cbn. split; [tauto|intros [E|E]; [left; congruence|exact E]].
Qed.
Lemma set_insert_sorted x s : StronglySorted lt s -> StronglySorted lt (set_insert x s).
Proof.
  induction s as [|z s IH]; cbn [set_insert]; intros H; [repeat constructor|]. pose proof H as H0. apply StronglySorted_inv in H. destruct H as [H1 H2].
  destruct (Nat.ltb_spec x z).
  - constructor; [exact H0|]. constructor; [assumption|]. eapply Forall_impl; [|exact H2]. intros; cbn in *; lia.
  - destruct (Nat.ltb_spec z x); [|assumption]. constructor; [apply IH; exact H1|]. apply Forall_forall. intros y Hy.
    apply set_insert_in in Hy. rewrite Forall_forall in H2. destruct Hy as [->|Hy]; [assumption|apply H2; exact Hy].
Qed.
Definition set_union (s r : list nat) := fold_left (fun q x => set_insert x q) r s.
Lemma set_union_in r s y : In y (set_union s r) <-> In y s \/ In y r.
Proof.
  unfold set_union. revert s; induction r as [|x r IH]; intros s; cbn; [tauto|]. rewrite IH, set_insert_in. intuition congruence.
Qed.
Lemma set_union_sorted r s : StronglySorted lt s -> StronglySorted lt (set_union s r).
Proof. unfold set_union. revert s; induction r as [|x r IH]; intros s H; cbn; [exact H|]. apply IH, set_insert_sorted, H. Qed.
