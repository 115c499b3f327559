(** Sums over the directed edges of grids, discs and cones: everything cancels except the boundary. *)
From Coq Require Import ZArith Reals List Bool Arith Lia Lra Permutation.
From Verif Require Import Model.Vec Model.Mesh Model.Interp Model.MeshGen Spec.MeshGenSpec Spec.ClosedSpec.
Import ListNotations.
Local Open Scope R_scope.
Ltac num := first [lia | lra].


Fixpoint zsum (n : nat) (f : nat -> R) : R := match n with O => 0 | S k => zsum k f + f k end.
Lemma zsum_ext n f g : (forall i, (i < n)%nat -> f i = g i) -> zsum n f = zsum n g.
Proof. induction n; cbn; intros H; [reflexivity|]. rewrite IHn by (intros; apply H; num). now rewrite H by num. Qed.
Lemma zsum_add n f g : zsum n (fun i => f i + g i) = zsum n f + zsum n g.
Proof. induction n; cbn [zsum fold_right app map]; num. Qed.
Lemma zsum_opp n f : zsum n (fun i => - f i) = - zsum n f.
Proof. induction n; cbn [zsum fold_right app map]; num. Qed.
Lemma zsum_sub n f g : zsum n (fun i => f i - g i) = zsum n f - zsum n g.
Proof. induction n; cbn [zsum fold_right app map]; num. Qed.
Lemma zsum_zero n f : (forall i, (i < n)%nat -> f i = 0) -> zsum n f = 0.
Proof. induction n; cbn; intros H; [reflexivity|]. rewrite IHn by (intros; apply H; num). rewrite H by num. lra. Qed.
Lemma zsum_tele n f : zsum n (fun i => f (i + 1)%nat - f i) = f n - f O.
Proof. induction n; cbn; [num|]. rewrite IHn. replace (n + 1)%nat with (S n) by num. num. Qed.
Lemma zsum_first n f : zsum (S n) f = f O + zsum n (fun i => f (S i)).
Proof. induction n; [cbn [zsum fold_right app map]; num|]. change (zsum (S (S n)) f) with (zsum (S n) f + f (S n)). rewrite IHn. cbn. num. Qed.
Lemma zsum_rev n f : zsum n f = zsum n (fun i => f (n - 1 - i)%nat).
Proof.
  induction n; [reflexivity|]. rewrite (zsum_first n (fun i => f (S n - 1 - i)%nat)). cbn [zsum]. rewrite IHn.
  replace (S n - 1 - 0)%nat with n by num. rewrite Rplus_comm. f_equal. apply zsum_ext. intros i Hi. f_equal. num.
Qed.

Section Sums.
Variable w : vec3 -> vec3 -> R.
Hypothesis anti : forall p q, w p q = - w q p.

Definition tsum (t : vec3 * vec3 * vec3) : R := let '(a, b, c) := t in w a b + w b c + w c a.
Definition esum (l : list (vec3 * vec3 * vec3)) : R := fold_right Rplus 0 (map tsum l).
Lemma esum_app l k : esum (l ++ k) = esum l + esum k.
Proof. unfold esum. rewrite map_app. induction (map tsum l); cbn [zsum fold_right app map]; num. Qed.
Lemma esum_nil : esum [] = 0.
Proof. reflexivity. Qed.
Lemma esum_cons t l : esum (t :: l) = tsum t + esum l.
Proof. reflexivity. Qed.
Lemma esum_flat_seq {A} (F : A -> vec3 * vec3 * vec3) (f : nat -> list A) a n :
  esum (map F (flat_map f (seq a n))) = zsum n (fun i => esum (map F (f (a + i)%nat))).
Proof.
  revert a. induction n; intros a; [reflexivity|]. cbn [seq flat_map]. rewrite map_app, esum_app, IHn, zsum_first.
  replace (a + 0)%nat with a by num. f_equal. apply zsum_ext. intros i Hi. do 3 f_equal. num.
Qed.

Lemma w_diag p : w p p = 0.
Proof. pose proof (anti p p). num. Qed.

Variable q : nat -> nat -> vec3.
Let at_ (l : nat * nat) : vec3 := q (fst l) (snd l).

Definition vstep (i j : nat) : R := w (q i j) (q (i + 1) j).
Definition hstep (i j : nat) : R := w (q i j) (q i (j + 1)).
Definition cell_sum (i j : nat) : R := vstep i j + hstep (i + 1) j - vstep i (j + 1) - hstep i j.
Definition sign (o : order) : R := match o with O0 | O3 => 1 | O1 | O2 => -1 end.

Lemma cell_esum o ac i j : esum (map (tmap at_) (cell o ac i j)) = sign o * cell_sum i j.
Proof.
  unfold cell_sum, vstep, hstep, at_. destruct o; cbn [cell sign]; unfold cut; destruct (ac i j); cbn [map tmap fst snd]; rewrite !esum_cons, esum_nil; unfold tsum;
    rewrite ?(anti (q (i + 1) (j + 1)) (q i j)), ?(anti (q i (j + 1)) (q (i + 1) j)), ?(anti (q (i + 1) j) (q i j)),
      ?(anti (q (i + 1) (j + 1)) (q i (j + 1))), ?(anti (q (i + 1) (j + 1)) (q (i + 1) j)), ?(anti (q i (j + 1)) (q i j)).
  all: try ring.

Qed.

(** The boundary of a grid of M by C cells *)
Definition boundary (M C : nat) : R :=
  zsum M (fun i => vstep i 0 - vstep i C) + zsum C (fun j => hstep M j - hstep 0 j).

Lemma cells_sum M C : zsum M (fun i => zsum C (fun j => cell_sum i j)) = boundary M C.
Proof.
  unfold boundary. assert (E : forall i, zsum C (fun j => cell_sum i j) = (vstep i 0 - vstep i C) + (zsum C (hstep (i + 1)) - zsum C (hstep i))).
  { intros i. unfold cell_sum. rewrite (zsum_ext C _ (fun j => (hstep (i + 1) j - hstep i j) + - (vstep i (j + 1) - vstep i j))) by (intros; ring).
    rewrite zsum_add, zsum_opp, zsum_sub, (zsum_tele C (fun j => vstep i j)). ring. }
  rewrite (zsum_ext M _ _ (fun i _ => E i)), zsum_add. f_equal.
  rewrite (zsum_tele M (fun i => zsum C (hstep i))). symmetry. apply zsum_sub.
Qed.
Lemma zsum_scale n k f : zsum n (fun i => k * f i) = k * zsum n f.
Proof. induction n; cbn [zsum fold_right app map]; num. Qed.

Lemma grid_esum o ac M C : esum (map (tmap at_) (grid o ac M C)) = sign o * boundary M C.
Proof.
  unfold grid. rewrite esum_flat_seq. cbn [Nat.add].
  rewrite (zsum_ext M _ (fun i => sign o * zsum C (fun j => cell_sum i j))).
  - rewrite zsum_scale, cells_sum. reflexivity.
  - intros i _. rewrite esum_flat_seq. cbn [Nat.add]. rewrite (zsum_ext C _ (fun j => sign o * cell_sum i j)) by (intros; apply cell_esum). apply zsum_scale.
Qed.

(** A disc whose center is every (i, 0) *)
Lemma disc_esum up ac H K : (0 < K)%nat -> (forall i, q i 0 = q 0 0) ->
  esum (map (tmap at_) (disc up ac H K)) = sign (if up then O1 else O0) * boundary H K.
Proof.
  intros HK C. unfold disc. rewrite esum_flat_seq. cbn [Nat.add]. rewrite <- cells_sum, <- zsum_scale. apply zsum_ext. intros i _.
  cbn [map]. rewrite esum_cons, esum_flat_seq. destruct K as [|k]; [num|]. replace (S k - 1)%nat with k by num. rewrite zsum_first.
  rewrite (zsum_ext k _ (fun j => sign (if up then O1 else O0) * cell_sum i (S j))) by (intros; apply (cell_esum (if up then O1 else O0))).
  rewrite zsum_scale, Rmult_plus_distr_l. f_equal. unfold cell_sum, vstep, hstep, at_. destruct up; cbn [tmap tsum fst snd sign Nat.add]; rewrite !(C i), !(C (i + 1)%nat), w_diag;
    rewrite ?(anti (q (i + 1) 1) (q i 1)), ?(anti (q (i + 1) 1) (q 0 0)), ?(anti (q i 1) (q 0 0)); ring.
Qed.

(** A cone whose tips (i, 0) are the same point *)
Lemma cone_esum ac H V : (0 < V)%nat -> (forall i, q i 0 = q 0 0) -> esum (map (tmap at_) (cone_fan ac H V)) = - boundary H V.
Proof.
  intros HK C. unfold cone_fan. rewrite esum_flat_seq. cbn [Nat.add]. replace (- boundary H V) with (-1 * boundary H V) by ring. rewrite <- cells_sum, <- zsum_scale. apply zsum_ext. intros i _.
  cbn [map]. rewrite esum_cons, esum_flat_seq. destruct V as [|k]; [num|]. replace (S k - 1)%nat with k by num. rewrite zsum_first.
  rewrite (zsum_ext k _ (fun j => -1 * cell_sum i (S j))) by (intros; apply (cell_esum O1)).
  rewrite zsum_scale, Rmult_plus_distr_l. f_equal. unfold cell_sum, vstep, hstep, at_. cbn [tmap tsum fst snd Nat.add]. rewrite !(C i), !(C (i + 1)%nat), w_diag.
  rewrite ?(anti (q (i + 1) 1) (q 0 0)). ring.
Qed.

End Sums.

Lemma tube_esum w (anti : forall p q, w p q = - w q p) (q : nat -> nat -> vec3) ac U V : (0 < U)%nat -> (0 < V)%nat ->
  esum w (map (tmap (fun l => q (fst l) (snd l))) (tube ac U V)) = 0.
Proof.
  intros HU HV. unfold tube. rewrite esum_flat_seq. cbn [Nat.add]. pose (h := fun i j => w (q i j) (q i (next V j))). pose (v := fun i j => w (q i j) (q (next U i) j)).
  assert (NX : forall n (f : nat -> R), (0 < n)%nat -> zsum n (fun i => f (next n i)) = zsum n f).
  { intros n f Hn. destruct n as [|k]; [num|]. cbn [zsum]. rewrite (zsum_ext k _ (fun i => f (S i))).
    - unfold next at 1. replace (k + 1 <? S k)%nat with false by (symmetry; apply Nat.ltb_ge; num). change (zsum k f + f k) with (zsum (S k) f). rewrite zsum_first. num.
    - intros i Hi. unfold next. replace (i + 1 <? S k)%nat with true by (symmetry; apply Nat.ltb_lt; num). f_equal. num. }
  rewrite (zsum_ext U _ (fun i => zsum V (h i) - zsum V (h (next U i)))).
  - rewrite zsum_sub, (NX U (fun i => zsum V (h i))) by assumption. ring.
  - intros i Hi. rewrite esum_flat_seq. cbn [Nat.add].
    rewrite (zsum_ext V _ (fun j => (h i j - h (next U i) j) + (v i (next V j) - v i j))).
    + rewrite zsum_add, !zsum_sub, (NX V (v i)) by assumption. ring.
    + intros j Hj. subst h v. cbv beta. unfold cut. destruct (ac i j); cbn;
      rewrite ?(anti (q (next U i) (next V j)) (q i j)), ?(anti (q (next U i) (next V j)) (q (next U i) j)), ?(anti (q (next U i) j) (q i j)),
        ?(anti (q (next U i) j) (q i (next V j))); ring.
Qed.

(** Sums along a chain of points *)
Definition chain (w : vec3 -> vec3 -> R) (f : nat -> vec3) (n : nat) : R := zsum n (fun i => w (f i) (f (i + 1)%nat)).
Lemma boundary_chain w q M C : boundary w q M C = chain w (fun i => q i 0%nat) M - chain w (fun i => q i C) M + (chain w (q M) C - chain w (q 0%nat) C).
Proof. unfold boundary. rewrite !zsum_sub. reflexivity. Qed.
Lemma chain_ext w f g n : (forall i, (i <= n)%nat -> f i = g i) -> chain w f n = chain w g n.
Proof. intros H. apply zsum_ext. intros i Hi. rewrite !H by num. reflexivity. Qed.
Lemma chain_const w f n : (forall p q, w p q = - w q p) -> (forall i, (i <= n)%nat -> f i = f 0%nat) -> chain w f n = 0.
Proof. intros A H. apply zsum_zero. intros i Hi. rewrite (H i), (H (i + 1)%nat) by num. apply w_diag, A. Qed.
Lemma chain_rev w f g n : (forall p q, w p q = - w q p) -> (forall i, (i <= n)%nat -> f i = g (n - i)%nat) -> chain w f n = - chain w g n.
Proof.
  intros A H. unfold chain. rewrite (zsum_rev n), <- zsum_opp. apply zsum_ext. intros i Hi. rewrite !H by num. rewrite A. do 3 f_equal; num.
Qed.

(** Sums that vanish for every antisymmetric function: the list is closed. *)
Lemma esum_closed l : (forall w, (forall p q, w p q = - w q p) -> esum w l = 0) -> closed l.
Proof.
  intros H p q. unfold uses. pose (ind := fun e f => if edge_dec e f then 1 else 0).
  assert (C : forall e k, INR (count_occ edge_dec k e) = fold_right Rplus 0 (map (fun f => ind f e) k)).
  { intros e k. induction k as [|x k IH]; [reflexivity|]. cbn [count_occ map fold_right]. unfold ind at 1. destruct (edge_dec x e); rewrite ?S_INR, IH; num. }
  pose (w := fun a b => ind (a, b) (p, q) - ind (a, b) (q, p)).
  assert (A : forall a b, w a b = - w b a).
  { intros a b. unfold w, ind. repeat destruct edge_dec; try congruence; num. }
  specialize (H w A). apply INR_eq. rewrite !C.
  assert (S : forall l, esum w l = fold_right Rplus 0 (map (fun f => ind f (p, q)) (directed_edges l)) - fold_right Rplus 0 (map (fun f => ind f (q, p)) (directed_edges l))).
  { clear H. intros k. induction k as [|[[a b] c] k IH]; [cbn; lra|]. rewrite esum_cons. unfold directed_edges. cbn [flat_map tri_edges app map fold_right tsum].
    fold (directed_edges k). rewrite IH. unfold w. num. }
  rewrite S in H. num.
Qed.

(** The converse *)
Lemma closed_esum l w : (forall p q, w p q = - w q p) -> closed l -> esum w l = 0.
Proof.
  intros A C. pose (swap := fun e : vec3 * vec3 => (snd e, fst e)). pose (sum := fun es => fold_right Rplus 0 (map (fun e => w (fst e) (snd e)) es)).
  assert (E : esum w l = sum (directed_edges l)).
  { clear C. unfold sum. induction l as [|[[a b] c] l IH]; [reflexivity|]. rewrite esum_cons, IH. unfold directed_edges. cbn. ring. }
  assert (P : Permutation (directed_edges l) (map swap (directed_edges l))).
  { apply (Permutation_count_occ edge_dec). intros [p q]. rewrite (C p q : count_occ edge_dec (directed_edges l) (p, q) = _). unfold uses.
    symmetry. change (p, q) with (swap (q, p)). generalize (q, p). clear. intros e. induction (directed_edges l) as [|x k IH]; [reflexivity|]. cbn [map count_occ].
    destruct (edge_dec (swap x) (swap e)) as [H|H], (edge_dec x e) as [K|K]; try (now rewrite IH); exfalso.
    - apply K. destruct x, e. unfold swap in H. cbn in H. congruence.
    - apply H. now rewrite K. }
  assert (S1 : sum (map swap (directed_edges l)) = - sum (directed_edges l)).
  { unfold sum. generalize (directed_edges l). intros k. induction k as [|[x y] k IH]; cbn [map fold_right swap fst snd]; [lra|]. rewrite IH, (A y x). ring. }
  assert (S2 : forall a b, Permutation a b -> sum a = sum b).
  { unfold sum. intros a b H. induction H; cbn [map fold_right]; try lra. }
  rewrite (S2 _ _ P) in E. pose proof (S2 _ _ P). rewrite E. lra.
Qed.
