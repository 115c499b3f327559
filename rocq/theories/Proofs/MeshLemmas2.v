From Coq Require Import Reals List Bool Arith Lia Lra Sorting Permutation.
From Verif Require Import Model.Scalar Model.Vec Model.Mesh Spec.MeshSpec Proofs.VecLemmas Proofs.MeshLemmas.
Import ListNotations.

(** ** TriangleNeighbors *)
Section Neighbors.
Context {V : Type}.
Variable equals : V -> V -> bool.
Variables (eb bp : bool) (m : mesh V).
Hypothesis wf : bp = true -> well_formed m.

Let hit (u : tri) (v : nat) := exists w, corner_of u w /\ same_corner equals bp m v w.
Let ok (v : nat) := bp = true -> v < length (verts m).

Lemma match_spec v w : ok v -> ok w -> bp = true -> exists b, match_vertex equals m v w = Some b /\ (b = true <-> same_corner equals bp m v w).
Proof.
  intros Hv Hw B. specialize (Hv B). specialize (Hw B). unfold match_vertex, same_corner. rewrite B. apply nth_error_Some in Hv, Hw.
  destruct (nth_error (verts m) v) as [x|]; [|congruence]. destruct (nth_error (verts m) w) as [y|]; [|congruence].
  exists (equals x y). split; [reflexivity|]. split; [intros E; exists x, y; auto|]. intros (x' & y' & E1 & E2 & E). congruence.
Qed.
Lemma oor_some x y b c : x = Some b -> y = Some c -> oor x y = Some (b || c).
Proof. intros -> ->. destruct b; reflexivity. Qed.
Lemma has_vertex_spec u v : ok v -> ok (ta u) -> ok (tb u) -> ok (tc u) ->
  exists b, has_vertex equals m bp u v = Some b /\ (b = true <-> hit u v).
Proof.
  intros Hv Ha Hb Hc. unfold has_vertex. destruct (Bool.bool_dec bp true) as [B|B].
  - destruct (match_spec v (ta u) Hv Ha B) as (b1 & E1 & I1). destruct (match_spec v (tb u) Hv Hb B) as (b2 & E2 & I2).
    destruct (match_spec v (tc u) Hv Hc B) as (b3 & E3 & I3). replace (if bp then _ else _) with (oor (oor (match_vertex equals m v (ta u)) (match_vertex equals m v (tb u))) (match_vertex equals m v (tc u))) by (rewrite B; reflexivity). rewrite (oor_some _ _ (b1 || b2) b3); [|apply oor_some; assumption|assumption].
    eexists; split; [reflexivity|]. rewrite !orb_true_iff, I1, I2, I3. unfold hit, corner_of. split.
    + intros [[H|H]|H]; eexists; (split; [|exact H]); auto.
    + intros (w & [->|[->| ->]] & H); auto.
  - apply not_true_is_false in B. rewrite B. eexists; split; [reflexivity|]. rewrite !orb_true_iff, !Nat.eqb_eq. unfold hit, corner_of, same_corner. rewrite B.
    split; [intros [[H|H]|H]; exists v; auto|]. intros (w & [->|[->| ->]] & ->); auto.
Qed.
Lemma is_neighbor_spec t u : (forall v, corner_of t v -> ok v) -> (forall v, corner_of u v -> ok v) ->
  exists b, is_neighbor equals m eb bp t u = Some b /\
    (b = true <-> if eb then two_corners equals bp m t u else touches equals bp m t u).
Proof.
  intros Ht Hu. assert (A : ok (ta u) /\ ok (tb u) /\ ok (tc u)) by (split; [|split]; apply Hu; unfold corner_of; auto). destruct A as (A1 & A2 & A3).
  destruct (has_vertex_spec u (ta t)) as (b1 & E1 & I1); auto; [apply Ht; unfold corner_of; auto|].
  destruct (has_vertex_spec u (tb t)) as (b2 & E2 & I2); auto; [apply Ht; unfold corner_of; auto|].
  destruct (has_vertex_spec u (tc t)) as (b3 & E3 & I3); auto; [apply Ht; unfold corner_of; auto|].
  unfold is_neighbor. destruct eb.
  - rewrite E1, E2, E3. eexists; split; [reflexivity|]. unfold two_corners. fold (hit u (ta t)) (hit u (tb t)) (hit u (tc t)).
    rewrite <- I1, <- I2, <- I3. destruct b1, b2, b3; cbn; intuition congruence.
  - rewrite (oor_some _ _ (b1 || b2) b3); [|apply oor_some; assumption|assumption]. eexists; split; [reflexivity|].
    rewrite !orb_true_iff, I1, I2, I3. unfold touches, hit, corner_of. split.
    + intros [[(w & H)|(w & H)]|(w & H)]; eexists; exists w; (split; [|exact H]); auto.
    + intros (v & w & [->|[->| ->]] & H); eauto.
Qed.

Let rel := neighbor_rel equals eb bp m.
Let good (t : tri) := forall v, corner_of t v -> ok v.
Lemma good_tri i t : nth_error (tris m) i = Some t -> good t.
Proof. intros H v C B. apply nth_error_In in H. destruct (wf B t H) as (A1 & A2 & A3). destruct C as [->|[->| ->]]; assumption. Qed.

Lemma neighbor_any_spec i t s : nth_error (tris m) i = Some t -> Forall (fun j => j < length (tris m)) s ->
  exists b, neighbor_of_any equals m eb bp t s = Some b /\ (b = true <-> exists j, In j s /\ rel j i).
Proof.
  intros Hi Hs. induction Hs as [|j s Hj Hs IH]; cbn.
  - exists false. split; [reflexivity|]. split; [discriminate|intros (j & [] & _)].
  - apply nth_error_Some in Hj. destruct (nth_error (tris m) j) as [u|] eqn:Eu; [|congruence]. destruct IH as (b & -> & I).
    destruct (is_neighbor_spec t u (good_tri _ _ Hi) (good_tri _ _ Eu)) as (c & -> & J). eexists; split; [reflexivity|].
    rewrite orb_true_iff, I, J. split.
    + intros [H|(j' & H)]; [exists j|exists j'; tauto]. split; [auto|]. exists t, u. auto.
    + intros (j' & [<-|Hj'] & H); [left|right; exists j'; auto]. destruct H as (t' & u' & E1 & E2 & H). rewrite Hi in E1. rewrite Eu in E2. injection E1 as <-. injection E2 as <-. exact H.
Qed.
Lemma find_neighbors_spec s i l : (forall j t, nth_error l j = Some t -> nth_error (tris m) (i + j) = Some t) ->
  Forall (fun j => j < length (tris m)) s ->
  exists r, find_neighbors equals m eb bp s i l = Some r /\
    (forall k, In k r <-> i <= k < i + length l /\ ~ In k s /\ exists j, In j s /\ rel j k).
Proof.
  intros Hl Hs. revert i Hl. induction l as [|t l IH]; intros i Hl; cbn.
  - exists []. split; [reflexivity|]. intros k. cbn. split; [intros []|lia].
  - destruct (IH (S i)) as (r & -> & I). { intros j t' H. specialize (Hl (S j) t' H). replace (S i + j) with (i + S j) by lia. exact Hl. }
    assert (Hi : nth_error (tris m) i = Some t) by (specialize (Hl 0 t eq_refl); rewrite Nat.add_0_r in Hl; exact Hl).
    assert (D : exists b, (if existsb (Nat.eqb i) s then Some false else neighbor_of_any equals m eb bp t s) = Some b /\
                 (b = true <-> ~ In i s /\ exists j, In j s /\ rel j i)).
    { destruct (existsb (Nat.eqb i) s) eqn:E.
      - exists false. split; [reflexivity|]. split; [discriminate|]. intros [N _]. apply existsb_exists in E. destruct E as (x & Hx & Ex). apply Nat.eqb_eq in Ex. subst x. contradiction.
      - destruct (neighbor_any_spec i t s Hi Hs) as (b & -> & J). exists b. split; [reflexivity|]. rewrite J. split; [|tauto]. intros H. split; [|exact H].
        intros N. assert (existsb (Nat.eqb i) s = true) by (apply existsb_exists; exists i; rewrite Nat.eqb_refl; auto). congruence. }
    destruct D as (b & -> & J). eexists; split; [reflexivity|]. intros k.
    assert (In k (if b then set_insert i r else r) <-> (b = true /\ k = i) \/ In k r) as ->.
    { destruct b; [rewrite set_insert_in; intuition|intuition congruence]. }
    rewrite J, I. split.
    + intros [[H ->]|[H1 H2]]; [split; [lia|exact H]|split; [lia|exact H2]].
    + intros [H1 H2]. destruct (Nat.eq_dec k i) as [->|]; [auto|right]. split; [lia|exact H2].
Qed.

Lemma ball_mono (nb : nat -> nat -> Prop) s k i : within_steps nb s k i -> within_steps nb s (S k) i.
Proof. induction 1; [constructor; assumption|econstructor; eassumption]. Qed.
Lemma ball_start (nb : nat -> nat -> Prop) s s' i d : (forall k, In k s' -> within_steps nb s 1 k) -> within_steps nb s' d i -> within_steps nb s (S d) i.
Proof.
  intros Hs. induction 1 as [k i Hi|k i j _ IH N]; [|eapply ws_step; eassumption].
  specialize (Hs i Hi). clear -Hs. induction k; [exact Hs|apply ball_mono; exact IHk].
Qed.
Lemma ball_shift (nb : nat -> nat -> Prop) s s' i d : (forall k, within_steps nb s 1 k -> In k s') -> within_steps nb s (S d) i -> within_steps nb s' d i.
Proof.
  intros Hs. revert i. induction d as [|d IH]; intros i H; [constructor; apply Hs; exact H|].
  inversion H as [? ? Hi|? i' ? Hi' N]; subst; [constructor; apply Hs; constructor; exact Hi|]. eapply ws_step; [apply IH; exact Hi'|exact N].
Qed.
Lemma neighbors_spec d s : StronglySorted lt s -> Forall (fun j => j < length (tris m)) s ->
  exists r, neighbors equals m eb bp s d = Some r /\ StronglySorted lt r /\ (forall i, In i r <-> within_steps rel s d i).
Proof.
  revert s; induction d as [|d IH]; intros s HS Hs; cbn.
  - exists s. split; [reflexivity|]. split; [exact HS|]. intros i. split; [intros; constructor; assumption|]. inversion 1; assumption.
  - destruct (find_neighbors_spec s 0 (tris m)) as (r & -> & I); [auto|exact Hs|]. fold (set_union s r).
    assert (K : forall k, In k (set_union s r) <-> within_steps rel s 1 k).
    { intros k. rewrite set_union_in, I. split.
      - intros [H|(_ & _ & j & H & N)]; [constructor; exact H|]. eapply ws_step; [constructor; exact H|exact N].
      - inversion 1 as [? ? Hi|? j ? Hj N]; subst; [auto|]. destruct (in_dec Nat.eq_dec k s) as [|Nk]; [auto|right]. 
        inversion Hj; subst. split; [|split; [exact Nk|eauto]]. destruct N as (t & u & E & _). cbn. split; [lia|]. apply nth_error_Some. congruence. }
    destruct (IH (set_union s r)) as (q & -> & S' & I').
    + apply set_union_sorted, HS.
    + apply Forall_forall. intros k Hk. apply set_union_in in Hk. rewrite Forall_forall in Hs. destruct Hk as [Hk|Hk]; [auto|]. apply I in Hk. lia.
    + exists q. split; [reflexivity|]. split; [exact S'|]. intros i. rewrite I'. split.
      * apply ball_start. intros k. apply K.
      * apply ball_shift. intros k. apply K.
Qed.
End Neighbors.

Lemma two_corners_share {V} equals (m : mesh V) t u : ta t <> tb t -> tb t <> tc t -> ta t <> tc t ->
  two_corners equals false m t u <-> share_side t u.
Proof.
  intros D1 D2 D3. unfold two_corners, share_side, same_corner.
  assert (H : forall v, (exists w, corner_of u w /\ v = w) <-> corner_of u v).
  { intros v. split; [intros (w & ? & ->); assumption|intros; exists v; auto]. }
  rewrite !H. assert (S2 : forall a b, a <> b -> corner_of u a /\ corner_of u b <-> side_of u a b).
  { intros a b N. unfold corner_of, side_of. intuition congruence. }
  rewrite !S2 by assumption. split.
  - intros [K|[K|K]]; do 2 eexists; (split; [|split; [|exact K]]); try assumption; unfold side_of; auto 10.
  - intros (a & b & N & T & K). assert (K' : side_of u b a) by (unfold side_of in *; tauto).
    unfold side_of in T. destruct T as [[-> ->]|[[-> ->]|[[-> ->]|[[-> ->]|[[-> ->]|[-> ->]]]]]]; tauto.
Qed.

(** ** SilhouetteEdges *)
Section Silhouette.
Context {V : Type}.
Variable pos : V -> vec3.
Variable eps : R.
Variable m : mesh V.
Hypothesis wf : well_formed m.

Lemma corners_some t : in_range (length (verts m)) t -> exists a b c, corners (verts m) t = Some (a, b, c).
Proof.
  intros (A & B & C). unfold corners. apply nth_error_Some in A, B, C.
  destruct (nth_error (verts m) (ta t)); [|congruence]. destruct (nth_error (verts m) (tb t)); [|congruence].
  destruct (nth_error (verts m) (tc t)); [|congruence]. eauto.
Qed.
Lemma normal_some i : i < length (tris m) -> exists n, triangle_normal pos m i = Some n.
Proof.
  intros H. apply nth_error_Some in H. unfold triangle_normal. destruct (nth_error (tris m) i) as [t|] eqn:E; [|congruence].
  destruct (corners_some t) as (a & b & c & ->); [apply wf; apply nth_error_In in E; exact E|]. eauto.
Qed.
Lemma find_by_edge_range e i : In i (find_by_edge m e) -> i < length (tris m).
Proof. intros H. apply find_from_in in H. destruct H as (j & t & -> & H & _). cbn. apply nth_error_Some. congruence. Qed.

Lemma all_similar_spec tol n0 l : Forall (fun i => i < length (tris m)) l ->
  exists b, all_similar pos eps m tol n0 l = Some b /\
    (b = false <-> exists i n, In i l /\ triangle_normal pos m i = Some n /\ (eps + tol <= Rabs (dot n n0 - 1))%R).
Proof.
  induction 1 as [|i l Hi _ IH]; cbn [all_similar].
  - exists true. split; [reflexivity|]. split; [discriminate|]. intros (i & n & [] & _).
  - destruct (normal_some i Hi) as (n & En). rewrite En. destruct (Rleb (eps + tol) (Rabs (dot n n0 - 1))) eqn:E.
    + exists false. split; [reflexivity|]. apply Rleb_iff in E. split; [|reflexivity]. intros _. exists i, n. cbn; auto.
    + apply Rleb_false in E. destruct IH as (b & -> & I). exists b. split; [reflexivity|]. rewrite I. split.
      * intros (k & n' & H1 & H2). exists k, n'. cbn; tauto.
      * intros (k & n' & [<-|Hk] & H2 & H3); [|exists k, n'; auto]. rewrite En in H2. injection H2 as <-. lra.
Qed.
Definition bent tol e : Prop :=
  exists i n0, hd_error (find_by_edge m e) = Some i /\ triangle_normal pos m i = Some n0 /\
  exists j n, In j (tl (find_by_edge m e)) /\ triangle_normal pos m j = Some n /\ (eps + tol <= Rabs (dot n n0 - 1))%R.
Lemma part_spec tol e : exists b, part_of_silh pos eps m tol e = Some b /\
  (b = false <-> length (find_by_edge m e) < 2 \/ bent tol e).
Proof.
  unfold part_of_silh, bent. assert (R := find_by_edge_range e). destruct (find_by_edge m e) as [|i [|j l]]; cbn [length hd_error tl].
  - exists false. split; [reflexivity|]. intuition lia.
  - exists false. split; [reflexivity|]. intuition lia.
  - destruct (normal_some i (R i (or_introl eq_refl))) as (n0 & E0). rewrite E0.
    destruct (all_similar_spec tol n0 (j :: l)) as (b & -> & I). { apply Forall_forall. intros k Hk. apply R. right. exact Hk. }
    exists b. split; [reflexivity|]. rewrite I. split.
    + intros H. right. exists i, n0. auto.
    + intros [H|(i' & n' & H1 & H2 & H3)]; [lia|]. injection H1 as <-. rewrite E0 in H2. injection H2 as <-. exact H3.
Qed.
Lemma remove_spec tol l : exists r, remove_if pos eps m tol l = Some r /\
  (forall p, (forall e, p e = true <-> (length (find_by_edge m e) < 2 \/ bent tol e)) -> r = filter p l) /\
  (forall e, In e r <-> In e l /\ (length (find_by_edge m e) < 2 \/ bent tol e)).
Proof.
  induction l as [|e l (r & E & F & I)]; cbn [remove_if].
  - exists []. cbn. split; [reflexivity|]. split; [reflexivity|tauto].
  - rewrite E. destruct (part_spec tol e) as (b & -> & J). eexists; split; [reflexivity|]. split.
    + intros p Hp. cbn. specialize (Hp e) as Hpe. rewrite <- J in Hpe. rewrite <- (F p Hp). destruct b, (p e); try reflexivity; intuition congruence.
    + intros e'. destruct b; cbn; rewrite I.
      * split; [tauto|]. intros [[<-|H] K]; [apply J in K; discriminate|tauto].
      * split; [|tauto]. intros [<-|H]; [|tauto]. split; [auto|apply J; reflexivity].
Qed.
End Silhouette.

(** ** Append *)
Lemma copy_grow {A} (d : A) l l' : copy_to (grow d l (length l')) (length l) l' = Some (l ++ l').
Proof.
  unfold copy_to, grow. rewrite app_length, repeat_length, Nat.leb_refl. f_equal.
  rewrite firstn_app, Nat.sub_diag, firstn_all, app_nil_r. rewrite skipn_all2 by (rewrite app_length, repeat_length; lia). rewrite app_nil_r. reflexivity.
Qed.
Lemma append_eq {V} (dv : V) m o : append dv m o =
  Some (mkMesh (verts m ++ verts o) (tris m ++ map (shift_tri (length (verts m))) (tris o))).
Proof.
  unfold append. rewrite copy_grow, copy_grow. unfold shift_from.
  rewrite firstn_app, Nat.sub_diag, firstn_all, app_nil_r, skipn_app, Nat.sub_diag, skipn_all. reflexivity.
Qed.
Lemma corners_app_l {V} (l l' : list V) t : in_range (length l) t -> corners (l ++ l') t = corners l t.
Proof. intros (A & B & C). unfold corners. rewrite !nth_error_app1 by assumption. reflexivity. Qed.
Lemma corners_app_r {V} (l l' : list V) t : corners (l ++ l') (shift_tri (length l) t) = corners l' t.
Proof. unfold corners, shift_tri, ta, tb, tc. cbn. rewrite !nth_error_app2 by lia. rewrite !Nat.add_sub. reflexivity. Qed.
