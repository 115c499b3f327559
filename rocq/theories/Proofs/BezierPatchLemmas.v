From Coq Require Import ZArith Reals List Bool Lia Lra Psatz.
From Verif Require Import Model.Vec Model.Bezier Spec.BezierSpec Proofs.VecLemmas Proofs.BezierLemmas.
Import ListNotations.

(** ** Reading and writing *)

Lemma set_at_length {A} (l : list A) k x : length (set_at l k x) = length l.
Proof. revert k; induction l; intros [|k]; cbn; auto. Qed.
Lemma nth_set_at {A} (l : list A) k x d i : nth i (set_at l k x) d = if Nat.eqb i k && (k <? length l)%nat then x else nth i l d.
Proof.
  revert k i; induction l as [|a l IH]; intros k i.
  - cbn [set_at length]. destruct i, k; cbn [Nat.eqb andb nth Nat.ltb Nat.leb]; rewrite ?andb_false_r; reflexivity.
  - destruct k as [|k], i as [|i]; cbn [set_at nth Nat.eqb andb length]; try reflexivity. rewrite IH. reflexivity.
Qed.

(** A store of points addressed by [idx]: what is read is what was written last, where the address is in range. *)
Section Store.
Variable idx : Z -> Z -> Z.
Variable valid : Z -> Z -> Prop.
Hypothesis idx_ge : forall u v, valid u v -> (0 <= idx u v)%Z.
Hypothesis idx_inj : forall u v u' v', valid u v -> valid u' v' -> idx u v = idx u' v' -> u = u' /\ v = v'.
Definition store_get (l : list vec3) u v : vec3 := if (idx u v <? Z.of_nat (length l))%Z then nth (Z.to_nat (idx u v)) l vzero else vzero.
Definition store_set (l : list vec3) u v x : list vec3 := if (idx u v <? Z.of_nat (length l))%Z then set_at l (Z.to_nat (idx u v)) x else l.
Definition agrees (l : list vec3) (s : sheet) : Prop :=
  forall u v, valid u v -> store_get l u v = if (idx u v <? Z.of_nat (length l))%Z then s u v else vzero.
Lemma store_set_length l u v x : length (store_set l u v x) = length l.
Proof. unfold store_set. destruct (_ <? _)%Z; [apply set_at_length|reflexivity]. Qed.
Lemma agrees_set l s u v x : valid u v -> agrees l s -> agrees (store_set l u v x) (put s u v x).
Proof.
  intros V A u' v' V'. unfold store_get. rewrite store_set_length. specialize (A u' v' V'). unfold store_get in A.
  destruct (idx u' v' <? Z.of_nat (length l))%Z eqn:E; [|reflexivity]. unfold store_set, put.
  destruct (idx u v <? Z.of_nat (length l))%Z eqn:F.
  - rewrite nth_set_at. assert (G := idx_ge u v V). assert (G' := idx_ge u' v' V'). apply Z.ltb_lt in E, F.
    replace (Z.to_nat (idx u v) <? length l)%nat with true by (symmetry; apply Nat.ltb_lt; lia). rewrite andb_true_r.
    destruct (Nat.eqb (Z.to_nat (idx u' v')) (Z.to_nat (idx u v))) eqn:H.
    + apply Nat.eqb_eq in H. destruct (idx_inj u' v' u v V' V ltac:(lia)) as [-> ->]. rewrite !Z.eqb_refl. reflexivity.
    + destruct (Z.eqb u' u && Z.eqb v' v) eqn:K; [|exact A]. apply andb_prop in K as [K1 K2]. apply Z.eqb_eq in K1, K2. subst.
      rewrite Nat.eqb_refl in H. discriminate.
  - destruct (Z.eqb u' u && Z.eqb v' v) eqn:K; [|exact A]. apply andb_prop in K as [K1 K2]. apply Z.eqb_eq in K1, K2. subst. congruence.
Qed.
Lemma agrees_blank n : agrees (repeat vzero n) blank.
Proof. intros u v V. unfold store_get, blank. destruct (_ <? _)%Z; [|reflexivity]. apply nth_repeat. Qed.
End Store.

(** *** The square patch *)
Local Open Scope Z_scope.

Lemma patch_index_eq n u v : 0 <= n <= 65534 -> inside_patch n u v -> patch_index n u v = v * (n + 1) + u.
Proof. intros N [U V]. unfold patch_index, w32. rewrite (Z.mod_small (n + 1)) by lia. apply Z.mod_small. nia. Qed.
Lemma patch_count_eq n : 0 <= n <= 65534 -> patch_count n = (n + 1) * (n + 1).
Proof. intros N. unfold patch_count, w32. rewrite (Z.mod_small (n + 1)) by lia. apply Z.mod_small. nia. Qed.

Definition patch_ok (p : patch) (n : Z) (s : sheet) : Prop :=
  order p = n /\ 0 <= n <= 65534 /\ length (cpoints p) = Z.to_nat (patch_count n) /\
  agrees (patch_index n) (inside_patch n) (cpoints p) s.
Lemma patch_ok_order n : 0 <= n <= 65534 -> patch_ok (patch_of_order n) n blank.
Proof.
  intros H. unfold patch_ok, patch_of_order; cbn [order cpoints]. split; [reflexivity|]. split; [exact H|]. split; [apply repeat_length|].
  apply agrees_blank.
Qed.
Lemma patch_ok_set p n s u v x : inside_patch n u v -> patch_ok p n s -> patch_ok (patch_set p u v x) n (put s u v x).
Proof.
  intros V (O & N & L & A). assert (E : cpoints (patch_set p u v x) = store_set (patch_index n) (cpoints p) u v x).
  { unfold patch_set, store_set. rewrite O. destruct (_ <? _); reflexivity. }
  unfold patch_ok. rewrite E, store_set_length. split; [unfold patch_set; destruct (_ <? _); exact O|]. split; [exact N|]. split; [exact L|].
  apply agrees_set; try assumption.
  - intros a b I. rewrite patch_index_eq by assumption. destruct I. nia.
  - intros a b a' b' I I' H. rewrite !patch_index_eq in H by assumption. destruct I as [? ?], I' as [? ?].
    assert (b = b') by nia. subst. lia.
Qed.
Lemma patch_ok_run : forall ops p n s, valid_patch 65534 ops n -> patch_ok p n s ->
  patch_ok (fold_left patch_step ops p) (fst (expected_patch ops n s)) (snd (expected_patch ops n s)).
Proof.
  induction ops as [|[n'|u v x] r IH]; intros p n s V K; cbn [fold_left expected_patch valid_patch patch_step] in *; [exact K|..]; destruct V as [V1 V2].
  - apply IH; [exact V2|]. apply patch_ok_order; exact V1.
  - apply IH; [exact V2|]. apply patch_ok_set; assumption.
Qed.
Lemma patch_ok_get p n s u v : patch_ok p n s -> inside_patch n u v -> patch_get p u v = s u v.
Proof.
  intros (O & N & L & A) I. specialize (A u v I). unfold store_get in A. unfold patch_get. rewrite O.
  assert (E : patch_index n u v <? Z.of_nat (length (cpoints p)) = true).
  { apply Z.ltb_lt. rewrite L, patch_count_eq, patch_index_eq by assumption. destruct I. nia. }
  rewrite E in *. exact A.
Qed.

(** *** The triangle *)
Lemma triangle_index_eq n i j : 0 <= n <= 65534 -> inside_triangle n i j ->
  triangle_index n i j = if 0 <? j then j * n + 1 + i else i.
Proof.
  intros N (I & J & K). unfold triangle_index, w32. destruct (0 <? j) eqn:E; [|reflexivity].
  rewrite (Z.mod_small (n + 1)) by lia. rewrite Z.mod_small by nia. nia.
Qed.
Lemma triangle_count_eq n : 0 <= n <= 65534 -> triangle_count n = (n + 1) * (n + 2) / 2 /\ 2 * triangle_count n = (n + 1) * (n + 2).
Proof.
  intros N. unfold triangle_count, w32.
  assert (E : (n + 1) * (n + 2) = 2 * ((n + 1) * (n + 2) / 2)).
  { apply Z_div_exact_2; [lia|]. rewrite Zmult_mod.
    destruct (Z.Even_or_Odd n) as [[k ->]|[k ->]].
    - replace (2 * k + 2) with ((k + 1) * 2) by ring. rewrite Z_mod_mult, Z.mul_0_r. reflexivity.
    - replace (2 * k + 1 + 1) with ((k + 1) * 2) by ring. rewrite Z_mod_mult, Z.mul_0_l. reflexivity. }
  assert (B : (n + 1) * (n + 2) <= 65535 * 65536) by nia. rewrite Z.mod_small by lia. lia.
Qed.
Definition triangle_ok (p : patch) (n : Z) (s : sheet) : Prop :=
  order p = n /\ 0 <= n <= 65534 /\ length (cpoints p) = Z.to_nat (triangle_count n) /\
  agrees (triangle_index n) (inside_triangle n) (cpoints p) s.
Lemma triangle_ok_order n : 0 <= n <= 65534 -> triangle_ok (triangle_of_order n) n blank.
Proof.
  intros H. unfold triangle_ok, triangle_of_order; cbn [order cpoints]. split; [reflexivity|]. split; [exact H|]. split; [apply repeat_length|].
  apply agrees_blank.
Qed.
Lemma triangle_inj n i j i' j' : 0 <= n <= 65534 -> inside_triangle n i j -> inside_triangle n i' j' ->
  triangle_index n i j = triangle_index n i' j' -> i = i' /\ j = j'.
Proof.
  intros N I I' H. rewrite !triangle_index_eq in H by assumption. destruct I as (? & ? & ?), I' as (? & ? & ?).
  destruct (0 <? j) eqn:E, (0 <? j') eqn:E'; rewrite ?Z.ltb_lt, ?Z.ltb_ge in *.
  - assert (j = j') by nia. subst. lia.
  - exfalso. nia.
  - exfalso. nia.
  - lia.
Qed.
Lemma triangle_ok_set p n s i j x : inside_triangle n i j -> triangle_ok p n s -> triangle_ok (triangle_set p i j x) n (put s i j x).
Proof.
  intros V (O & N & L & A). assert (E : cpoints (triangle_set p i j x) = store_set (triangle_index n) (cpoints p) i j x).
  { unfold triangle_set, store_set. rewrite O. destruct (_ <? _); reflexivity. }
  unfold triangle_ok. rewrite E, store_set_length. split; [unfold triangle_set; destruct (_ <? _); exact O|]. split; [exact N|]. split; [exact L|].
  apply agrees_set; try assumption.
  - intros a b I. rewrite triangle_index_eq by assumption. destruct I as (? & ? & ?). destruct (0 <? b); nia.
  - intros a b a' b' I I' H. apply (triangle_inj n); assumption.
Qed.
Lemma triangle_ok_run : forall ops p n s, valid_triangle 65534 ops n -> triangle_ok p n s ->
  triangle_ok (fold_left triangle_step ops p) (fst (expected_triangle ops n s)) (snd (expected_triangle ops n s)).
Proof.
  induction ops as [|[n'|u v x] r IH]; intros p n s V K; cbn [fold_left expected_triangle valid_triangle triangle_step] in *; [exact K|..]; destruct V as [V1 V2].
  - apply IH; [exact V2|]. apply triangle_ok_order; exact V1.
  - apply IH; [exact V2|]. apply triangle_ok_set; assumption.
Qed.
Lemma triangle_ok_get p n s i j : triangle_ok p n s -> inside_triangle n i j ->
  triangle_get p i j = if (j =? 0) || (2 * (j * n + 1 + i) <? (n + 1) * (n + 2)) then s i j else vzero.
Proof.
  intros (O & N & L & A) I. specialize (A i j I). unfold store_get in A. unfold triangle_get. rewrite O. rewrite A.
  destruct (triangle_count_eq n N) as [_ C]. rewrite L, triangle_index_eq by assumption. destruct I as (? & ? & ?).
  rewrite Z2Nat.id by lia. destruct (j =? 0) eqn:J.
  - apply Z.eqb_eq in J. subst j. cbn [Z.ltb Z.compare orb]. replace (i <? triangle_count n) with true; [reflexivity|]. symmetry; apply Z.ltb_lt. nia.
  - apply Z.eqb_neq in J. replace (0 <? j) with true by (symmetry; apply Z.ltb_lt; lia). cbn [orb].
    destruct (j * n + 1 + i <? triangle_count n) eqn:E; rewrite ?Z.ltb_lt, ?Z.ltb_ge in E.
    + replace (2 * (j * n + 1 + i) <? (n + 1) * (n + 2)) with true; [reflexivity|]. symmetry; apply Z.ltb_lt; lia.
    + replace (2 * (j * n + 1 + i) <? (n + 1) * (n + 2)) with false; [reflexivity|]. symmetry; apply Z.ltb_ge; lia.
Qed.

(** ** Evaluation of patches *)
Local Open Scope R_scope.

Definition row (p : patch) (i : nat) (js : list nat) : list vec3 := map (fun j => patch_get p (Z.of_nat i) (Z.of_nat j)) js.
Fixpoint wsum2 (p : patch) (u v : R) (n : nat) (is : list nat) : vec3 :=
  match is with [] => vzero | i :: r => vadd (vscale (B u n i) (wsum (B v n) 0 (row p i (seq 0 (S n))))) (wsum2 p u v n r) end.
Lemma vscale_add s a b : vscale s (vadd a b) = vadd (vscale s a) (vscale s b).
Proof. unfold vscale, vadd; cbn; f_equal; ring. Qed.
Lemma vscale_scale s t a : vscale s (vscale t a) = vscale (s * t) a.
Proof. unfold vscale; cbn; f_equal; ring. Qed.
Lemma patch_inner_sum p u v i : let n := Z.to_nat (order p) in (1 <= n <= 20)%nat -> (i <= n)%nat ->
  forall k j acc, (j + k <= S n)%nat ->
  patch_inner p u v i (seq j k) acc = Some (vadd acc (vscale (B u n i) (wsum (B v n) j (row p i (seq j k))))).
Proof.
  intros n N I. induction k; intros j acc H; cbn [seq patch_inner row map wsum].
  - unfold vscale, vzero; cbn. f_equal. destruct acc; unfold vadd; cbn; f_equal; ring.
  - fold n. rewrite !bernstein_B by lia. rewrite IHk by lia. f_equal. rewrite vscale_add, vscale_scale, vadd_assoc. reflexivity.
Qed.
Lemma patch_outer_sum p u v : let n := Z.to_nat (order p) in (1 <= n <= 20)%nat ->
  forall is acc, (forall i, In i is -> (i <= n)%nat) -> patch_outer p u v is acc = Some (vadd acc (wsum2 p u v n is)).
Proof.
  intros n N. induction is as [|i r IH]; intros acc H; cbn [patch_outer wsum2]; [rewrite vadd_0_r; reflexivity|].
  rewrite patch_inner_sum; fold n; [|assumption|apply H; left; reflexivity|lia]. rewrite IH by (intros; apply H; right; assumption).
  f_equal. apply vadd_assoc.
Qed.
(** A patch is a Bezier curve in u whose control points move along Bezier curves in v. *)
Lemma wsum2_wsum p u v n : forall k i, wsum2 p u v n (seq i k) = wsum (B u n) i (map (fun i => wsum (B v n) 0 (row p i (seq 0 (S n)))) (seq i k)).
Proof. induction k; intros i; cbn [seq wsum2 map wsum]; [reflexivity|]. rewrite IHk. reflexivity. Qed.
Lemma patch_eval_sum p u v : let n := Z.to_nat (order p) in (1 <= n <= 20)%nat ->
  patch_eval p u v = Some (wsum (B u n) 0 (map (fun i => wsum (B v n) 0 (row p i (seq 0 (S n)))) (seq 0 (S n)))).
Proof.
  intros n N. unfold patch_eval. fold n. rewrite patch_outer_sum; fold n; [|assumption|intros i I; apply in_seq in I; lia].
  rewrite vadd_0_l, wsum2_wsum. reflexivity.
Qed.
