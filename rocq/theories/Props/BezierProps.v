(** Properties C35 - C38: Bernstein polynomials, Bezier curves, patches and triangles. *)
From Coq Require Import ZArith Reals List Bool Lia Lra Psatz.
From Verif Require Import Model.Vec Model.Bezier Spec.BezierSpec Proofs.VecLemmas Proofs.BezierLemmas Proofs.BezierPatchLemmas.
Import ListNotations.
Local Open Scope R_scope.

(** ** C35 *)

(** The value of each polynomial: binomial coefficient times powers. *)
Theorem C35_values : forall n i t, (1 <= n <= 20)%nat -> (i <= n)%nat ->
  bernstein t i n = Some (IZR (choose n i) * t ^ i * (1 - t) ^ (n - i)).
Proof. intros n i t N I. rewrite bernstein_B, B_choose by lia. reflexivity. Qed.

(** Up to degree 20 the polynomials sum to one everywhere, are non-negative on [0,1], and mirror each other. *)
Theorem C35_partition_of_unity : forall n t, (1 <= n <= 20)%nat ->
  exists bs, map (fun i => bernstein t i n) (seq 0 (S n)) = map Some bs /\
    fold_right Rplus 0 bs = 1 /\
    (0 <= t <= 1 -> Forall (fun b => 0 <= b <= 1) bs) /\
    map (fun i => bernstein (1 - t) i n) (seq 0 (S n)) = map Some (rev bs).
Proof.
  intros n t N. exists (map (B t n) (seq 0 (S n))). split; [|split; [|split]].
  - rewrite map_map. apply map_ext_in. intros i I. apply in_seq in I. apply bernstein_B; lia.
  - rewrite <- total_map. apply unity.
  - intros T. assert (U := unity t n). rewrite total_map in U. apply Forall_forall. intros b I.
    assert (P : Forall (fun b => 0 <= b) (map (B t n) (seq 0 (S n)))).
    { apply Forall_forall. intros x X. apply in_map_iff in X as (i & <- & _). apply B_ge; exact T. }
    split; [rewrite Forall_forall in P; apply P; exact I|]. rewrite <- U. clear U. revert P I.
    generalize (map (B t n) (seq 0 (S n))) as l. induction l as [|x l IH]; intros P I; [destruct I|].
    assert (P' := P). inversion P' as [|? ? Px Pl]; subst. cbn [fold_right].
    assert (F : 0 <= fold_right Rplus 0 l) by (clear - Pl; induction Pl; cbn; lra).
    destruct I as [->|I]; [lra|]. specialize (IH Pl I). lra.
  - rewrite <- map_rev. rewrite map_map.
    assert (E : rev (seq 0 (S n)) = map (fun i => n - i)%nat (seq 0 (S n))).
    { clear. apply nth_ext with (d := 0%nat) (d' := 0%nat); [rewrite rev_length, map_length; reflexivity|].
      intros k K. rewrite rev_length, seq_length in K. rewrite rev_nth, seq_length, !seq_nth by (rewrite ?seq_length; lia).
      rewrite nth_indep with (d' := (n - 0)%nat) by (rewrite map_length, seq_length; lia).
      rewrite (map_nth (fun i => n - i)%nat), seq_nth by lia. lia. }
    rewrite E, map_map. apply map_ext_in. intros i I. apply in_seq in I. rewrite bernstein_B by lia. f_equal.
    rewrite B_sym by lia. replace (1 - (1 - t)) with t by ring. reflexivity.
Qed.

(** 20 is exactly the largest degree whose coefficients are all right. *)
Theorem C35_exact_degrees : forall n, (forall i, (i <= n)%nat -> binomial64 i n = Some (choose n i)) <-> (n <= 20)%nat.
Proof. exact exact_degrees. Qed.

(** Degree 21 already loses the partition of unity, *)
Lemma half_terms n : forall is cs, Forall (fun i => (i <= n)%nat) is -> (0 < n)%nat ->
  map (fun i => binomial64 i n) is = map Some cs ->
  map (fun i => bernstein (1 / 2) i n) is = map Some (map (fun c => IZR c * (1 / 2) ^ n) cs).
Proof.
  induction is as [|i is IH]; intros [|c cs] F N H; try discriminate; [reflexivity|]. inversion F as [|? ? Fi Fs]; subst.
  cbn [map] in *. inversion H as [[H1 H2]]. rewrite (IH cs Fs N H2). f_equal. unfold bernstein.
  replace (i <=? n)%nat with true by (symmetry; apply Nat.leb_le; lia). replace (0 <? n)%nat with true by (symmetry; apply Nat.ltb_lt; lia).
  cbn [andb]. rewrite H1. replace (1 - 1 / 2) with (1 / 2) by lra. rewrite Rmult_assoc, <- pow_add. replace (i + (n - i))%nat with n by lia. reflexivity.
Qed.
Lemma sum_scale h cs : fold_right Rplus 0 (map (fun c => IZR c * h) cs) = IZR (fold_right Z.add 0%Z cs) * h.
Proof. induction cs as [|c cs IH]; cbn [map fold_right]; [ring|]. rewrite IH, plus_IZR. ring. Qed.
Theorem C35_degree_21_refuted :
  exists bs, map (fun i => bernstein (1 / 2) i 21) (seq 0 22) = map Some bs /\ fold_right Rplus 0 bs <> 1.
Proof.
  pose (cs := map (fun i => match binomial64 i 21 with Some c => c | None => 0%Z end) (seq 0 22)).
  exists (map (fun c => IZR c * (1 / 2) ^ 21) cs). split.
  - apply half_terms; [apply Forall_forall; intros i I; apply in_seq in I; lia|lia|vm_compute; reflexivity].
  - rewrite sum_scale. assert (E : (fold_right Z.add 0 cs < 2097152)%Z) by (vm_compute; reflexivity).
    apply IZR_lt in E. assert (P : 2097152 * (1 / 2) ^ 21 = 1) by (cbn [pow]; lra). intros F. rewrite <- F in P.
    assert (Q : 0 < (1 / 2) ^ 21) by (apply pow_lt; lra). nra.
Qed.
(** and from degree 66 on the first polynomial divides by the integer zero. *)
Theorem C35_division_by_zero_refuted : forall n t, (66 <= n)%nat -> bernstein t 0 n = None.
Proof.
  intros n t N. unfold bernstein. replace (0 <? n)%nat with true by (symmetry; apply Nat.ltb_lt; lia). cbn [Nat.leb andb].
  rewrite binomial64_big by assumption. reflexivity.
Qed.

Example C35_case : bernstein (1 / 3) 2 4 = Some (8 / 27).
Proof. rewrite C35_values by lia. f_equal. cbn [choose pow Nat.sub Z.add Pos.add Pos.succ]. cbn. lra. Qed.

(** ** C36 *)

(** A curve of 2 to 21 control points is the result of de Casteljau's algorithm, *)
Theorem C36_de_casteljau : forall ps t, (2 <= length ps <= 21)%nat ->
  exists p, curve ps t = Some p /\ casteljau (length ps - 1) t ps = [p].
Proof. intros ps t H. exists (wsum (B t (length ps - 1)) 0 ps). split; [apply curve_wsum; exact H|apply wsum_casteljau; lia]. Qed.
(** starts at the first and ends at the last one, *)
Theorem C36_end_points : forall p q ps, (length ps <= 19)%nat ->
  curve (p :: ps ++ [q]) 0 = Some p /\ curve (p :: ps ++ [q]) 1 = Some q.
Proof.
  intros p q ps H. assert (L : (2 <= length (p :: ps ++ [q]) <= 21)%nat) by (cbn [length]; rewrite app_length; cbn; lia).
  rewrite !curve_wsum by exact L. rewrite (wsum_at_0 _ _ vzero), (wsum_at_1 vzero) by (cbn [length] in *; try lia; discriminate).
  split; [reflexivity|]. f_equal. change (p :: ps ++ [q]) with ((p :: ps) ++ [q]). apply last_last.
Qed.
(** lies in every half space that contains the control points, *)
Theorem C36_convex_hull : forall ps t n d, (2 <= length ps <= 21)%nat -> 0 <= t <= 1 -> Forall (half_space n d) ps ->
  exists p, curve ps t = Some p /\ half_space n d p.
Proof.
  intros ps t n d L T F. exists (wsum (B t (length ps - 1)) 0 ps). split; [apply curve_wsum; exact L|].
  apply wsum_half_space; try assumption. intros ->; cbn in L; lia.
Qed.
(** moves along with affine maps of its control points, *)
Theorem C36_affine_invariant : forall f ps t, (2 <= length ps <= 21)%nat -> affine f ->
  curve (map f ps) t = option_map f (curve ps t).
Proof.
  intros f ps t L A. destruct (C36_de_casteljau ps t L) as (p & -> & E). destruct (C36_de_casteljau (map f ps) t) as (q & -> & F).
  { rewrite map_length; exact L. }
  rewrite map_length, affine_casteljau, E in F by assumption. cbn in *. congruence.
Qed.
(** and is run through backwards by reversing the control points. *)
Theorem C36_reversal : forall ps t, (2 <= length ps <= 21)%nat -> curve (rev ps) t = curve ps (1 - t).
Proof.
  intros ps t L. rewrite !curve_wsum by (rewrite ?rev_length; exact L). rewrite rev_length. f_equal. symmetry.
  rewrite (wsum_rev (B (1 - t) (length ps - 1)) (B t (length ps - 1)) ps 0 (length ps - 1)).
  - replace (S (length ps - 1) - 0 - length ps)%nat with 0%nat by lia. reflexivity.
  - intros k K. rewrite B_sym by lia. replace (1 - (1 - t)) with t by ring. reflexivity.
  - lia.
Qed.
(** A single control point is not a constant curve: the curve is the zero vector. *)
Theorem C36_single_point_refuted : forall p t, curve [p] t = Some vzero.
Proof. intros p t. unfold curve; cbn [length Nat.sub curve_from]. unfold bernstein. cbn [Nat.leb Nat.ltb andb]. rewrite vscale_0, vadd_0_l. reflexivity. Qed.
(** More than 66 control points cannot be evaluated at all: the program divides by the integer zero. *)
Theorem C36_many_points_refuted : forall ps t, (67 <= length ps)%nat -> curve ps t = None.
Proof.
  intros ps t L. unfold curve. destruct ps as [|p ps]; [cbn in L; lia|]. cbn [curve_from]. rewrite C35_division_by_zero_refuted by (cbn [length] in *; lia). reflexivity.
Qed.

Example C36_case : curve [V3 0 0 0; V3 1 2 0; V3 2 0 0] (1 / 2) = Some (V3 1 1 0).
Proof.
  destruct (C36_de_casteljau [V3 0 0 0; V3 1 2 0; V3 2 0 0] (1 / 2)) as (p & -> & E); [cbn; lia|].
  cbn in E. injection E as <-. f_equal. unfold lerp3, vadd, vsub, vscale; cbn. f_equal; lra.
Qed.

(** ** C37 *)

(** After any history of calls within the documented ranges (orders up to 65534), every place reads what was written there last. *)
Theorem C37_reads_back : forall ops n s, valid_patch 65534 ops 0 -> expected_patch ops 0 blank = (n, s) ->
  order (patch_run ops) = n /\ forall u v, inside_patch n u v -> patch_get (patch_run ops) u v = s u v.
Proof.
  intros ops n s V E. assert (K := patch_ok_run ops patch_new 0 blank V (patch_ok_order 0 ltac:(lia))). rewrite E in K. cbn [fst snd] in K.
  fold (patch_run ops) in K. split; [apply K|]. intros u v I. apply (patch_ok_get _ n s); assumption.
Qed.
(** Order 65535 has no control points at all: what is written is lost. *)
Theorem C37_order_65535_refuted : forall u v x, patch_get (patch_run [POrder 65535; PSet u v x]) u v = vzero.
Proof.
  intros u v x. unfold patch_run; cbn [fold_left patch_step]. unfold patch_set, patch_of_order.
  replace (patch_count 65535) with 0%Z by reflexivity. cbn [Z.to_nat repeat order cpoints length Z.of_nat].
  assert (G : (patch_index 65535 u v <? 0)%Z = false) by (apply Z.ltb_ge; apply Z.mod_pos_bound; reflexivity).
  rewrite G. unfold patch_get; cbn [order cpoints length Z.of_nat]. rewrite G. reflexivity.
Qed.

(** A patch of order 1 to 20 is a Bezier curve in u through points that run along Bezier curves in v, *)
Theorem C37_curve_of_curves : forall p u v (n := Z.to_nat (order p)), (1 <= n <= 20)%nat ->
  exists qs, patch_eval p u v = curve qs u /\ length qs = S n /\
    forall i, (i <= n)%nat -> curve (map (fun j => patch_get p (Z.of_nat i) (Z.of_nat j)) (seq 0 (S n))) v = Some (nth i qs vzero).
Proof.
  intros p u v n N. exists (map (fun i => wsum (B v n) 0 (row p i (seq 0 (S n)))) (seq 0 (S n))).
  split; [|split].
  - rewrite patch_eval_sum by exact N. fold n. rewrite curve_wsum by (rewrite map_length, seq_length; lia).
    rewrite map_length, seq_length. replace (S n - 1)%nat with n by lia. reflexivity.
  - rewrite map_length, seq_length. reflexivity.
  - intros i I. rewrite curve_wsum by (rewrite map_length, seq_length; lia). rewrite map_length, seq_length. replace (S n - 1)%nat with n by lia.
    f_equal. rewrite nth_indep with (d' := wsum (B v n) 0 (row p 0 (seq 0 (S n)))) by (rewrite map_length, seq_length; lia).
    rewrite (map_nth (fun i => wsum (B v n) 0 (row p i (seq 0 (S n))))), seq_nth by lia. reflexivity.
Qed.
(** meets its four corner control points, *)
Lemma row_at_0 p i n : wsum (B 0 n) 0 (row p i (seq 0 (S n))) = patch_get p (Z.of_nat i) 0.
Proof. rewrite (wsum_at_0 n _ vzero). reflexivity. Qed.
Lemma last_seq_map {A} (f : nat -> A) d n : last (map f (seq 0 (S n))) d = f n.
Proof. rewrite seq_S, map_app. cbn [map plus]. apply last_last. Qed.
Lemma row_at_1 p i n : wsum (B 1 n) 0 (row p i (seq 0 (S n))) = patch_get p (Z.of_nat i) (Z.of_nat n).
Proof.
  rewrite (wsum_at_1 vzero). 2:{ unfold row. rewrite map_length, seq_length. lia. } 2:discriminate.
  unfold row. apply (last_seq_map (fun j => patch_get p (Z.of_nat i) (Z.of_nat j))).
Qed.
Theorem C37_corners : forall p, (1 <= order p <= 20)%Z ->
  patch_eval p 0 0 = Some (patch_get p 0 0) /\
  patch_eval p 1 0 = Some (patch_get p (order p) 0) /\
  patch_eval p 0 1 = Some (patch_get p 0 (order p)) /\
  patch_eval p 1 1 = Some (patch_get p (order p) (order p)).
Proof.
  intros p H. rewrite !patch_eval_sum by lia.
  assert (L : forall f : nat -> vec3, wsum (B 1 (Z.to_nat (order p))) 0 (map f (seq 0 (S (Z.to_nat (order p))))) = f (Z.to_nat (order p))).
  { intros f. rewrite (wsum_at_1 vzero). 2:{ rewrite map_length, seq_length. lia. } 2:discriminate. apply last_seq_map. }
  assert (F : forall f : nat -> vec3, wsum (B 0 (Z.to_nat (order p))) 0 (map f (seq 0 (S (Z.to_nat (order p))))) = f 0%nat).
  { intros f. rewrite (wsum_at_0 _ _ vzero). reflexivity. }
  rewrite !L, !F, !row_at_0, !row_at_1. rewrite Z2Nat.id by lia. repeat split; reflexivity.
Qed.
(** has Bezier curves as its sides, *)
Theorem C37_sides : forall p t (n := Z.to_nat (order p)), (1 <= n <= 20)%nat ->
  patch_eval p t 0 = curve (map (fun i => patch_get p (Z.of_nat i) 0) (seq 0 (S n))) t /\
  patch_eval p t 1 = curve (map (fun i => patch_get p (Z.of_nat i) (order p)) (seq 0 (S n))) t /\
  patch_eval p 0 t = curve (map (fun j => patch_get p 0 (Z.of_nat j)) (seq 0 (S n))) t /\
  patch_eval p 1 t = curve (map (fun j => patch_get p (order p) (Z.of_nat j)) (seq 0 (S n))) t.
Proof.
  intros p t n N. assert (O : Z.of_nat n = order p) by (unfold n in *; lia).
  rewrite !patch_eval_sum by exact N. fold n. rewrite !curve_wsum by (rewrite map_length, seq_length; lia).
  rewrite !map_length, !seq_length. replace (S n - 1)%nat with n by lia. repeat split; f_equal.
  - f_equal. apply map_ext. intros i. apply row_at_0.
  - f_equal. apply map_ext. intros i. rewrite row_at_1, O. reflexivity.
  - rewrite (wsum_at_0 _ _ vzero). reflexivity.
  - rewrite (wsum_at_1 vzero). 2:{ rewrite map_length, seq_length. lia. } 2:discriminate.
    rewrite (last_seq_map (fun i => wsum (B t n) 0 (row p i (seq 0 (S n))))). unfold row. rewrite O. reflexivity.
Qed.
(** and lies in every half space that contains its control points. *)
Theorem C37_convex_hull : forall p u v m d, (1 <= order p <= 20)%Z -> 0 <= u <= 1 -> 0 <= v <= 1 ->
  (forall i j, inside_patch (order p) i j -> half_space m d (patch_get p i j)) ->
  exists x, patch_eval p u v = Some x /\ half_space m d x.
Proof.
  intros p u v m d O U V H. rewrite patch_eval_sum by lia. set (n := Z.to_nat (order p)). eexists; split; [reflexivity|].
  set (qs := map _ (seq 0 (S n))). replace n with (length qs - 1)%nat at 1 by (unfold qs; rewrite map_length, seq_length; lia).
  apply wsum_half_space; [exact U|discriminate|]. unfold qs. apply Forall_forall. intros x X. apply in_map_iff in X as (i & <- & I).
  apply in_seq in I. replace n with (length (row p i (seq 0 (S n))) - 1)%nat at 1 by (unfold row; rewrite map_length, seq_length; lia).
  apply wsum_half_space; [exact V|discriminate|]. apply Forall_forall. intros y Y. apply in_map_iff in Y as (j & <- & J). apply in_seq in J.
  apply H. unfold inside_patch. unfold n in *. lia.
Qed.
(** A patch of order 0, as the constructor makes it, evaluates to zero whatever its control point is. *)
Theorem C37_order_zero_refuted : forall x u v,
  let p := patch_run [PSet 0 0 x] in patch_get p 0 0 = x /\ patch_eval p u v = Some vzero.
Proof.
  intros x u v p. change p with (mkPatch 0 [x]). split; [reflexivity|]. unfold patch_eval; cbn [order Z.to_nat seq patch_outer patch_inner].
  unfold bernstein. cbn [Nat.leb Nat.ltb andb]. rewrite Rmult_0_l, vscale_0, vadd_0_l. reflexivity.
Qed.

Example C37_case :
  let ops := [POrder 2; PSet 2 1 (V3 1 2 3); PSet 1 2 (V3 4 5 6)] in
  valid_patch 65534 ops 0 /\ patch_get (patch_run ops) 2 1 = V3 1 2 3 /\ patch_get (patch_run ops) 1 2 = V3 4 5 6 /\
  patch_get (patch_run ops) 1 1 = vzero.
Proof. cbn. unfold inside_patch. repeat split; lia. Qed.

(** ** C38 *)

(** After any history of valid calls (orders up to 65534), a place reads what was written there last, exactly if its address is in
    range; otherwise it reads the zero vector.  No write changes another place. *)
Theorem C38_addresses_partial : forall ops n s, valid_triangle 65534 ops 0 -> expected_triangle ops 0 blank = (n, s) ->
  order (triangle_run ops) = n /\ forall i j, inside_triangle n i j ->
    triangle_get (triangle_run ops) i j =
      if ((j =? 0) || (2 * (j * n + 1 + i) <? (n + 1) * (n + 2)))%Z then s i j else vzero.
Proof.
  intros ops n s V E. assert (K := triangle_ok_run ops triangle_new 0 blank V (triangle_ok_order 0 ltac:(lia))). rewrite E in K. cbn [fst snd] in K.
  fold (triangle_run ops) in K. split; [apply K|]. intros i j I. apply (triangle_ok_get _ n s); assumption.
Qed.
(** For orders up to 2 every place is faithful. *)
Theorem C38_small_orders : forall ops n s, valid_triangle 65534 ops 0 -> expected_triangle ops 0 blank = (n, s) -> (n <= 2)%Z ->
  forall i j, inside_triangle n i j -> triangle_get (triangle_run ops) i j = s i j.
Proof.
  intros ops n s V E N i j I. destruct (C38_addresses_partial ops n s V E) as [_ H]. rewrite (H i j I).
  destruct (j =? 0)%Z eqn:J; [reflexivity|]. apply Z.eqb_neq in J. destruct I as (? & ? & ?). cbn [orb].
  replace (2 * (j * n + 1 + i) <? (n + 1) * (n + 2))%Z with true; [reflexivity|]. symmetry; apply Z.ltb_lt.
  assert (n = 1 \/ n = 2)%Z as [-> | ->] by lia; lia.
Qed.
(** For every order from 3 on, the third corner of the triangle cannot be set. *)
Theorem C38_corner_lost_refuted : forall n x, (3 <= n <= 65534)%Z ->
  triangle_get (triangle_run [TOrder n; TSet 0 n x]) 0 n = vzero.
Proof.
  intros n x N. destruct (C38_addresses_partial [TOrder n; TSet 0 n x] n (put blank 0 n x)) as [_ H].
  - cbn. unfold inside_triangle. lia.
  - reflexivity.
  - rewrite (H 0%Z n) by (unfold inside_triangle; lia). replace (n =? 0)%Z with false by (symmetry; apply Z.eqb_neq; lia). cbn [orb].
    replace (2 * (n * n + 1 + 0) <? (n + 1) * (n + 2))%Z with false; [reflexivity|]. symmetry; apply Z.ltb_ge. nia.
Qed.
Example C38_case :
  triangle_get (triangle_run [TOrder 2; TSet 0 2 (V3 1 2 3); TSet 1 1 (V3 4 5 6)]) 0 2 = V3 1 2 3.
Proof. reflexivity. Qed.

Print Assumptions C35_values.
Print Assumptions C35_partition_of_unity.
Print Assumptions C35_exact_degrees.
Print Assumptions C35_degree_21_refuted.
Print Assumptions C35_division_by_zero_refuted.
Print Assumptions C36_de_casteljau.
Print Assumptions C36_end_points.
Print Assumptions C36_convex_hull.
Print Assumptions C36_affine_invariant.
Print Assumptions C36_reversal.
Print Assumptions C36_single_point_refuted.
Print Assumptions C36_many_points_refuted.
Print Assumptions C37_reads_back.
Print Assumptions C37_order_65535_refuted.
Print Assumptions C37_curve_of_curves.
Print Assumptions C37_corners.
Print Assumptions C37_sides.
Print Assumptions C37_convex_hull.
Print Assumptions C37_order_zero_refuted.
Print Assumptions C38_addresses_partial.
Print Assumptions C38_small_orders.
Print Assumptions C38_corner_lost_refuted.
