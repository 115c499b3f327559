(** UniformSpline::Evaluate: the proofs of C39. *)
From Coq Require Import ZArith Reals List Bool Arith Lia Lra Psatz.
From Flocq Require Import Core IEEE754.BinarySingleNaN.
From Verif Require Import Model.Scalar Model.Vec Model.UniformSpline Spec.SplineSpec Proofs.VecLemmas Proofs.UniformSplineLemmas Proofs.SplineFloat.
Import ListNotations.
Local Open Scope R_scope.


Definition poly_at (points : list vec3) (e : R) (i : nat) : polynomial :=
  mkPoly (dims (fun x => coeff0 x i) points) (dims (fun x => coeff1 x e i) points) (dims (fun x => coeff2 x e i) points) (dims (fun x => coeff3 x e i) points).
Lemma build_eq old points e : (2 <= length points)%nat -> build old points e = map (poly_at points e) (seq 0 (length points - 1)).
Proof. intros H. unfold build. replace (2 <=? length points)%nat with true by (symmetry; apply Nat.leb_le; exact H). reflexivity. Qed.

Lemma coord_add c a b : coordinate c -> c (vadd a b) = c a + c b.
Proof. intros [->|[->| ->]]; reflexivity. Qed.
Lemma coord_scale c s a : coordinate c -> c (vscale s a) = s * c a.
Proof. intros [->|[->| ->]]; reflexivity. Qed.
Lemma coord_dims c f points : coordinate c -> c (dims f points) = f (map c points).
Proof. intros [->|[->| ->]]; reflexivity. Qed.
Lemma coord_ext a b : (forall c, coordinate c -> c a = c b) -> a = b.
Proof. intros H. apply vec3_ext; apply H; unfold coordinate; auto. Qed.
Lemma coord_zero c : coordinate c -> c vzero = 0.
Proof. intros [->|[->| ->]]; reflexivity. Qed.
Lemma px_nth c points i : coordinate c -> px (map c points) i = c (nth i points vzero).
Proof. intros C. unfold px. rewrite <- (coord_zero c C). apply map_nth. Qed.
Lemma poly_coord c points e i t : coordinate c -> c (poly_eval (poly_at points e i) t) = seg (map c points) e i t.
Proof. intros C. unfold poly_eval, poly_at, seg, cubic; cbn [c0 c1 c2 c3]. rewrite !coord_add, !coord_scale, !coord_dims by exact C. reflexivity. Qed.
Lemma nth_error_build points e k n : (k < n)%nat -> nth_error (map (poly_at points e) (seq 0 n)) k = Some (poly_at points e k).
Proof.
  intros H. rewrite nth_error_map. rewrite nth_error_nth' with (d := 0%nat) by (rewrite seq_length; exact H). rewrite seq_nth by exact H. reflexivity.
Qed.
Lemma eval_inside old points e t k : (2 <= length points)%nat -> 0 < t < 1 -> (k < length points - 1)%nat ->
  INR k <= t * INR (length points - 1) < INR k + 1 ->
  spline_eval (build old points e) t = Some (poly_eval (poly_at points e k) (t * INR (length points - 1) - INR k)).
Proof.
  intros L T K F. rewrite build_eq by exact L. set (n := (length points - 1)%nat) in *. unfold spline_eval.
  destruct (map (poly_at points e) (seq 0 n)) as [|p r] eqn:E; [destruct n; [lia|discriminate]|]. rewrite <- E.
  replace (Rleb t 0) with false by (symmetry; apply Rleb_false; lra). replace (Rleb 1 t) with false by (symmetry; apply Rleb_false; lra).
  rewrite map_length, seq_length. rewrite INR_IZR_INZ in F.
  rewrite (Int_part_eq _ (Z.of_nat k)) by (rewrite <- INR_IZR_INZ in *; exact F). rewrite Nat2Z.id, nth_error_build by exact K.
  rewrite <- INR_IZR_INZ. reflexivity.
Qed.
Lemma eval_low old points e t : (2 <= length points)%nat -> t <= 0 -> spline_eval (build old points e) t = Some (nth 0 points vzero).
Proof.
  intros L T. rewrite build_eq by exact L. destruct (length points - 1)%nat as [|n] eqn:N; [lia|]. cbn [seq map]. unfold spline_eval.
  replace (Rleb t 0) with true by (symmetry; apply Rleb_iff; lra). f_equal. apply coord_ext. intros c C.
  rewrite poly_coord, seg_0, px_nth by exact C. reflexivity.
Qed.
Lemma eval_high old points e t : (2 <= length points)%nat -> 1 <= t -> spline_eval (build old points e) t = Some (nth (length points - 1) points vzero).
Proof.
  intros L T. rewrite build_eq by exact L. destruct (length points - 1)%nat as [|n] eqn:N; [lia|].
  assert (E : map (poly_at points e) (seq 0 (S n)) = map (poly_at points e) (seq 0 n) ++ [poly_at points e n]) by (rewrite seq_S, map_app; reflexivity).
  unfold spline_eval. destruct (map (poly_at points e) (seq 0 (S n))) as [|p r] eqn:F; [discriminate|].
  replace (Rleb t 0) with false by (symmetry; apply Rleb_false; lra). replace (Rleb 1 t) with true by (symmetry; apply Rleb_iff; lra).
  rewrite E, last_last. f_equal. apply coord_ext. intros c C. rewrite poly_coord, seg_1, px_nth by exact C. reflexivity.
Qed.

(** The spline through n points takes the i-th point at i/(n-1), for every expansion; *)
Lemma interpolates_holds : forall old points e i, (2 <= length points)%nat -> (i < length points)%nat ->
  spline_eval (build old points e) (INR i / INR (length points - 1)) = Some (nth i points vzero).
Proof.
  intros old points e i L I. assert (P : 0 < INR (length points - 1)) by (apply lt_0_INR; lia).
  assert (Q : INR i / INR (length points - 1) * INR (length points - 1) = INR i) by (field; lra).
  destruct (Nat.eq_dec i 0) as [->|I0]; [apply eval_low; [exact L|cbn [INR]; unfold Rdiv; lra]|].
  destruct (Nat.eq_dec i (length points - 1)) as [->|I1].
  - apply eval_high; [exact L|]. right. field. lra.
  - assert (Ip : 0 < INR i) by (apply lt_0_INR; lia). assert (In : INR i < INR (length points - 1)) by (apply lt_INR; lia).
    rewrite (eval_inside old points e _ i) by (rewrite ?Q; try lia; try lra; split; apply Rmult_lt_reg_r with (INR (length points - 1)); lra).
    f_equal. rewrite Q. apply coord_ext. intros c C. rewrite poly_coord by exact C. replace (INR i - INR i) with 0 by ring.
    rewrite seg_0, px_nth by exact C. reflexivity.
Qed.
(** it stays at the first and last point outside of [0,1], and is defined everywhere; *)
Lemma clamped_holds : forall old points e t, (2 <= length points)%nat ->
  (t <= 0 -> spline_eval (build old points e) t = Some (hd vzero points)) /\
  (1 <= t -> spline_eval (build old points e) t = Some (last points vzero)) /\
  exists p, spline_eval (build old points e) t = Some p.
Proof.
  intros old points e t L. split; [|split].
  - intros T. rewrite eval_low by assumption. destruct points; reflexivity.
  - intros T. rewrite eval_high by assumption. f_equal. clear - L. destruct points as [|p r] using rev_ind; [cbn in L; lia|].
    rewrite app_length, last_last. cbn [length]. rewrite app_nth2 by lia. replace (length r + 1 - 1 - length r)%nat with 0%nat by lia. reflexivity.
  - destruct (Rle_dec t 0) as [T|T]; [eexists; apply eval_low; assumption|]. destruct (Rle_dec 1 t) as [S|S]; [eexists; apply eval_high; assumption|].
    destruct (floor_nat t (length points - 1) ltac:(lia) ltac:(lra)) as (k & K & F).
    eexists. apply (eval_inside old points e t k); try assumption. lra.
Qed.

(** it is continuously differentiable in every coordinate, for every expansion; *)
Lemma value_piece old points e c : (2 <= length points)%nat -> coordinate c ->
  forall t, 0 < t < 1 -> c (value (spline_eval (build old points e) t)) = piece (length points - 1) (seg (map c points) e) t.
Proof.
  intros L C t T. destruct (floor_nat t (length points - 1) ltac:(lia) ltac:(lra)) as (k & K & F).
  rewrite (eval_inside old points e t k) by assumption. cbn [value]. rewrite poly_coord by exact C. symmetry. apply piece_on. exact F.
Qed.
Lemma scaled_cont f t n : continuity_pt f t -> continuity_pt (fun x => n * f x) t.
Proof. intros H. apply (continuity_pt_mult (fun _ => n) f); [apply continuity_pt_const; intros a b; reflexivity|exact H]. Qed.
Lemma continuously_differentiable_holds : forall old points e c, (2 <= length points)%nat -> coordinate c ->
  exists f', smooth (fun t => c (value (spline_eval (build old points e) t))) f'.
Proof.
  intros old points e c L C. set (n := (length points - 1)%nat). exists (fun t => INR n * piece n (seg' (map c points) e) t).
  intros t T. split.
  - apply (piece_deriv n (seg (map c points) e)); try assumption; [lia|intros i x; apply cubic_deriv|intros i I; split|].
    + rewrite seg_1, seg_0. reflexivity.
    + rewrite seg'_1, seg'_0. reflexivity.
    + apply value_piece; assumption.
  - apply scaled_cont. apply (piece_cont n (seg' (map c points) e)); try assumption; [lia|intros; apply cubic_cont|intros i I|reflexivity].
    rewrite seg'_1, seg'_0. reflexivity.
Qed.
(** with the default expansion it is the natural cubic spline: twice continuously differentiable, without curvature at the ends. *)
Lemma deriv_scaled f t l n : derivable_pt_lim f t l -> derivable_pt_lim (fun x => n * f x) t (n * l).
Proof. intros H. apply (derivable_pt_lim_scal f n t l H). Qed.
Lemma natural_cubic_holds : forall old points c, (2 <= length points)%nat -> coordinate c ->
  exists f' f'', smooth (fun t => c (value (spline_eval (build old points 1) t))) f' /\ smooth f' f'' /\
    tends_at_0 f'' 0 /\ tends_at_1 f'' 0.
Proof.
  intros old points c L C. set (n := (length points - 1)%nat). set (x := map c points).
  assert (Nx : num x = length points) by (unfold num, x; apply map_length).
  exists (fun t => INR n * piece n (seg' x 1) t), (fun t => INR n * (INR n * piece n (seg'' x 1) t)).
  assert (P : 0 < INR n) by (apply lt_0_INR; lia).
  split; [|split; [|split]].
  - intros t T. split.
    + apply (piece_deriv n (seg x 1)); try assumption; [lia|intros i y; apply cubic_deriv|intros i I; split|].
      * rewrite seg_1, seg_0. reflexivity.
      * rewrite seg'_1, seg'_0. reflexivity.
      * apply value_piece; assumption.
    + apply scaled_cont. apply (piece_cont n (seg' x 1)); try assumption; [lia|intros; apply cubic_cont|intros i I|reflexivity].
      rewrite seg'_1, seg'_0. reflexivity.
  - intros t T. split.
    + apply deriv_scaled. apply (piece_deriv n (seg' x 1)); try assumption; [lia|intros i y; apply cubic_deriv|intros i I; split|reflexivity].
      * rewrite seg'_1, seg'_0. reflexivity.
      * apply seg''_match. lia.
    + apply scaled_cont, scaled_cont. apply (piece_cont n (seg'' x 1)); try assumption; [lia|intros; apply cubic_cont|intros i I|reflexivity].
      apply seg''_match. lia.
  - intros eps E. assert (K := cubic_cont (2 * coeff2 x 1 0) (2 * (3 * coeff3 x 1 0)) (3 * 0) 0 0). apply cont_eps with (eps := eps / (INR n * INR n)) in K.
    2:{ apply Rdiv_lt_0_compat; [exact E|apply Rmult_lt_0_compat; exact P]. }
    destruct K as (d & D & K). fold (seg'' x 1 0) in K. rewrite seg''_first in K by lia.
    exists (Rmin (/ INR n) (d / INR n)). split; [apply Rmin_pos; [apply Rinv_0_lt_compat; exact P|apply Rdiv_lt_0_compat; assumption]|].
    intros t T. assert (M1 := Rmin_l (/ INR n) (d / INR n)). assert (M2 := Rmin_r (/ INR n) (d / INR n)).
    assert (T1 : t * INR n < 1) by (apply Rlt_le_trans with (/ INR n * INR n); [apply Rmult_lt_compat_r; lra|right; field; lra]).
    assert (T2 : t * INR n < d) by (apply Rlt_le_trans with (d / INR n * INR n); [apply Rmult_lt_compat_r; lra|right; field; lra]).
    assert (T0 : 0 < t * INR n) by (apply Rmult_lt_0_compat; lra).
    rewrite (piece_on n _ t 0) by (cbn [INR]; lra). cbn [INR]. rewrite Rminus_0_r.
    specialize (K (t * INR n)). rewrite !Rminus_0_r in *. rewrite (Rabs_pos_eq (t * INR n)) in K by lra. specialize (K T2).
    rewrite <- Rmult_assoc, Rabs_mult, (Rabs_pos_eq (INR n * INR n)) by (apply Rmult_le_pos; lra).
    apply Rmult_lt_compat_l with (r := INR n * INR n) in K; [|apply Rmult_lt_0_compat; lra].
    replace (INR n * INR n * (eps / (INR n * INR n))) with eps in K by (field; lra). exact K.
  - intros eps E. set (m := (n - 1)%nat). assert (Em : S m = n) by lia. assert (Sn : INR n = INR m + 1) by (rewrite <- Em; apply S_INR).
    assert (K := cubic_cont (2 * coeff2 x 1 m) (2 * (3 * coeff3 x 1 m)) (3 * 0) 0 1). apply cont_eps with (eps := eps / (INR n * INR n)) in K.
    2:{ apply Rdiv_lt_0_compat; [exact E|apply Rmult_lt_0_compat; exact P]. }
    destruct K as (d & D & K). fold (seg'' x 1 m) in K. replace (seg'' x 1 m 1) with 0 in K.
    2:{ symmetry. replace m with (num x - 2)%nat by lia. apply seg''_last. lia. }
    exists (Rmin (/ INR n) (d / INR n)). split; [apply Rmin_pos; [apply Rinv_0_lt_compat; exact P|apply Rdiv_lt_0_compat; assumption]|].
    intros t T. assert (M1 := Rmin_l (/ INR n) (d / INR n)). assert (M2 := Rmin_r (/ INR n) (d / INR n)).
    assert (T1 : (1 - t) * INR n < 1) by (apply Rlt_le_trans with (/ INR n * INR n); [apply Rmult_lt_compat_r; lra|right; field; lra]).
    assert (T2 : (1 - t) * INR n < d) by (apply Rlt_le_trans with (d / INR n * INR n); [apply Rmult_lt_compat_r; lra|right; field; lra]).
    assert (T0 : 0 < (1 - t) * INR n) by (apply Rmult_lt_0_compat; lra).
    rewrite (piece_on n _ t m) by lra. rewrite Rminus_0_r.
    specialize (K (t * INR n - INR m)). rewrite !Rminus_0_r in *.
    specialize (K ltac:(rewrite Rabs_left1; lra)).
    rewrite <- Rmult_assoc, Rabs_mult, (Rabs_pos_eq (INR n * INR n)) by (apply Rmult_le_pos; lra).
    apply Rmult_lt_compat_l with (r := INR n * INR n) in K; [|apply Rmult_lt_0_compat; lra].
    replace (INR n * INR n * (eps / (INR n * INR n))) with eps in K by (field; lra). exact K.
Qed.

(** Without expansion the spline runs along the straight lines between neighbouring points, *)
Lemma sq_zero x i : (1 <= i)%nat -> sq x 0 i = 0.
Proof. intros H. destruct i; [lia|]. cbn [sq]. destruct (_ =? _)%nat; ring. Qed.
Lemma sdown_zero x k : (k < num x - 1)%nat -> sdown x 0 k = 0.
Proof. induction k; intros H; cbn [sdown]; rewrite sq_zero by lia; [reflexivity|]. rewrite IHk by lia. ring. Qed.
Lemma ss_zero x i : (1 <= i)%nat -> (2 <= num x)%nat -> ss x 0 i = 0.
Proof. intros I H. unfold ss. apply sdown_zero. lia. Qed.
Definition ease (i : nat) (u : R) : R := if (i =? 0)%nat then 3 / 2 * u - 1 / 2 * (u * u * u) else 3 * (u * u) - 2 * (u * u * u).
Lemma seg_ease x i u : (2 <= num x)%nat -> seg x 0 i u = px x i + ease i u * (px x (S i) - px x i).
Proof.
  intros H. unfold seg, cubic, coeff0, coeff1, coeff2, coeff3, ease. replace (i + 1)%nat with (S i) by lia. rewrite (ss_zero x (S i)) by lia.
  destruct i as [|i]; cbn [Nat.eqb].
  - rewrite (ss_step x 0 0%nat) by lia. rewrite (ss_zero x 1) by lia. cbn [sq]. unfold sy. cbn [Nat.eqb]. field.
  - rewrite (ss_zero x (S i)) by lia. ring.
Qed.
Lemma ease_range i u : 0 <= u <= 1 -> 0 <= ease i u <= 1.
Proof.
  intros H. unfold ease. destruct (i =? 0)%nat.
  - assert (0 <= (1 - u) * (1 - u)) by nra. assert (0 <= u * u <= 1) by nra. split; [nra|].
    assert (1 - (3 / 2 * u - 1 / 2 * (u * u * u)) = 1 / 2 * ((1 - u) * (1 - u) * (u + 2))) by field.
    assert (0 <= (1 - u) * (1 - u) * (u + 2)) by (apply Rmult_le_pos; lra). lra.
  - assert (3 * (u * u) - 2 * (u * u * u) = u * u * (3 - 2 * u)) by ring. assert (0 <= u * u) by nra.
    assert (0 <= u * u * (3 - 2 * u)) by (apply Rmult_le_pos; lra).
    assert (1 - (3 * (u * u) - 2 * (u * u * u)) = (1 - u) * (1 - u) * (1 + 2 * u)) by ring.
    assert (0 <= (1 - u) * (1 - u) * (1 + 2 * u)) by (apply Rmult_le_pos; nra). lra.
Qed.
Lemma no_expansion_is_polyline_holds : forall old points t, (2 <= length points)%nat -> 0 <= t <= 1 ->
  exists i s, (S i < length points)%nat /\ 0 <= s <= 1 /\
    spline_eval (build old points 0) t = Some (lerp3 (nth i points vzero) (nth (S i) points vzero) s).
Proof.
  intros old points t L T. destruct (Req_dec t 0) as [->|T0].
  - exists 0%nat, 0. split; [lia|]. split; [lra|]. rewrite eval_low by lra || lia. f_equal. unfold lerp3, vadd, vscale; apply vec3_ext; cbn; ring.
  - destruct (Req_dec t 1) as [->|T1].
    + exists (length points - 2)%nat, 1. split; [lia|]. split; [lra|]. rewrite eval_high by lra || lia. f_equal.
      replace (S (length points - 2)) with (length points - 1)%nat by lia. unfold lerp3, vadd, vsub, vscale; apply vec3_ext; cbn; ring.
    + destruct (floor_nat t (length points - 1) ltac:(lia) ltac:(lra)) as (k & K & F).
      exists k, (ease k (t * INR (length points - 1) - INR k)). split; [lia|]. split; [apply ease_range; lra|].
      rewrite (eval_inside old points 0 t k) by (assumption || lra). f_equal. apply coord_ext. intros c C.
      rewrite poly_coord, seg_ease by (try exact C; unfold num; rewrite map_length; exact L). rewrite !px_nth by exact C.
      unfold lerp3. rewrite coord_add, coord_scale by exact C. f_equal. f_equal.
      destruct C as [->|[->| ->]]; reflexivity.
Qed.
(** although not linearly in the parameter: half way between 0 and 1 it is at 11/16. *)
Lemma linear_refuted_holds : spline_eval (build [] [V3 0 0 0; V3 1 0 0] 0) (1 / 2) = Some (V3 (11 / 16) 0 0).
Proof.
  rewrite (eval_inside [] [V3 0 0 0; V3 1 0 0] 0 (1 / 2) 0) by (cbn; lia || lra). f_equal. cbn [length Nat.sub INR].
  apply coord_ext. intros c C. rewrite poly_coord, seg_ease by (try exact C; cbn; lia). rewrite !px_nth by exact C. cbn [nth].
  unfold ease; cbn [Nat.eqb]. destruct C as [->|[->| ->]]; cbn [vx vy vz]; lra.
Qed.
(** Building from a single point changes nothing: the spline keeps the curve built before. *)
Lemma single_point_refuted_holds : forall old p e, build old [p] e = old.
Proof. reflexivity. Qed.

(** In binary64 the index of the polynomial is in range, although the product t*n is rounded. *)
Lemma index_in_range_holds : forall t n, is_finite t = true -> 0 < B2R t < 1 -> (1 <= n <= 2 ^ 53)%Z ->
  (0 <= spline_index64 t n < n)%Z.
Proof. exact index_in_range. Qed.
