(** Uniform splines in double precision follow the exact ones. *)
From Coq Require Import ZArith Reals List Bool Arith Lia Lra Psatz.
From Flocq Require Import Core IEEE754.BinarySingleNaN.
From Flocq Require Import Sterbenz.
From Verif Require Import Model.Scalar Model.Vec Model.BoxFloat Model.PlaneFloat Model.BoxRayFloat Model.UniformSpline Model.UniformSplineFloat Model.MeshFloat.
From Verif Require Import Spec.FloatSpec Spec.SplineSpec Spec.UniformSplineFloatSpec.
From Verif Require Import Proofs.VecLemmas Proofs.PlaneFloatLemmas Proofs.SplineFloat Proofs.BoxRayFloatLemmas Proofs.ClipFloatLemmas Proofs.MeshFloatLemmas Proofs.UniformSplineLemmas Proofs.UniformSplineEval Proofs.UniformSplineFloatLemmas.
Import ListNotations.
Local Open Scope R_scope.

Definition fpoly_at (points : list fvec) (e : b64) (i : nat) : fpolynomial :=
  mkFPoly (fdims (fun x => fcoeff0 x i) points) (fdims (fun x => fcoeff1 x e i) points) (fdims (fun x => fcoeff2 x e i) points) (fdims (fun x => fcoeff3 x e i) points).
Lemma fbuild_eq old points e : (2 <= length points)%nat -> fbuild old points e = map (fpoly_at points e) (seq 0 (length points - 1)).
Proof. intros H. unfold fbuild. rewrite (proj2 (Nat.leb_le _ _) H). reflexivity. Qed.
Lemma nth_error_fbuild points e k n : (k < n)%nat -> nth_error (map (fpoly_at points e) (seq 0 n)) k = Some (fpoly_at points e k).
Proof.
  intros H. apply map_nth_error. rewrite nth_error_nth' with (d := O) by (rewrite seq_length; exact H). now rewrite seq_nth by exact H.
Qed.
Lemma fbuild_length old points e : (2 <= length points)%nat -> length (fbuild old points e) = (length points - 1)%nat.
Proof. intros H. rewrite fbuild_eq by exact H. now rewrite map_length, seq_length. Qed.

(** a coordinate of vectors of doubles and of exact vectors *)
Definition coordinates (f : fvec -> b64) (c : vec3 -> R) : Prop := (f = fx /\ c = vx) \/ (f = fy /\ c = vy) \/ (f = fz /\ c = vz).
Lemma coordinates_exact f c v : coordinates f c -> c (exact_vec v) = B2R (f v).
Proof. intros [[-> ->]|[[-> ->]|[-> ->]]]; reflexivity. Qed.
Lemma coordinates_coordinate f c : coordinates f c -> coordinate c.
Proof. unfold coordinate. intros [[_ H]|[[_ H]|[_ H]]]; auto. Qed.
Lemma off_coords d p q : (forall f c, coordinates f c -> is_finite (f p) = true /\ Rabs (B2R (f p) - c q) <= d) <-> at_most_off d p q.
Proof.
  split.
  - intros H. split; [|split]; apply H; unfold coordinates; auto.
  - intros (A & B & C) f c [[-> ->]|[[-> ->]|[-> ->]]]; assumption.
Qed.
Lemma within_coords M p f c : coordinates f c -> point_within M p -> is_finite (f p) = true /\ Rabs (B2R (f p)) <= M.
Proof. intros [[-> _]|[[-> _]|[-> _]]] (A & B & C); assumption. Qed.
Lemma fpoly_coord f c points e i t : coordinates f c ->
  f (fpoly_eval (fpoly_at points e i) t) = fcubic (fcoeff0 (map f points) i) (fcoeff1 (map f points) e i) (fcoeff2 (map f points) e i) (fcoeff3 (map f points) e i) t.
Proof. intros [[-> ->]|[[-> ->]|[-> ->]]]; reflexivity. Qed.
Lemma exact_coords f c points : coordinates f c -> map (fun p : b64 => B2R p) (map f points) = map c (map exact_vec points).
Proof. intros H. rewrite !map_map. apply map_ext. intros v. symmetry. apply coordinates_exact. exact H. Qed.

Section Points.
Variable M : R.
Hypothesis HM : usual_size M.
Variable points : list fvec.
Variable e : b64.
Hypothesis Hp : Forall (point_within M) points.
Hypothesis He : is_finite e = true /\ Rabs (B2R e) <= 1.
Hypothesis Hn : (2 <= length points)%nat.

Lemma coords_within f c : coordinates f c -> Forall (fun p => is_finite p = true /\ Rabs (B2R p) <= M) (map f points).
Proof. intros H. apply Forall_map. apply Forall_impl with (2 := Hp). intros p. apply within_coords with c. exact H. Qed.
Lemma coords_length (f : fvec -> b64) : (2 <= length (map f points))%nat.
Proof. now rewrite map_length. Qed.
Lemma point_coord f c k : coordinates f c -> B2R (fpx (map f points) k) = c (nth k (map exact_vec points) vzero).
Proof.
  intros H. rewrite <- px_exact. rewrite (exact_coords f c) by exact H. apply px_nth. now apply coordinates_coordinate with f.
Qed.

(** polynomials *)
Lemma poly_near k t : is_finite t = true -> 0 <= B2R t <= 1 ->
  at_most_off (1022 * unit_of M) (fpoly_eval (fpoly_at points e k) t) (poly_eval (poly_at (map exact_vec points) (B2R e) k) (B2R t)).
Proof.
  intros F T. apply off_coords. intros f c C. rewrite (fpoly_coord f c) by exact C. rewrite poly_coord by (now apply coordinates_coordinate with f).
  rewrite <- (exact_coords f c) by exact C. destruct (near_cubic M HM (map f points) e (coords_within f c C) He (coords_length f) k t F T) as (F0 & _ & E0). split; assumption.
Qed.
Lemma poly_start k t : is_finite t = true -> B2R t = 0 -> at_most_off 0 (fpoly_eval (fpoly_at points e k) t) (nth k (map exact_vec points) vzero).
Proof.
  intros F Z. apply off_coords. intros f c C. rewrite (fpoly_coord f c) by exact C.
  destruct (cubic_start M HM (map f points) e (coords_within f c C) He (coords_length f) k t F Z) as (F0 & V). split; [exact F0|]. rewrite V, (point_coord f c) by exact C.
  replace (c (nth k (map exact_vec points) vzero) - c (nth k (map exact_vec points) vzero)) with 0 by ring. rewrite Rabs_R0. lra.
Qed.
Lemma poly_end k : at_most_off (1022 * unit_of M) (fpoly_eval (fpoly_at points e k) (b64_of_Z 1)) (nth (S k) (map exact_vec points) vzero).
Proof.
  destruct (b64_int 1 ltac:(lia)) as [V F]. assert (H := poly_near k (b64_of_Z 1) F ltac:(rewrite V; lra)). rewrite V in H.
  replace (nth (S k) (map exact_vec points) vzero) with (poly_eval (poly_at (map exact_vec points) (B2R e) k) 1); [exact H|].
  apply coord_ext. intros c C. rewrite poly_coord by exact C. rewrite seg_1. apply px_nth. exact C.
Qed.

(** the parameter *)
Variable t : b64.
Let n := (length points - 1)%nat.
Hypothesis Hbig : (Z.of_nat (length points) <= 2 ^ 32)%Z.
Lemma n_range : (1 <= Z.of_nat n <= 2 ^ 32)%Z.
Proof. unfold n. lia. Qed.
Lemma n_double : B2R (b64_of_Z (Z.of_nat n)) = INR n /\ is_finite (b64_of_Z (Z.of_nat n)) = true.
Proof. destruct (b64_int (Z.of_nat n)) as [V F]; [assert (H := n_range); lia|]. split; [|exact F]. rewrite V. symmetry. apply INR_IZR_INZ. Qed.
Lemma n_one : 1 <= INR n.
Proof. apply (le_INR 1). unfold n. lia. Qed.
Lemma n_u : INR n * u <= / 1000.
Proof.
  assert (H : INR n <= bpow radix2 32). { rewrite INR_IZR_INZ. change (bpow radix2 32) with (IZR (2 ^ 32)). apply IZR_le. apply n_range. }
  apply Rle_trans with (bpow radix2 32 * u); [apply Rmult_le_compat_r; [apply bpow_ge_0|exact H]|]. rewrite <- bpow_plus. apply Rle_trans with (bpow radix2 (-10)); [apply bpow_le; lia|].
  change (bpow radix2 (-10)) with (/ 1024). lra.
Qed.
Hypothesis Ft : is_finite t = true.
Hypothesis Ht : 0 < B2R t < 1.
Let tau := b64_mul t (b64_of_Z (Z.of_nat n)).
Lemma tau_value : is_finite tau = true /\ B2R tau = rnd (B2R t * INR n) /\ 0 <= B2R tau < INR n /\ Rabs (B2R tau - B2R t * INR n) <= (1 + / 1000) * (INR n * u).
Proof.
  destruct n_double as [V F]. assert (N := n_range). assert (O := n_one).
  assert (Q : 0 <= B2R t * INR n <= INR n) by nra.
  assert (K : Rabs (B2R t * B2R (b64_of_Z (Z.of_nat n))) <= bpow radix2 32).
  { rewrite V, Rabs_pos_eq by lra. apply Rle_trans with (1 := proj2 Q). rewrite INR_IZR_INZ. change (bpow radix2 32) with (IZR (2 ^ 32)). apply IZR_le. apply N. }
  destruct (mul_fin t _ 32 Ft F ltac:(lia) K) as [F0 V0]. fold tau in F0, V0. rewrite V in V0. split; [exact F0|]. split; [exact V0|].
  assert (I := index_in_range t (Z.of_nat n) Ft Ht ltac:(lia)). unfold spline_index64 in I. fold tau in I.
  assert (L : 0 <= B2R tau). { rewrite V0. apply round_ge_generic; auto with typeclass_instances; [apply generic_format_0|lra]. }
  assert (U : B2R tau < INR n).
  { rewrite INR_IZR_INZ. apply Rlt_le_trans with (1 := Zfloor_ub (B2R tau)). change 1 with (IZR 1). rewrite <- plus_IZR. apply IZR_le. lia. }
  split; [lra|]. rewrite V0. assert (R0 := rnd_error (B2R t * INR n) (INR n) ltac:(rewrite Rabs_pos_eq; lra)). assert (T := eta_small). assert (P := bpow_gt_0 radix2 (-53)).
  apply Rabs_le. nra.
Qed.
Let k := Z.to_nat (Zfloor (B2R tau)).
Lemma floor_value : is_finite (ffloor tau) = true /\ B2R (ffloor tau) = INR k /\ Z.to_nat (Btrunc (ffloor tau)) = k /\ (k < n)%nat /\ INR k <= B2R tau < INR k + 1.
Proof.
  destruct tau_value as (F & _ & [L U] & _). destruct (Bnearbyint_correct 53 1024 b64_prec_lt_emax mode_DN tau) as (V & F1 & _). fold (ffloor tau) in V, F1.
  assert (Z0 : (0 <= Zfloor (B2R tau))%Z). { rewrite <- (Zfloor_IZR 0). apply Zfloor_le. exact L. }
  assert (Ik : INR k = IZR (Zfloor (B2R tau))). { rewrite INR_IZR_INZ. unfold k. rewrite Z2Nat.id by exact Z0. reflexivity. }
  cbn [round_mode] in V. rewrite round_FIX_IZR in V. rewrite <- Ik in V.
  split; [rewrite F1; exact F|]. split; [exact V|]. split.
  - unfold k. f_equal. apply eq_IZR. rewrite Btrunc_correct by exact b64_prec_lt_emax. rewrite round_FIX_IZR, V, Ik. rewrite Ztrunc_IZR. reflexivity.
  - assert (B := Zfloor_lb (B2R tau)). assert (C := Zfloor_ub (B2R tau)). rewrite <- Ik in B, C. split; [|lra]. apply INR_lt. lra.
Qed.
Lemma local_value : is_finite (b64_sub tau (ffloor tau)) = true /\ B2R (b64_sub tau (ffloor tau)) = B2R tau - INR k.
Proof.
  destruct tau_value as (F & _ & [L U] & _). destruct floor_value as (F1 & V & _ & _ & [A B]).
  assert (G : generic_format radix2 f64 (B2R tau - INR k)).
  { rewrite <- V. destruct k as [|j] eqn:K.
    - rewrite V. cbn [INR]. rewrite Rminus_0_r. apply generic_format_B2R.
    - apply sterbenz; [exact valid_f64|apply FLT_exp_monotone|apply generic_format_B2R|apply generic_format_B2R|]. rewrite V, S_INR in *. assert (0 <= INR j) by apply pos_INR. lra. }
  destruct (sub_fin tau (ffloor tau) 0 F F1 ltac:(lia)) as [F2 V2]; [rewrite V; change (bpow radix2 0) with 1; rewrite Rabs_pos_eq; lra|].
  split; [exact F2|]. rewrite V2, V. apply round_generic; [apply valid_rnd_N|exact G].
Qed.
Lemma feval_inside old : fspline_eval (fbuild old points e) t = Some (fpoly_eval (fpoly_at points e k) (b64_sub tau (ffloor tau))).
Proof.
  assert (L := fbuild_length old points e Hn). unfold fspline_eval. destruct (fbuild old points e) as [|p ps] eqn:B; [cbn in L; lia|].
  rewrite L. fold n tau. destruct floor_value as (F1 & _ & T & K & _). rewrite F1, T. rewrite <- B, (fbuild_eq old points e Hn). fold n. rewrite (nth_error_fbuild points e k n) by exact K.
  destruct (b64_int 1 ltac:(lia)) as [V1 G1]. replace (b64_leb t b64_0) with false; [replace (b64_leb (b64_of_Z 1) t) with false; [reflexivity|]|].
  - symmetry. unfold b64_leb. rewrite (Bleb_correct 53 1024 _ _ G1 Ft). apply Rle_bool_false. rewrite V1. lra.
  - symmetry. unfold b64_leb. rewrite (Bleb_correct 53 1024 t b64_0 Ft eq_refl). apply Rle_bool_false. cbn. lra.
Qed.
Lemma eval_near old old' : exists p q, fspline_eval (fbuild old points e) t = Some p /\ spline_eval (build old' (map exact_vec points) (B2R e)) (B2R t) = Some q /\
  at_most_off ((1022 + 103 * INR n) * unit_of M) p q.
Proof.
  assert (Ln : length (map exact_vec points) = length points) by apply map_length.
  destruct (floor_nat (B2R t) n ltac:(unfold n; lia) ltac:(lra)) as (j & J & A & B).
  exists (fpoly_eval (fpoly_at points e k) (b64_sub tau (ffloor tau))), (poly_eval (poly_at (map exact_vec points) (B2R e) j) (B2R t * INR n - INR j)).
  split; [apply feval_inside|]. split.
  - rewrite (eval_inside old' (map exact_vec points) (B2R e) (B2R t) j) by (rewrite ?Ln; fold n; lia || lra). rewrite Ln. reflexivity.
  - destruct local_value as [F V]. destruct floor_value as (_ & _ & _ & K & A' & B'). destruct tau_value as (_ & _ & _ & D).
    assert (N := poly_near k _ F ltac:(rewrite V; lra)). rewrite V in N.
    apply off_coords. intros f c C. destruct (proj2 (off_coords _ _ _) N f c C) as [F0 E0]. split; [exact F0|].
    assert (P := M_pos M HM). assert (Nu := n_u). assert (U := bpow_gt_0 radix2 (-53)). assert (O := n_one).
    assert (S0 := seg_step M HM (map f points) e (coords_within f c C) He (coords_length f) k j (B2R tau - INR k) (B2R t * INR n - INR j) ltac:(lra) ltac:(lra)).
    replace (INR k + (B2R tau - INR k) - (INR j + (B2R t * INR n - INR j))) with (B2R tau - B2R t * INR n) in S0 by ring. specialize (S0 ltac:(lra)).
    rewrite (exact_coords f c) in S0 by exact C. assert (CC := coordinates_coordinate f c C). rewrite <- !(poly_coord c _ _ _ _ CC) in S0.
    assert (S1 : 102 * M * Rabs (B2R tau - B2R t * INR n) <= 103 * INR n * unit_of M).
    { apply Rle_trans with (102 * M * ((1 + / 1000) * (INR n * u))); [apply Rmult_le_compat_l; lra|]. unfold unit_of. assert (0 < INR n * (u * M)); [|nra].
      apply Rmult_lt_0_compat; [lra|]. apply Rmult_lt_0_compat; lra. }
    apply Rabs_le_inv in E0, S0. apply Rabs_le. lra.
Qed.
End Points.

Lemma up_to_leb t : up_to 0 t -> b64_leb t b64_0 = true.
Proof.
  intros [->|[F H]]; [reflexivity|]. unfold b64_leb. rewrite (Bleb_correct 53 1024 t b64_0 F eq_refl). apply Rle_bool_true. exact H.
Qed.
Lemma from_on_leb t : from_on 1 t -> b64_leb (b64_of_Z 1) t = true /\ b64_leb t b64_0 = false.
Proof.
  destruct (b64_int 1 ltac:(lia)) as [V1 G1]. intros [->|[F H]]; [split; vm_compute; reflexivity|]. unfold b64_leb. split.
  - rewrite (Bleb_correct 53 1024 _ t G1 F). apply Rle_bool_true. rewrite V1. exact H.
  - rewrite (Bleb_correct 53 1024 t b64_0 F eq_refl). apply Rle_bool_false. cbn. lra.
Qed.
Lemma feval_low old points e t : (2 <= length points)%nat -> up_to 0 t -> fspline_eval (fbuild old points e) t = Some (fpoly_eval (fpoly_at points e 0) b64_0).
Proof.
  intros Hn H. rewrite fbuild_eq by exact Hn. destruct (length points - 1)%nat as [|m] eqn:K; [lia|]. cbn [seq map fspline_eval]. now rewrite up_to_leb by exact H.
Qed.
Lemma feval_high old points e t : (2 <= length points)%nat -> from_on 1 t -> fspline_eval (fbuild old points e) t = Some (fpoly_eval (fpoly_at points e (length points - 2)) (b64_of_Z 1)).
Proof.
  intros Hn H. destruct (from_on_leb t H) as [A B]. rewrite fbuild_eq by exact Hn. replace (length points - 1)%nat with (S (length points - 2)) by lia.
  set (m := (length points - 2)%nat). rewrite seq_S, map_app. cbn [map Nat.add]. unfold fspline_eval. destruct (map (fpoly_at points e) (seq 0 m) ++ [fpoly_at points e m]) as [|p ps] eqn:E.
  - apply app_eq_nil in E. destruct E as [_ E]. discriminate.
  - rewrite B, A. rewrite <- E. now rewrite last_last.
Qed.

Lemma low_holds old M points (e : b64) t : usual_size M -> (2 <= length points)%nat -> Forall (point_within M) points -> is_finite e = true /\ Rabs (B2R e) <= 1 -> up_to 0 t ->
  exists p, fspline_eval (fbuild old points e) t = Some p /\ at_most_off 0 p (nth 0 (map exact_vec points) vzero).
Proof.
  intros HM Hn Hp He H. exists (fpoly_eval (fpoly_at points e 0) b64_0). split; [apply feval_low; assumption|]. apply poly_start with M; auto.
Qed.
Lemma high_holds old M points (e : b64) t : usual_size M -> (2 <= length points)%nat -> Forall (point_within M) points -> is_finite e = true /\ Rabs (B2R e) <= 1 -> from_on 1 t ->
  exists p, fspline_eval (fbuild old points e) t = Some p /\ at_most_off (1022 * unit_of M) p (nth (length points - 1) (map exact_vec points) vzero).
Proof.
  intros HM Hn Hp He H. exists (fpoly_eval (fpoly_at points e (length points - 2)) (b64_of_Z 1)). split; [apply feval_high; assumption|].
  replace (length points - 1)%nat with (S (length points - 2)) by lia. apply poly_end; assumption.
Qed.
Lemma off_weaken d d' p q : at_most_off d p q -> d <= d' -> at_most_off d' p q.
Proof. intros (A & B & C) H. repeat split; try tauto; [apply proj2 in A|apply proj2 in B|apply proj2 in C]; lra. Qed.
Lemma unit_of_pos M : usual_size M -> 0 < unit_of M.
Proof. intros H. apply unit_pos. exact H. Qed.
Lemma near_holds old old' M points (e : b64) t : usual_size M -> (2 <= length points)%nat -> (Z.of_nat (length points) <= 2 ^ 32)%Z -> Forall (point_within M) points ->
  is_finite e = true /\ Rabs (B2R e) <= 1 -> is_finite t = true ->
  exists p q, fspline_eval (fbuild old points e) t = Some p /\ spline_eval (build old' (map exact_vec points) (B2R e)) (B2R t) = Some q /\
    at_most_off ((1022 + 103 * INR (length points - 1)) * unit_of M) p q.
Proof.
  intros HM Hn Hb Hp He Ft. assert (U := unit_of_pos M HM). assert (N := pos_INR (length points - 1)). assert (Ln : (2 <= length (map exact_vec points))%nat) by now rewrite map_length.
  destruct (Rle_lt_dec (B2R t) 0) as [H|H].
  - destruct (low_holds old M points e t HM Hn Hp He) as (p & E & O); [right; auto|]. exists p, (nth 0 (map exact_vec points) vzero). split; [exact E|]. split; [apply eval_low; assumption|].
    apply off_weaken with (1 := O). nra.
  - destruct (Rle_lt_dec 1 (B2R t)) as [H1|H1].
    + destruct (high_holds old M points e t HM Hn Hp He) as (p & E & O); [right; auto|]. exists p, (nth (length points - 1) (map exact_vec points) vzero). split; [exact E|].
      split; [rewrite (eval_high old' _ (B2R e) (B2R t) Ln H1); now rewrite map_length|]. apply off_weaken with (1 := O). nra.
    + apply eval_near; auto.
Qed.

(** control points *)
Lemma exact_close old M points (e : b64) t i delta : usual_size M -> (2 <= length points)%nat -> Forall (point_within M) points -> is_finite e = true /\ Rabs (B2R e) <= 1 -> 0 < t < 1 ->
  Rabs (t * INR (length points - 1) - INR i) <= delta -> delta < 1 ->
  exists q, spline_eval (build old (map exact_vec points) (B2R e)) t = Some q /\ forall c, coordinate c -> Rabs (c q - c (nth i (map exact_vec points) vzero)) <= 102 * M * delta.
Proof.
  intros HM Hn Hp He Ht D1 D2. assert (Ln : length (map exact_vec points) = length points) by apply map_length. set (n := (length points - 1)%nat) in *.
  destruct (floor_nat t n ltac:(unfold n; lia) ltac:(lra)) as (j & J & A & B). exists (poly_eval (poly_at (map exact_vec points) (B2R e) j) (t * INR n - INR j)). split.
  - rewrite (eval_inside old (map exact_vec points) (B2R e) t j) by (rewrite ?Ln; fold n; lia || lra). rewrite Ln. reflexivity.
  - intros c C. assert (F : exists f, coordinates f c) by (destruct C as [->|[->| ->]]; [exists fx|exists fy|exists fz]; unfold coordinates; auto). destruct F as [f F].
    assert (S0 := seg_step M HM (map f points) e (coords_within M points Hp f c F) He ltac:(now rewrite map_length) j i (t * INR n - INR j) 0 ltac:(lra) ltac:(lra)).
    replace (INR j + (t * INR n - INR j) - (INR i + 0)) with (t * INR n - INR i) in S0 by ring. specialize (S0 ltac:(lra)).
    rewrite (exact_coords f c) in S0 by exact F. rewrite seg_0 in S0. rewrite (px_nth c _ _ C) in S0. rewrite (poly_coord c _ _ _ _ C). apply Rle_trans with (1 := S0).
    apply Rmult_le_compat_l; [|exact D1]. assert (P := M_pos M HM). lra.
Qed.
Lemma through_holds old M points (e : b64) i : usual_size M -> (2 <= length points)%nat -> (Z.of_nat (length points) <= 2 ^ 32)%Z -> Forall (point_within M) points ->
  is_finite e = true /\ Rabs (B2R e) <= 1 -> (i < length points)%nat ->
  exists p, fspline_eval (fbuild old points e) (b64_div (b64_of_Z (Z.of_nat i)) (b64_of_Z (Z.of_nat (length points - 1)))) = Some p /\
    at_most_off ((1022 + 206 * INR (length points - 1)) * unit_of M) p (exact_vec (nth i points (FV b64_0 b64_0 b64_0))).
Proof.
  intros HM Hn Hb Hp He Hi. assert (U := unit_of_pos M HM). assert (N1 := n_one points Hn). assert (Nu := n_u points Hn Hb). destruct (n_double points Hn Hb) as [Vn Fn].
  set (n := (length points - 1)%nat) in *.
  assert (Vi : B2R (b64_of_Z (Z.of_nat i)) = INR i /\ is_finite (b64_of_Z (Z.of_nat i)) = true).
  { destruct i as [|i']; [split; reflexivity|]. destruct (b64_int (Z.of_nat (S i'))) as [V F]; [lia|]. split; [rewrite V; symmetry; apply INR_IZR_INZ|exact F]. }
  destruct Vi as [Vi Fi]. assert (I0 := pos_INR i). assert (In : INR i <= INR n) by (apply le_INR; unfold n; lia).
  assert (Q : 0 <= INR i / INR n <= 1).
  { split; [apply Rmult_le_pos; [exact I0|left; apply Rinv_0_lt_compat; lra]|]. apply Rmult_le_reg_r with (INR n); [lra|]. unfold Rdiv. rewrite Rmult_assoc, Rinv_l by lra. lra. }
  set (t := b64_div (b64_of_Z (Z.of_nat i)) (b64_of_Z (Z.of_nat n))).
  destruct (div_fin (b64_of_Z (Z.of_nat i)) (b64_of_Z (Z.of_nat n)) 0 Fi ltac:(rewrite Vn; lra) ltac:(lia)) as [Ft Vt]; [rewrite Vi, Vn; change (bpow radix2 0) with 1; rewrite Rabs_pos_eq; lra|].
  fold t in Ft, Vt. rewrite Vi, Vn in Vt. assert (Z0 : nth i (map exact_vec points) vzero = exact_vec (nth i points (FV b64_0 b64_0 b64_0))) by exact (map_nth exact_vec points (FV b64_0 b64_0 b64_0) i). rewrite <- Z0.
  destruct (Nat.eq_dec i 0) as [->|Ni].
  - destruct (low_holds old M points e t HM Hn Hp He) as (p & E & O).
    { right. split; [exact Ft|]. rewrite Vt. cbn [INR]. unfold Rdiv. rewrite Rmult_0_l, round_0 by apply valid_rnd_N. lra. }
    exists p. split; [exact E|]. apply off_weaken with (1 := O). nra.
  - destruct (Nat.eq_dec i n) as [->|Nj].
    + destruct (high_holds old M points e t HM Hn Hp He) as (p & E & O).
      { right. split; [exact Ft|]. rewrite Vt. replace (INR n / INR n) with 1 by (field; lra). rewrite round_generic; [lra|apply valid_rnd_N|exact format_1]. }
      exists p. split; [exact E|]. apply off_weaken with (1 := O). nra.
    + assert (I1 : 1 <= INR i) by (apply (le_INR 1); lia). assert (I2 : INR i <= INR n - 1). { assert (K : INR (S i) <= INR n) by (apply le_INR; unfold n in *; lia). rewrite S_INR in K. lra. }
      assert (R0 := rnd_error (INR i / INR n) 1 ltac:(rewrite Rabs_pos_eq; lra)). rewrite <- Vt in R0. assert (T := eta_small). assert (P := bpow_gt_0 radix2 (-53)).
      assert (D : Rabs (B2R t * INR n - INR i) <= (1 + / 1000) * (INR n * u)).
      { replace (B2R t * INR n - INR i) with ((B2R t - INR i / INR n) * INR n) by (field; lra). rewrite Rabs_mult, (Rabs_pos_eq (INR n)) by lra.
        replace ((1 + / 1000) * (INR n * u)) with ((1 + / 1000) * u * INR n) by ring. apply Rmult_le_compat_r; [lra|]. apply Rabs_le. lra. }
      assert (L : (1 + / 1000) * (INR n * u) < 1) by lra. assert (D' := D). apply Rabs_le_inv in D'.
      assert (Ht : 0 < B2R t < 1) by (split; nra).
      destruct (near_holds old [] M points e t HM Hn Hb Hp He Ft) as (p & q & E & Eq & O). exists p. split; [exact E|].
      destruct (exact_close [] M points e (B2R t) i _ HM Hn Hp He Ht D L) as (q' & Eq' & O'). rewrite Eq in Eq'. injection Eq' as <-.
      apply off_coords. intros f c C. destruct (proj2 (off_coords _ _ _) O f c C) as [F0 E0]. split; [exact F0|]. assert (E1 := O' c (coordinates_coordinate f c C)).
      assert (S1 : 102 * M * ((1 + / 1000) * (INR n * u)) <= 103 * INR n * unit_of M).
      { unfold unit_of. assert (PM := M_pos M HM). assert (0 < INR n * (u * M)); [|nra]. apply Rmult_lt_0_compat; [lra|]. apply Rmult_lt_0_compat; lra. }
      fold n in E0. apply Rabs_le_inv in E0, E1. apply Rabs_le. lra.
Qed.
Lemma joints_holds old M points (e : b64) k : usual_size M -> (2 <= length points)%nat -> Forall (point_within M) points -> is_finite e = true /\ Rabs (B2R e) <= 1 -> (S k < length points)%nat ->
  exists q, nth_error (fbuild old points e) k = Some q /\ at_most_off 0 (fpoly_eval q b64_0) (exact_vec (nth k points (FV b64_0 b64_0 b64_0))) /\
    at_most_off (1022 * unit_of M) (fpoly_eval q (b64_of_Z 1)) (exact_vec (nth (S k) points (FV b64_0 b64_0 b64_0))).
Proof.
  intros HM Hn Hp He Hk. exists (fpoly_at points e k). rewrite fbuild_eq by exact Hn. split; [apply nth_error_fbuild; lia|].
  assert (Z0 : forall i, exact_vec (nth i points (FV b64_0 b64_0 b64_0)) = nth i (map exact_vec points) vzero) by (intros i; symmetry; exact (map_nth exact_vec points (FV b64_0 b64_0 b64_0) i)). rewrite !Z0. split.
  - apply poly_start with M; auto.
  - apply poly_end; auto.
Qed.
Lemma nan_holds old points (e : b64) : (2 <= length points)%nat -> fspline_eval (fbuild old points e) B754_nan = None.
Proof.
  intros Hn. rewrite fbuild_eq by exact Hn. destruct (length points - 1)%nat as [|m] eqn:K; [lia|]. cbn [seq map]. unfold fspline_eval. change (b64_leb B754_nan b64_0) with false. change (b64_leb (b64_of_Z 1) B754_nan) with false.
  cbv iota. generalize (b64_of_Z (Z.of_nat (length (fpoly_at points e 0 :: map (fpoly_at points e) (seq 1 m))))). intros b. assert (Z : b64_mul B754_nan b = B754_nan) by (destruct b; reflexivity). rewrite Z. reflexivity.
Qed.
