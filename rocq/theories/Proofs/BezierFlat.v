(** Bezier curves and patches with evenly spaced control points, and velocities of Bezier curves *)
From Coquelicot Require Import Coquelicot.
From Coq Require Import ZArith Reals List Arith Lia Lra.
From Verif Require Import Model.Vec Model.Aabb Model.Interp Model.Bezier Spec.BezierSpec Spec.ChartSpec Spec.NormalSpec Proofs.VecLemmas Proofs.BezierLemmas Proofs.BezierPatchLemmas.
Import ListNotations.
Local Open Scope R_scope.

Ltac vv := apply vec3_ext; unfold lerp3, vadd, vsub, vscale, vzero; cbn [vx vy vz].

(** ** Linear precision *)
Lemma lerps_even t a d : forall k s, lerps t (map (fun i => vadd a (vscale (INR i) d)) (seq s (S k))) = map (fun i => vadd (vadd a (vscale t d)) (vscale (INR i) d)) (seq s k).
Proof.
  induction k as [|k IH]; intros s; [reflexivity|]. cbn [seq map]. cbn [lerps]. f_equal.
  - rewrite S_INR. vv; ring.
  - exact (IH (S s)).
Qed.
Lemma casteljau_even t d : forall n a, casteljau n t (evenly a d n) = [vadd a (vscale (INR n * t) d)].
Proof.
  induction n as [|n IH]; intros a.
  - cbn. f_equal. vv; ring.
  - cbn [casteljau]. unfold evenly. rewrite lerps_even. fold (evenly (vadd a (vscale t d)) d n). rewrite IH. f_equal. rewrite S_INR. vv; ring.
Qed.
Lemma wsum_even t a d n : wsum (B t n) 0 (evenly a d n) = vadd a (vscale (INR n * t) d).
Proof.
  pose proof (casteljau_even t d n a) as E. rewrite wsum_casteljau in E by (unfold evenly; now rewrite map_length, seq_length). exact (f_equal (hd vzero) E).
Qed.
Lemma curve_even a d n t : (1 <= n <= 20)%nat -> curve (evenly a d n) t = Some (vadd a (vscale (INR n * t) d)).
Proof.
  intros N. assert (L : length (evenly a d n) = S n) by (unfold evenly; now rewrite map_length, seq_length).
  rewrite curve_wsum by lia. rewrite L. replace (S n - 1)%nat with n by lia. now rewrite wsum_even.
Qed.
Lemma patch_even p o a b u v : let n := Z.to_nat (order p) in (1 <= n <= 20)%nat -> flat_sheet p o a b ->
  patch_eval p u v = Some (vadd o (vadd (vscale (INR n * u) a) (vscale (INR n * v) b))).
Proof.
  intros n N F. rewrite patch_eval_sum by exact N. fold n. f_equal.
  rewrite (map_ext_in _ (fun i => vadd (vadd o (vscale (INR n * v) b)) (vscale (INR i) a))).
  - fold (evenly (vadd o (vscale (INR n * v) b)) a n). rewrite wsum_even. vv; ring.
  - intros i I. apply in_seq in I. unfold row. rewrite (map_ext_in _ (fun j => vadd (vadd o (vscale (INR i) a)) (vscale (INR j) b))).
    + fold (evenly (vadd o (vscale (INR i) a)) b n). rewrite wsum_even. vv; ring.
    + intros j J. apply in_seq in J. rewrite F by (fold n; lia). vv; ring.
Qed.

(** ** Velocities *)
Fixpoint bez (n : nat) (t : R) (g : nat -> R) : R :=
  match n with O => g O | S m => (1 - t) * bez m t g + t * bez m t (fun k => g (S k)) end.
Lemma bez_ext n t : forall g h, (forall k, (k <= n)%nat -> g k = h k) -> bez n t g = bez n t h.
Proof. induction n as [|n IH]; intros g h E; cbn [bez]; [apply E; lia|]. rewrite (IH g h), (IH (fun k => g (S k)) (fun k => h (S k))); [reflexivity| |]; intros; apply E; lia. Qed.
Lemma bez_minus n t : forall g h, bez n t (fun k => g k - h k) = bez n t g - bez n t h.
Proof. induction n as [|n IH]; intros g h; cbn [bez]; [reflexivity|]. rewrite (IH g h), (IH (fun k => g (S k)) (fun k => h (S k))). ring. Qed.
Lemma total_plus f g : forall k i, total (fun j => f j + g j) i k = total f i k + total g i k.
Proof. induction k as [|k IH]; intros i; cbn [total]; [ring|]. rewrite IH. ring. Qed.
Lemma total_scale c f : forall k i, total (fun j => c * f j) i k = c * total f i k.
Proof. induction k as [|k IH]; intros i; cbn [total]; [ring|]. rewrite IH. ring. Qed.
Lemma total_ext f g : forall k i, (forall j, (i <= j < i + k)%nat -> f j = g j) -> total f i k = total g i k.
Proof. induction k as [|k IH]; intros i E; cbn [total]; [reflexivity|]. rewrite IH by (intros; apply E; lia). rewrite E by lia. reflexivity. Qed.
Lemma total_shift f : forall k i, total f (S i) k = total (fun j => f (S j)) i k.
Proof. induction k as [|k IH]; intros i; cbn [total]; [reflexivity|]. now rewrite IH. Qed.
Lemma total_S f i k : total f i (S k) = f i + total f (S i) k. Proof. reflexivity. Qed.
Lemma bez_total t : forall n g, bez n t g = total (fun k => B t n k * g k) 0 (S n).
Proof.
  induction n as [|n IH]; intros g; cbn [bez]; [cbn; ring|]. rewrite !IH.
  rewrite (total_ext (fun k => B t (S n) k * g k) (fun k => (1 - t) * (B t n k * g k) + match k with O => 0 | S j => t * (B t n j * g (S j)) end)) by (intros [|j] _; cbn [B]; ring).
  rewrite total_plus, total_scale. f_equal.
  - f_equal. rewrite (total_last _ 0 (S n)). cbn [Nat.add]. rewrite B_lt by lia. ring.
  - rewrite (total_S _ 0 (S n)), (total_shift _ (S n) 0). rewrite total_scale. ring.
Qed.
Lemma bez_derive : forall n g t, is_derive (fun t => bez (S n) t g) t (INR (S n) * bez n t (fun k => g (S k) - g k)).
Proof.
  induction n as [|n IH]; intros g t.
  - cbn [bez INR]. auto_derive; [exact I|]. ring.
  - apply (is_derive_ext (fun t => (1 - t) * bez (S n) t g + t * bez (S n) t (fun k => g (S k)))); [reflexivity|].
    pose proof (IH g t) as D1. pose proof (IH (fun k => g (S k)) t) as D2. apply is_derive_Reals. apply is_derive_Reals in D1, D2.
    assert (X : derivable_pt_lim (fun t => 1 - t) t (-1)) by (apply is_derive_Reals; auto_derive; [exact I|ring]).
    assert (Y : derivable_pt_lim (fun t => t) t 1) by (apply is_derive_Reals; auto_derive; [exact I|ring]).
    pose proof (derivable_pt_lim_plus _ _ _ _ _ (derivable_pt_lim_mult _ _ _ _ _ X D1) (derivable_pt_lim_mult _ _ _ _ _ Y D2)) as Z.
    unfold plus_fct, mult_fct in Z. match type of Z with derivable_pt_lim _ _ ?r => replace (INR (S (S n)) * bez (S n) t (fun k => g (S k) - g k)) with r; [exact Z|] end.
    rewrite (S_INR (S n)). rewrite Rmult_plus_distr_r. pose proof (bez_minus (S n) t (fun k => g (S k)) g) as M.
    transitivity (INR (S n) * ((1 - t) * bez n t (fun k => g (S k) - g k) + t * bez n t (fun k => g (S (S k)) - g (S k))) + (bez (S n) t (fun k => g (S k)) - bez (S n) t g)); [ring|]. rewrite <- M, Rmult_1_l. reflexivity.
Qed.
Definition coordinate (g : vec3 -> R) : Prop := g vzero = 0 /\ (forall a b, g (vadd a b) = g a + g b) /\ (forall k a, g (vscale k a) = k * g a).
Lemma wsum_total g f ps : coordinate g -> forall i, g (wsum f i ps) = total (fun k => f k * g (nth (k - i) ps vzero)) i (length ps).
Proof.
  intros (Z & A & S'). induction ps as [|p r IH]; intros i; cbn [wsum length total]; [exact Z|]. rewrite A, S', Nat.sub_diag. cbn [nth]. f_equal. rewrite IH. apply total_ext. intros j J.
  replace (j - i)%nat with (S (j - S i)) by lia. reflexivity.
Qed.
Lemma wsum_bez g t n ps : coordinate g -> length ps = S n -> g (wsum (B t n) 0 ps) = bez n t (fun k => g (nth k ps vzero)).
Proof. intros G L. rewrite bez_total, wsum_total by assumption. rewrite L. apply total_ext. intros j J. now rewrite Nat.sub_0_r. Qed.
Lemma steps_length ps : length (steps ps) = (length ps - 1)%nat.
Proof. induction ps as [|a [|b r] IH]; [reflexivity|reflexivity|]. cbn [steps length] in *. rewrite IH. lia. Qed.
Lemma steps_nth : forall ps k, (S k < length ps)%nat -> nth k (steps ps) vzero = vsub (nth (S k) ps vzero) (nth k ps vzero).
Proof.
  induction ps as [|a [|b r] IH]; intros k K; [cbn in K; lia|cbn in K; lia|]. destruct k as [|k]; [reflexivity|].
  change (nth (S k) (steps (a :: b :: r)) vzero) with (nth k (steps (b :: r)) vzero). rewrite IH by (cbn [length] in *; lia). reflexivity.
Qed.
Lemma coord_x : coordinate vx. Proof. repeat split. Qed.
Lemma coord_y : coordinate vy. Proof. repeat split. Qed.
Lemma coord_z : coordinate vz. Proof. repeat split. Qed.
Lemma coord_sub g a b : coordinate g -> g (vsub a b) = g a - g b.
Proof. intros (Z & A & S'). replace (vsub a b) with (vadd a (vscale (-1) b)) by (vv; ring). rewrite A, S'. ring. Qed.
Lemma coordinate_derive g ps n t : coordinate g -> length ps = S (S n) ->
  derivable_pt_lim (fun s => g (wsum (B (t + s) (S n)) 0 ps)) 0 (g (vscale (INR (S n)) (wsum (B t n) 0 (steps ps)))).
Proof.
  intros G L. apply is_derive_Reals. apply (is_derive_ext (fun s => bez (S n) (t + s) (fun k => g (nth k ps vzero)))); [intros s; symmetry; now apply wsum_bez|].
  assert (E : g (vscale (INR (S n)) (wsum (B t n) 0 (steps ps))) = INR (S n) * bez n (t + 0) (fun k => g (nth (S k) ps vzero) - g (nth k ps vzero))).
  { destruct G as (Z & A & S'). rewrite S'. f_equal. rewrite wsum_bez; [|repeat split; assumption|rewrite steps_length; lia]. rewrite Rplus_0_r. apply bez_ext. intros k K. rewrite steps_nth by lia. apply coord_sub. repeat split; assumption. }
  rewrite E. pose proof (bez_derive n (fun k => g (nth k ps vzero)) (t + 0)) as D.
  apply is_derive_Reals. apply is_derive_Reals in D.
  assert (X : derivable_pt_lim (fun s => t + s) 0 1) by (apply is_derive_Reals; auto_derive; [exact I|ring]).
  pose proof (derivable_pt_lim_comp _ _ _ _ _ X D) as C. unfold comp in C. rewrite Rmult_1_r in C. exact C.
Qed.
Theorem curve_velocity ps f t : (2 <= length ps <= 21)%nat -> (forall s, curve ps s = Some (f s)) ->
  exists q, casteljau (length ps - 2) t (steps ps) = [q] /\ velocity (fun s => f (t + s)) (vscale (INR (length ps - 1)) q).
Proof.
  intros L F. assert (exists n, length ps = S (S n)) as [n E] by (exists (length ps - 2)%nat; lia). exists (wsum (B t n) 0 (steps ps)). split.
  - rewrite E. replace (S (S n) - 2)%nat with n by lia. apply wsum_casteljau. rewrite steps_length. lia.
  - rewrite E. replace (S (S n) - 1)%nat with (S n) by lia.
    assert (W : forall s, f s = wsum (B s (S n)) 0 ps) by (intros s; specialize (F s); rewrite curve_wsum in F by assumption; rewrite E in F; replace (S (S n) - 1)%nat with (S n) in F by lia; congruence).
    assert (D : forall g, coordinate g -> derivable_pt_lim (fun s => g (f (t + s))) 0 (g (vscale (INR (S n)) (wsum (B t n) 0 (steps ps))))).
    { intros g G. apply is_derive_Reals. apply (is_derive_ext (fun s => g (wsum (B (t + s) (S n)) 0 ps))); [intros s; now rewrite W|]. apply is_derive_Reals. now apply coordinate_derive. }
    split; [|split]; apply D; [apply coord_x|apply coord_y|apply coord_z].
Qed.
Lemma casteljau_0 : forall n ps d, length ps = S n -> casteljau n 0 ps = [hd d ps].
Proof. intros n ps d L. rewrite wsum_casteljau by assumption. rewrite (wsum_at_0 _ _ d). destruct ps; [discriminate|reflexivity]. Qed.
Lemma casteljau_1 : forall n ps d, length ps = S n -> casteljau n 1 ps = [last ps d].
Proof. intros n ps d L. rewrite wsum_casteljau by assumption. rewrite (wsum_at_1 d); [reflexivity|lia|]. intros ->. discriminate. Qed.
Lemma last_step : forall r a b, last (steps (r ++ [a; b])) vzero = vsub b a.
Proof.
  induction r as [|x r IH]; intros a b; [reflexivity|]. rewrite <- (IH a b). cbn [app].
  assert (L : (2 <= length (r ++ [a; b]))%nat) by (rewrite app_length; cbn; lia). pose proof (steps_length (r ++ [a; b])) as K.
  destruct (r ++ [a; b]) as [|y l]; [cbn in L; lia|]. change (steps (x :: y :: l)) with (vsub y x :: steps (y :: l)). destruct (steps (y :: l)) as [|z w]; [cbn [length] in *; lia|]. reflexivity.
Qed.
Theorem curve_end_velocities r f a b : (length r <= 19)%nat ->
  ((forall s, curve (a :: b :: r) s = Some (f s)) -> velocity f (vscale (INR (length r + 1)) (vsub b a))) /\
  ((forall s, curve (r ++ [a; b]) s = Some (f s)) -> velocity (fun s => f (1 + s)) (vscale (INR (length r + 1)) (vsub b a))).
Proof.
  intros L. split; intros F.
  - destruct (curve_velocity (a :: b :: r) f 0) as (q & C & V); [cbn [length]; lia|assumption|]. rewrite (casteljau_0 _ _ vzero) in C by (rewrite steps_length; cbn [length]; lia).
    cbn [steps hd] in C. injection C as <-. replace (length (a :: b :: r) - 1)%nat with (length r + 1)%nat in V by (cbn [length]; lia).
    destruct V as (X & Y & Z). assert (E : forall s, f (0 + s) = f s) by (intros; f_equal; ring).
    split; [|split]; apply is_derive_Reals; [apply is_derive_Reals in X; eapply is_derive_ext; [|exact X]|apply is_derive_Reals in Y; eapply is_derive_ext; [|exact Y]|apply is_derive_Reals in Z; eapply is_derive_ext; [|exact Z]];
      intros s; cbv beta; now rewrite E.
  - destruct (curve_velocity (r ++ [a; b]) f 1) as (q & C & V); [rewrite app_length; cbn [length]; lia|assumption|]. rewrite (casteljau_1 _ _ vzero) in C by (rewrite steps_length, app_length; cbn [length]; lia).
    rewrite last_step in C. assert (q = vsub b a) by congruence. subst q. replace (length (r ++ [a; b]) - 1)%nat with (length r + 1)%nat in V by (rewrite app_length; cbn [length]; lia). exact V.
Qed.
