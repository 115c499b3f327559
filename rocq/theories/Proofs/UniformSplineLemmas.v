From Coq Require Import ZArith Reals List Bool Arith Lia Lra Psatz.
From Verif Require Import Model.Scalar Model.Vec Model.UniformSpline Spec.SplineSpec Proofs.VecLemmas.
Import ListNotations.
Local Open Scope R_scope.

Lemma Int_part_eq r z : IZR z <= r < IZR z + 1 -> Int_part r = z.
Proof.
  intros H. destruct (base_Int_part r) as [A B]. apply Z.le_antisymm; apply Z.lt_succ_r; apply lt_IZR; rewrite succ_IZR; lra.
Qed.

(** ** Gluing functions *)

Lemma glue_deriv f g h a l d : 0 < d -> f a = g a -> f a = h a ->
  (forall t, a - d < t < a -> f t = g t) -> (forall t, a < t < a + d -> f t = h t) ->
  derivable_pt_lim g a l -> derivable_pt_lim h a l -> derivable_pt_lim f a l.
Proof.
  intros D Fg Fh L Rr G H eps E. destruct (G eps E) as [d1 K1]. destruct (H eps E) as [d2 K2].
  assert (P : 0 < Rmin d (Rmin d1 d2)) by (repeat apply Rmin_pos; try assumption; apply cond_pos).
  exists (mkposreal _ P). intros k N S. cbn [pos] in S.
  assert (S0 : Rabs k < d) by (eapply Rlt_le_trans; [exact S|apply Rmin_l]).
  assert (S1 : Rabs k < d1) by (eapply Rlt_le_trans; [exact S|eapply Rle_trans; [apply Rmin_r|apply Rmin_l]]).
  assert (S2 : Rabs k < d2) by (eapply Rlt_le_trans; [exact S|eapply Rle_trans; [apply Rmin_r|apply Rmin_r]]).
  apply Rabs_def2 in S0. destruct (Rtotal_order k 0) as [K|[K|K]]; [|contradiction|].
  - rewrite L, Fg by lra. apply K1; assumption.
  - rewrite Rr, Fh by lra. apply K2; assumption.
Qed.
Lemma cont_eps f a : continuity_pt f a <-> forall eps, 0 < eps -> exists d, 0 < d /\ forall x, Rabs (x - a) < d -> Rabs (f x - f a) < eps.
Proof.
  unfold continuity_pt, continue_in, limit1_in, limit_in; cbn. unfold R_dist. split; intros H eps E; destruct (H eps E) as (d & P & K); exists d; (split; [exact P|]).
  - intros x X. destruct (Req_dec a x) as [<-|N]; [replace (f a - f a) with 0 by ring; rewrite Rabs_R0; exact E|]. apply K. split; [|exact X]. split; [exact I|exact N].
  - intros x [_ X]. apply K; exact X.
Qed.
Lemma glue_cont f g h a d : 0 < d -> f a = g a -> f a = h a ->
  (forall t, a - d < t < a -> f t = g t) -> (forall t, a < t < a + d -> f t = h t) ->
  continuity_pt g a -> continuity_pt h a -> continuity_pt f a.
Proof.
  intros D Fg Fh L Rr G H. rewrite cont_eps in *. intros eps E. destruct (G eps E) as (d1 & P1 & K1). destruct (H eps E) as (d2 & P2 & K2).
  exists (Rmin d (Rmin d1 d2)). split; [repeat apply Rmin_pos; assumption|]. intros x X.
  assert (S0 : Rabs (x - a) < d) by (eapply Rlt_le_trans; [exact X|apply Rmin_l]).
  assert (S1 : Rabs (x - a) < d1) by (eapply Rlt_le_trans; [exact X|eapply Rle_trans; [apply Rmin_r|apply Rmin_l]]).
  assert (S2 : Rabs (x - a) < d2) by (eapply Rlt_le_trans; [exact X|eapply Rle_trans; [apply Rmin_r|apply Rmin_r]]).
  apply Rabs_def2 in S0. destruct (Rtotal_order x a) as [K|[->|K]].
  - rewrite L, Fg by lra. apply K1; assumption.
  - replace (f a - f a) with 0 by ring. rewrite Rabs_R0; exact E.
  - rewrite Rr, Fh by lra. apply K2; assumption.
Qed.

(** ** Piecewise functions with knots i/n *)

Definition piece (n : nat) (P : nat -> R -> R) (t : R) : R :=
  P (Z.to_nat (Int_part (t * INR n))) (t * INR n - IZR (Int_part (t * INR n))).
Lemma piece_on n P t k : INR k <= t * INR n < INR k + 1 -> piece n P t = P k (t * INR n - INR k).
Proof.
  intros H. unfold piece. rewrite INR_IZR_INZ in H. rewrite (Int_part_eq _ (Z.of_nat k)) by (rewrite <- INR_IZR_INZ in *; exact H).
  rewrite Nat2Z.id, <- INR_IZR_INZ. reflexivity.
Qed.
Lemma floor_nat t n : (1 <= n)%nat -> 0 <= t < 1 -> exists k, (k < n)%nat /\ INR k <= t * INR n < INR k + 1.
Proof.
  intros N T. destruct (base_Int_part (t * INR n)) as [A B]. set (z := Int_part (t * INR n)) in *.
  assert (P : 0 < INR n) by (apply lt_0_INR; lia). assert (0 <= t * INR n) by (apply Rmult_le_pos; lra).
  assert (t * INR n < INR n) by nra. assert (Z0 : (0 <= z)%Z). { apply Z.lt_succ_r, lt_IZR. rewrite succ_IZR. lra. }
  exists (Z.to_nat z). rewrite INR_IZR_INZ, Z2Nat.id by exact Z0. split; [|lra].
  apply Nat2Z.inj_lt. rewrite Z2Nat.id by exact Z0. apply lt_IZR. rewrite <- INR_IZR_INZ. lra.
Qed.
(** around a point of the open interval the function is one piece, or two that meet *)
Lemma piece_near n P t : (1 <= n)%nat -> 0 < t < 1 -> exists d j k, 0 < d /\ (k < n)%nat /\
  INR k <= t * INR n < INR k + 1 /\ (j = k \/ (S j = k /\ t * INR n = INR k)) /\
  (forall x, t - d < x < t -> 0 < x < 1 /\ piece n P x = P j (x * INR n - INR j)) /\
  (forall x, t <= x < t + d -> 0 < x < 1 /\ piece n P x = P k (x * INR n - INR k)).
Proof.
  intros N T. destruct (floor_nat t n N ltac:(lra)) as (k & K & F). assert (Pn : 0 < INR n) by (apply lt_0_INR; lia).
  assert (K1 : INR k + 1 <= INR n) by (rewrite <- S_INR; apply le_INR; lia).
  assert (Kp : 0 <= INR k) by apply pos_INR.
  (* distance to the next knot *)
  set (r := (INR k + 1) / INR n - t). assert (Rr : 0 < r).
  { unfold r. apply Rlt_Rminus. apply Rmult_lt_reg_r with (INR n); [exact Pn|]. unfold Rdiv. rewrite Rmult_assoc, Rinv_l by lra. lra. }
  assert (Right : forall x, t <= x < t + r -> 0 < x < 1 /\ piece n P x = P k (x * INR n - INR k)).
  { intros x X. assert (X1 : x * INR n < INR k + 1).
    { unfold r in X. assert (x < (INR k + 1) / INR n) by lra. apply Rmult_lt_compat_r with (r := INR n) in H; [|exact Pn].
      unfold Rdiv in H. rewrite Rmult_assoc, Rinv_l in H by lra. lra. }
    assert (X2 : INR k <= x * INR n) by (assert (t * INR n <= x * INR n) by (apply Rmult_le_compat_r; lra); lra).
    split; [split; [lra|]|apply piece_on; lra]. apply Rmult_lt_reg_r with (INR n); lra. }
  destruct (Rle_lt_or_eq_dec _ _ (proj1 F)) as [L|L].
  - set (l := t - INR k / INR n). assert (Lp : 0 < l).
    { unfold l. apply Rlt_Rminus. apply Rmult_lt_reg_r with (INR n); [exact Pn|]. unfold Rdiv. rewrite Rmult_assoc, Rinv_l by lra. lra. }
    exists (Rmin l r), k, k. split; [apply Rmin_pos; assumption|]. split; [exact K|]. split; [lra|]. split; [left; reflexivity|]. split.
    + intros x X. assert (M := Rmin_l l r). assert (x > INR k / INR n) by (unfold l in *; lra).
      assert (INR k / INR n * INR n = INR k) by (field; lra).
      assert (INR k < x * INR n) by (assert (INR k / INR n * INR n < x * INR n) by (apply Rmult_lt_compat_r; lra); lra).
      assert (x * INR n < t * INR n) by (apply Rmult_lt_compat_r; lra).
      assert (0 <= INR k / INR n) by (apply Rmult_le_pos; [lra|left; apply Rinv_0_lt_compat; lra]).
      split; [lra|]. apply piece_on. lra.
    + intros x X. apply Right. assert (M := Rmin_r l r). lra.
  - destruct k as [|j]; [exfalso; cbn in L; assert (0 < t * INR n) by (apply Rmult_lt_0_compat; lra); lra|].
    exists (Rmin (/ INR n) r), j, (S j). assert (Ip : 0 < / INR n) by (apply Rinv_0_lt_compat; exact Pn).
    split; [apply Rmin_pos; assumption|]. split; [exact K|]. split; [lra|]. split; [right; split; [reflexivity|lra]|]. rewrite S_INR in *.
    assert (Jp : 0 <= INR j) by apply pos_INR. split.
    + intros x X. assert (M := Rmin_l (/ INR n) r). assert (x > t - / INR n) by lra.
      assert (E : (t - / INR n) * INR n = t * INR n - 1) by (field; lra).
      assert (INR j < x * INR n) by (assert ((t - / INR n) * INR n < x * INR n) by (apply Rmult_lt_compat_r; lra); lra).
      assert (x * INR n < t * INR n) by (apply Rmult_lt_compat_r; lra).
      split; [split; [|lra]|apply piece_on; lra]. apply Rmult_lt_reg_r with (INR n); lra.
    + intros x X. apply Right. assert (M := Rmin_r (/ INR n) r). lra.
Qed.
Lemma lin_deriv (g : R -> R) n k t l : derivable_pt_lim g (t * n - k) l -> derivable_pt_lim (fun x => g (x * n - k)) t (n * l).
Proof.
  intros H. replace (n * l) with (l * n) by ring. apply (derivable_pt_lim_comp (fun x => x * n - k) g); [|exact H].
  assert (D1 : derivable_pt_lim (fun x => x * n) t n).
  { assert (D := derivable_pt_lim_mult (fun x => x) (fun _ => n) t 1 0 (derivable_pt_lim_id t) (derivable_pt_lim_const n t)).
    cbn in D. replace (1 * n + t * 0) with n in D by ring. exact D. }
  assert (D2 := derivable_pt_lim_minus (fun x => x * n) (fun _ => k) t n 0 D1 (derivable_pt_lim_const k t)).
  rewrite Rminus_0_r in D2. exact D2.
Qed.
Lemma lin_cont (g : R -> R) n k t : continuity_pt g (t * n - k) -> continuity_pt (fun x => g (x * n - k)) t.
Proof.
  intros H. apply (continuity_pt_comp (fun x => x * n - k) g); [|exact H]. apply derivable_continuous_pt. exists (n * 1).
  apply (lin_deriv (fun x => x)). apply derivable_pt_lim_id.
Qed.
Lemma piece_deriv n P P' : (1 <= n)%nat -> (forall i x, derivable_pt_lim (P i) x (P' i x)) ->
  (forall i, (S i < n)%nat -> P i 1 = P (S i) 0 /\ P' i 1 = P' (S i) 0) ->
  forall f t, (forall x, 0 < x < 1 -> f x = piece n P x) -> 0 < t < 1 -> derivable_pt_lim f t (INR n * piece n P' t).
Proof.
  intros N D M f t F T. destruct (piece_near n P t N T) as (d & j & k & Dp & K & Fl & J & L & Rr).
  rewrite (piece_on n P' t k) by lra.
  apply (glue_deriv f (fun x => P j (x * INR n - INR j)) (fun x => P k (x * INR n - INR k)) t _ d Dp).
  - rewrite (F t T), (piece_on n P t k) by lra. destruct J as [->|[<- E]]; [reflexivity|]. rewrite E, S_INR.
    replace (INR j + 1 - (INR j + 1)) with 0 by ring. replace (INR j + 1 - INR j) with 1 by ring. symmetry. apply M. exact K.
  - rewrite (F t T), (piece_on n P t k) by lra. reflexivity.
  - intros x X. destruct (L x X) as [B E]. rewrite F by exact B. exact E.
  - intros x X. destruct (Rr x ltac:(lra)) as [B E]. rewrite F by exact B. exact E.
  - destruct J as [->|[<- E]]; [apply lin_deriv, D|]. replace (P' (S j) (t * INR n - INR (S j))) with (P' j (t * INR n - INR j)); [apply lin_deriv, D|].
    rewrite E, S_INR. replace (INR j + 1 - (INR j + 1)) with 0 by ring. replace (INR j + 1 - INR j) with 1 by ring. apply M. exact K.
  - apply lin_deriv, D.
Qed.
Lemma piece_cont n P : (1 <= n)%nat -> (forall i x, continuity_pt (P i) x) ->
  (forall i, (S i < n)%nat -> P i 1 = P (S i) 0) ->
  forall f t, (forall x, 0 < x < 1 -> f x = piece n P x) -> 0 < t < 1 -> continuity_pt f t.
Proof.
  intros N D M f t F T. destruct (piece_near n P t N T) as (d & j & k & Dp & K & Fl & J & L & Rr).
  apply (glue_cont f (fun x => P j (x * INR n - INR j)) (fun x => P k (x * INR n - INR k)) t d Dp).
  - rewrite (F t T), (piece_on n P t k) by lra. destruct J as [->|[<- E]]; [reflexivity|]. rewrite E, S_INR.
    replace (INR j + 1 - (INR j + 1)) with 0 by ring. replace (INR j + 1 - INR j) with 1 by ring. symmetry. apply M. exact K.
  - rewrite (F t T), (piece_on n P t k) by lra. reflexivity.
  - intros x X. destruct (L x X) as [B E]. rewrite F by exact B. exact E.
  - intros x X. destruct (Rr x ltac:(lra)) as [B E]. rewrite F by exact B. exact E.
  - apply lin_cont, D.
  - apply lin_cont, D.
Qed.

(** ** Cubic pieces *)

Definition cubic (a b c d x : R) : R := a + x * b + x * (x * c) + x * (x * (x * d)).
Lemma cubic_deriv a b c d x : derivable_pt_lim (cubic a b c d) x (cubic b (2 * c) (3 * d) 0 x).
Proof.
  unfold cubic.
  assert (I := derivable_pt_lim_id x). unfold id in I.
  assert (C : forall k, derivable_pt_lim (fun _ => k) x 0) by (intros; apply derivable_pt_lim_const).
  assert (X1 : forall k, derivable_pt_lim (fun x => x * k) x k).
  { intros k. assert (D := derivable_pt_lim_mult (fun x => x) (fun _ => k) x 1 0 I (C k)). cbn in D.
    replace (1 * k + x * 0) with k in D by ring. exact D. }
  assert (X2 : forall k, derivable_pt_lim (fun x => x * (x * k)) x (2 * x * k)).
  { intros k. replace (2 * x * k) with (1 * (x * k) + x * k) by ring. apply (derivable_pt_lim_mult (fun x => x) (fun x => x * k)); auto. }
  assert (X3 : forall k, derivable_pt_lim (fun x => x * (x * (x * k))) x (3 * x * x * k)).
  { intros k. replace (3 * x * x * k) with (1 * (x * (x * k)) + x * (2 * x * k)) by ring. apply (derivable_pt_lim_mult (fun x => x) (fun x => x * (x * k))); auto. }
  replace (b + x * (2 * c) + x * (x * (3 * d)) + x * (x * (x * 0))) with (0 + b + 2 * x * c + 3 * x * x * d) by ring.
  apply (derivable_pt_lim_plus (fun x => a + x * b + x * (x * c)) (fun x => x * (x * (x * d)))); [|apply X3].
  apply (derivable_pt_lim_plus (fun x => a + x * b) (fun x => x * (x * c))); [|apply X2].
  apply (derivable_pt_lim_plus (fun _ => a) (fun x => x * b)); [apply C|apply X1].
Qed.
Lemma cubic_cont a b c d x : continuity_pt (cubic a b c d) x.
Proof. apply derivable_continuous_pt. eexists. apply cubic_deriv. Qed.

(** ** The linear system *)

Lemma sv_range i : 0 < sv i <= 1 / 2.
Proof.
  induction i; cbn [sv]; [lra|]. assert (4 - sv i > 0) by lra. split; [apply Rdiv_lt_0_compat; lra|].
  apply Rmult_le_reg_r with (4 - sv i); [lra|]. unfold Rdiv. rewrite Rmult_assoc, Rinv_l by lra. lra.
Qed.
Section System.
Variable x : list R.
Variable e : R.
Lemma ss_last : ss x e (num x - 1) = sq x e (num x - 1).
Proof. unfold ss. rewrite Nat.sub_diag. reflexivity. Qed.
Lemma ss_step i : (S i < num x)%nat -> ss x e i = sq x e i - sv i * ss x e (S i).
Proof.
  intros H. unfold ss. replace (num x - 1 - i)%nat with (S (num x - 1 - S i)) by lia. cbn [sdown].
  replace (num x - 1 - S (num x - 1 - S i))%nat with i by lia. reflexivity.
Qed.
End System.
Lemma sq_inner x i : (1 <= i)%nat -> (S i < num x)%nat -> sq x 1 i * (4 - sv (i - 1)) = sy x i - sq x 1 (i - 1).
Proof.
  intros I H. destruct i as [|j]; [lia|]. cbn [sq]. replace (S j - 1)%nat with j by lia.
  replace (S j =? num x - 1)%nat with false by (symmetry; apply Nat.eqb_neq; lia). cbn [sv]. assert (R := sv_range j). field. lra.
Qed.
Lemma sq_end x : (2 <= num x)%nat -> sq x 1 (num x - 1) * (2 - sv (num x - 2)) = sy x (num x - 1) - sq x 1 (num x - 2).
Proof.
  intros I. replace (num x - 2)%nat with (num x - 1 - 1)%nat by lia. remember (num x - 1)%nat as k eqn:E. destruct k as [|j]; [lia|]. cbn [sq].
  replace (S j =? num x - 1)%nat with true by (symmetry; apply Nat.eqb_eq; lia). replace (S j - 1)%nat with j by lia. assert (R := sv_range j). field. lra.
Qed.
Lemma system_first x : (2 <= num x)%nat -> 2 * ss x 1 0 + ss x 1 1 = 3 * (px x 1 - px x 0).
Proof. intros H. rewrite (ss_step x 1 0%nat) by lia. cbn [sq sv]. unfold sy. cbn [Nat.eqb]. lra. Qed.
Lemma system_last x : (2 <= num x)%nat -> ss x 1 (num x - 2) + 2 * ss x 1 (num x - 1) = 3 * (px x (num x - 1) - px x (num x - 2)).
Proof.
  intros H. rewrite (ss_step x 1 (num x - 2)) by lia. replace (S (num x - 2)) with (num x - 1)%nat by lia. rewrite ss_last.
  assert (E := sq_end x H). unfold sy in E. replace (num x - 1 =? 0)%nat with false in E by (symmetry; apply Nat.eqb_neq; lia).
  rewrite Nat.eqb_refl in E. lra.
Qed.
Lemma system_inner x i : (1 <= i)%nat -> (S i < num x)%nat ->
  ss x 1 (i - 1) + 4 * ss x 1 i + ss x 1 (S i) = 3 * (px x (S i) - px x (i - 1)).
Proof.
  intros I H. assert (E := sq_inner x i I H). unfold sy in E. replace (i =? 0)%nat with false in E by (symmetry; apply Nat.eqb_neq; lia).
  replace (i =? num x - 1)%nat with false in E by (symmetry; apply Nat.eqb_neq; lia). replace (i + 1)%nat with (S i) in E by lia.
  rewrite (ss_step x 1 (i - 1)) by lia. replace (S (i - 1)) with i by lia.
  assert (F := ss_step x 1 i H). assert (R := sv_range (i - 1)).
  assert (V : sv i * (4 - sv (i - 1)) = 1). { destruct i as [|j]; [lia|]. cbn [sv]. replace (S j - 1)%nat with j in * by lia. field. lra. }
  replace (sq x 1 i) with (ss x 1 i + sv i * ss x 1 (S i)) in E by lra.
  replace ((ss x 1 i + sv i * ss x 1 (S i)) * (4 - sv (i - 1))) with (ss x 1 i * (4 - sv (i - 1)) + ss x 1 (S i) * (sv i * (4 - sv (i - 1)))) in E by ring.
  rewrite V in E. lra.
Qed.

(** ** The spline in one dimension *)
Definition seg (x : list R) (e : R) (i : nat) : R -> R := cubic (coeff0 x i) (coeff1 x e i) (coeff2 x e i) (coeff3 x e i).
Definition seg' (x : list R) (e : R) (i : nat) : R -> R := cubic (coeff1 x e i) (2 * coeff2 x e i) (3 * coeff3 x e i) 0.
Definition seg'' (x : list R) (e : R) (i : nat) : R -> R := cubic (2 * coeff2 x e i) (2 * (3 * coeff3 x e i)) (3 * 0) 0.
Lemma seg_0 x e i : seg x e i 0 = px x i.
Proof. unfold seg, cubic, coeff0. ring. Qed.
Lemma seg_1 x e i : seg x e i 1 = px x (S i).
Proof. unfold seg, cubic, coeff0, coeff1, coeff2, coeff3. replace (i + 1)%nat with (S i) by lia. ring. Qed.
Lemma seg'_0 x e i : seg' x e i 0 = ss x e i.
Proof. unfold seg', cubic, coeff1. ring. Qed.
Lemma seg'_1 x e i : seg' x e i 1 = ss x e (S i).
Proof. unfold seg', cubic, coeff1, coeff2, coeff3. replace (i + 1)%nat with (S i) by lia. ring. Qed.
Lemma seg''_match x i : (S (S i) < num x)%nat -> seg'' x 1 i 1 = seg'' x 1 (S i) 0.
Proof.
  intros H. unfold seg'', cubic, coeff2, coeff3. replace (i + 1)%nat with (S i) by lia. replace (S i + 1)%nat with (S (S i)) by lia.
  assert (E := system_inner x (S i) ltac:(lia) H). replace (S i - 1)%nat with i in E by lia. lra.
Qed.
Lemma seg''_first x : (2 <= num x)%nat -> seg'' x 1 0 0 = 0.
Proof. intros H. assert (E := system_first x H). unfold seg'', cubic, coeff2, coeff3. cbn [plus]. lra. Qed.
Lemma seg''_last x : (2 <= num x)%nat -> seg'' x 1 (num x - 2) 1 = 0.
Proof.
  intros H. assert (E := system_last x H). unfold seg'', cubic, coeff2, coeff3. replace (num x - 2 + 1)%nat with (num x - 1)%nat by lia. lra.
Qed.
