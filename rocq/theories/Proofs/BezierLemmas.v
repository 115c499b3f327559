From Coq Require Import ZArith Reals List Bool Lia Lra Psatz.
From Verif Require Import Model.Vec Model.Bezier Spec.BezierSpec Proofs.VecLemmas.
Import ListNotations.
Local Open Scope R_scope.

(** ** Binomial coefficients *)

Lemma choose_0 n : choose n 0 = 1%Z. Proof. destruct n; reflexivity. Qed.
Lemma choose_lt n : forall i, (n < i)%nat -> choose n i = 0%Z.
Proof.
  induction n; intros [|i] H; try lia; cbn [choose]; [reflexivity|]. rewrite !IHn by lia. reflexivity.
Qed.
Lemma choose_n n : choose n n = 1%Z.
Proof. induction n; [reflexivity|]. cbn [choose]. rewrite IHn, (choose_lt n (S n)) by lia. reflexivity. Qed.
Lemma choose_ge n : forall i, (0 <= choose n i)%Z.
Proof. induction n; intros [|i]; cbn [choose]; try lia. assert (H := IHn i). assert (K := IHn (S i)). lia. Qed.
Lemma choose_1 n : choose n 1 = Z.of_nat n.
Proof. induction n; [reflexivity|]. cbn [choose]. rewrite IHn, choose_0. lia. Qed.
Lemma choose_sym n : forall i, (i <= n)%nat -> choose n i = choose n (n - i).
Proof.
  induction n; intros i H; [replace i with O by lia; reflexivity|].
  destruct i; [rewrite Nat.sub_0_r, choose_n, choose_0; reflexivity|].
  destruct (Nat.eq_dec i n) as [->|E]; [rewrite Nat.sub_diag, choose_n, choose_0; reflexivity|].
  replace (S n - S i)%nat with (S (n - S i)) by lia. cbn [choose].
  rewrite (IHn i), (IHn (S i)) by lia. replace (n - i)%nat with (S (n - S i)) by lia. lia.
Qed.

Definition coeff_ok (n : nat) : bool :=
  forallb (fun i => match binomial64 i n with Some c => (c =? choose n i)%Z | None => false end) (seq 0 (S n)).
Lemma coeff_ok_20 : forallb coeff_ok (seq 0 21) = true.
Proof. vm_compute. reflexivity. Qed.
Lemma binomial64_exact i n : (i <= n <= 20)%nat -> binomial64 i n = Some (choose n i).
Proof.
  intros H. assert (K := coeff_ok_20). rewrite forallb_forall in K. specialize (K n). rewrite in_seq in K.
  specialize (K ltac:(lia)). unfold coeff_ok in K. rewrite forallb_forall in K. specialize (K i). rewrite in_seq in K.
  specialize (K ltac:(lia)). destruct (binomial64 i n); [|discriminate]. apply Z.eqb_eq in K. subst; reflexivity.
Qed.

Lemma factorial64_S m : factorial64 (S (S m)) = ((Z.of_nat (S (S m)) * factorial64 (S m)) mod w64)%Z.
Proof. reflexivity. Qed.
Lemma factorial64_big n : (66 <= n)%nat -> factorial64 n = 0%Z.
Proof.
  intros H. replace n with (66 + (n - 66))%nat by lia. generalize (n - 66)%nat as k. clear. induction k; [vm_compute; reflexivity|].
  replace (66 + S k)%nat with (S (S (65 + k))) by lia. rewrite factorial64_S.
  replace (S (65 + k)) with (66 + k)%nat by lia. rewrite IHk, Z.mul_0_r. apply Zmod_0_l.
Qed.
Lemma binomial64_big n : (66 <= n)%nat -> binomial64 0 n = None.
Proof. intros H. unfold binomial64. rewrite Nat.sub_0_r, (factorial64_big n H), Z.mul_0_r, Zmod_0_l. reflexivity. Qed.
Lemma choose_2 n : (2 * choose n 2 = Z.of_nat n * (Z.of_nat n - 1))%Z.
Proof. induction n; [reflexivity|]. cbn [choose]. rewrite choose_1. change (choose n 2) with (choose n 2). nia. Qed.
Lemma binomial64_wrong n c : (21 <= n <= 65)%nat -> binomial64 2 n = Some c -> (2 * c <> Z.of_nat n * (Z.of_nat n - 1))%Z.
Proof.
  intros H E F.
  assert (K : forallb (fun n => match binomial64 2 n with Some c => negb (2 * c =? Z.of_nat n * (Z.of_nat n - 1))%Z | None => true end) (seq 21 45) = true)
    by (vm_compute; reflexivity).
  rewrite forallb_forall in K. specialize (K n). rewrite in_seq in K. specialize (K ltac:(lia)). rewrite E, F, Z.eqb_refl in K. discriminate.
Qed.
Lemma exact_degrees n : (forall i, (i <= n)%nat -> binomial64 i n = Some (choose n i)) <-> (n <= 20)%nat.
Proof.
  split; intros H.
  - destruct (Nat.le_gt_cases n 20) as [|L]; [assumption|exfalso]. destruct (Nat.le_gt_cases 66 n) as [B|B].
    + assert (E := H O ltac:(lia)). rewrite binomial64_big in E by assumption. discriminate.
    + apply (binomial64_wrong n (choose n 2)); [lia|apply H; lia|apply choose_2].
  - intros i Hi. apply binomial64_exact. lia.
Qed.

(** ** The basis *)

Fixpoint B (t : R) (n i : nat) : R :=
  match n, i with
  | O, O => 1
  | O, S _ => 0
  | S m, O => (1 - t) * B t m O
  | S m, S j => (1 - t) * B t m (S j) + t * B t m j
  end.
Lemma B_lt t n : forall i, (n < i)%nat -> B t n i = 0.
Proof. induction n; intros [|i] H; try lia; cbn [B]; [reflexivity|]. rewrite !IHn by lia. ring. Qed.
Lemma B_choose t n : forall i, (i <= n)%nat -> B t n i = IZR (choose n i) * t ^ i * (1 - t) ^ (n - i).
Proof.
  induction n; intros i H; [replace i with O by lia; cbn; ring|].
  destruct i as [|j].
  - cbn [B]. rewrite IHn, !choose_0, !Nat.sub_0_r by lia. cbn [pow]. ring.
  - cbn [B]. rewrite (IHn j) by lia. cbn [choose]. rewrite plus_IZR. replace (S n - S j)%nat with (n - j)%nat by lia.
    destruct (Nat.eq_dec j n) as [->|E].
    + rewrite B_lt, (choose_lt n (S n)), Nat.sub_diag by lia. cbn [pow]. ring.
    + rewrite (IHn (S j)) by lia. replace (n - j)%nat with (S (n - S j)) by lia. cbn [pow]. ring.
Qed.
Lemma B_ge t n : 0 <= t <= 1 -> forall i, 0 <= B t n i.
Proof.
  intros T. induction n; intros [|i]; cbn [B]; try lra.
  - apply Rmult_le_pos; [lra|apply IHn].
  - apply Rplus_le_le_0_compat; apply Rmult_le_pos; try apply IHn; lra.
Qed.
Lemma bernstein_B t i n : (i <= n)%nat -> (1 <= n <= 20)%nat -> bernstein t i n = Some (B t n i).
Proof.
  intros Hi Hn. unfold bernstein. replace (i <=? n)%nat with true by (symmetry; apply Nat.leb_le; lia).
  replace (0 <? n)%nat with true by (symmetry; apply Nat.ltb_lt; lia). cbn [andb].
  rewrite binomial64_exact by lia. rewrite B_choose by lia. reflexivity.
Qed.
Lemma B_sym t n i : (i <= n)%nat -> B t n i = B (1 - t) n (n - i).
Proof.
  intros H. rewrite !B_choose by lia. rewrite (choose_sym n i H). replace (n - (n - i))%nat with i by lia.
  replace (1 - (1 - t)) with t by ring. ring.
Qed.
Lemma B_at_0 n i : B 0 n i = if (i =? 0)%nat then 1 else 0.
Proof. revert i; induction n; intros [|i]; cbn [B Nat.eqb]; try reflexivity; rewrite ?IHn; cbn [Nat.eqb]; ring. Qed.
Lemma B_at_1 n : forall i, B 1 n i = if (i =? n)%nat then 1 else 0.
Proof. induction n; intros [|i]; cbn [B Nat.eqb]; try reflexivity; rewrite ?IHn; ring. Qed.

(** Sums over the basis *)
Fixpoint total (f : nat -> R) (i k : nat) : R := match k with O => 0 | S k' => f i + total f (S i) k' end.
Lemma total_map f i k : total f i k = fold_right Rplus 0 (map f (seq i k)).
Proof. revert i; induction k; intros i; cbn; [reflexivity|]. rewrite IHk. reflexivity. Qed.
Lemma total_B t n : forall i k, total (B t (S n)) (S i) k = total (B t n) (S i) k * (1 - t) + total (B t n) i k * t.
Proof. intros i k. revert i. induction k; intros i; cbn [total]; [ring|]. rewrite IHk. cbn [B]. ring. Qed.
Lemma total_last f i k : total f i (S k) = total f i k + f (i + k)%nat.
Proof.
  revert i; induction k; intros i; [cbn; rewrite Nat.add_0_r; ring|].
  change (total f i (S (S k))) with (f i + total f (S i) (S k)). rewrite IHk. cbn [total].
  replace (S i + k)%nat with (i + S k)%nat by lia. ring.
Qed.
Lemma unity t n : total (B t n) 0 (S n) = 1.
Proof.
  induction n; [cbn; ring|].
  change (total (B t (S n)) 0 (S (S n))) with (B t (S n) 0 + total (B t (S n)) 1 (S n)).
  rewrite total_B, IHn. cbn [B]. replace (total (B t n) 1 (S n)) with (1 - B t n 0); [ring|].
  assert (E := total_last (B t n) 0 (S n)). rewrite IHn in E. cbn [total plus] in E.
  rewrite (B_lt t n (S n)) in E by lia. cbn [total]. lra.
Qed.

(** ** Curves *)

Fixpoint wsum (f : nat -> R) (i : nat) (ps : list vec3) : vec3 :=
  match ps with [] => vzero | p :: r => vadd (vscale (f i) p) (wsum f (S i) r) end.
Ltac vcoords := apply vec3_ext; cbn [vx vy vz].

Lemma vadd_0_l v : vadd vzero v = v. Proof. destruct v as [a b c]; unfold vadd, vzero; cbn; f_equal; ring. Qed.
Lemma vadd_assoc a b c : vadd (vadd a b) c = vadd a (vadd b c). Proof. unfold vadd; cbn; f_equal; ring. Qed.
Lemma vadd_0_r v : vadd v vzero = v. Proof. destruct v as [a b c]; unfold vadd, vzero; cbn; f_equal; ring. Qed.
Lemma vscale_0 v : vscale 0 v = vzero. Proof. unfold vscale, vzero; f_equal; ring. Qed.
Lemma vscale_1 v : vscale 1 v = v. Proof. destruct v as [a b c]; unfold vscale; cbn; f_equal; ring. Qed.

Lemma curve_from_wsum t n ps : (1 <= n <= 20)%nat -> forall i acc, (i + length ps <= S n)%nat ->
  curve_from t n i ps acc = Some (vadd acc (wsum (B t n) i ps)).
Proof.
  intros Hn. induction ps as [|p r IH]; intros i acc H; cbn [curve_from wsum length] in *; [rewrite vadd_0_r; reflexivity|].
  rewrite bernstein_B by lia. rewrite IH by lia. f_equal. apply vadd_assoc.
Qed.
Lemma curve_wsum ps t : (2 <= length ps <= 21)%nat -> curve ps t = Some (wsum (B t (length ps - 1)) 0 ps).
Proof. intros H. unfold curve. rewrite curve_from_wsum by lia. rewrite vadd_0_l. reflexivity. Qed.

(** one step of de Casteljau *)
Definition prevB (t : R) (n i : nat) : R := match i with O => 0 | S j => t * B t n j end.
Lemma wsum_step t n : forall r p i,
  wsum (B t (S n)) i (p :: r) =
  vadd (vadd (vscale (prevB t n i) p) (wsum (B t n) i (lerps t (p :: r)))) (vscale ((1 - t) * B t n (i + length r)) (last (p :: r) p)).
Proof.
  induction r as [|q r IH]; intros p i.
  - cbn [lerps wsum length last]. rewrite Nat.add_0_r. destruct i; cbn [B prevB]; unfold vadd, vscale, vzero; cbn [vx vy vz]; f_equal; ring.
  - change (wsum (B t (S n)) i (p :: q :: r)) with (vadd (vscale (B t (S n) i) p) (wsum (B t (S n)) (S i) (q :: r))).
    rewrite (IH q (S i)). change (lerps t (p :: q :: r)) with (lerp3 p q t :: lerps t (q :: r)).
    cbn [wsum]. replace (i + length (q :: r))%nat with (S i + length r)%nat by (cbn; lia).
    replace (last (p :: q :: r) p) with (last (q :: r) q).
    2:{ change (last (p :: q :: r) p) with (last (q :: r) p). clear. revert p q. induction r as [|x r IH]; intros p q; [reflexivity|].
        change (last (q :: x :: r) q) with (last (x :: r) q). change (last (q :: x :: r) p) with (last (x :: r) p).
        rewrite <- (IH q x), <- (IH p x). reflexivity. }
    generalize (wsum (B t n) (S i) (lerps t (q :: r))) as W. generalize (last (q :: r) q) as L. generalize ((1 - t) * B t n (S i + length r)) as c.
    intros c [l1 l2 l3] [w1 w2 w3]. destruct p as [p1 p2 p3], q as [q1 q2 q3].
    assert (E : B t (S n) i = (1 - t) * B t n i + prevB t n i) by (destruct i; cbn [B prevB]; ring). rewrite E.
    cbn [prevB]. unfold lerp3, vadd, vsub, vscale; cbn [vx vy vz]. f_equal; ring.
Qed.
Lemma lerps_length t ps : length (lerps t ps) = (length ps - 1)%nat.
Proof.
  induction ps as [|a r IH]; [reflexivity|]. destruct r as [|b r]; [reflexivity|].
  change (lerps t (a :: b :: r)) with (lerp3 a b t :: lerps t (b :: r)). cbn [length] in *. rewrite IH. lia.
Qed.
Lemma wsum_casteljau t n : forall ps, length ps = S n -> casteljau n t ps = [wsum (B t n) 0 ps].
Proof.
  induction n; intros ps H.
  - destruct ps as [|p [|q r]]; try discriminate. cbn. rewrite vscale_1, vadd_0_r. reflexivity.
  - cbn [casteljau]. rewrite IHn by (rewrite lerps_length; lia). destruct ps as [|p r]; [discriminate|].
    cbn [length] in H. rewrite (wsum_step t n r p 0). cbn [prevB plus]. rewrite B_lt by lia.
    rewrite Rmult_0_r, !vscale_0, vadd_0_l, vadd_0_r. reflexivity.
Qed.

(** ends *)
Lemma wsum_ext f g ps : forall i, (forall k, (i <= k < i + length ps)%nat -> f k = g k) -> wsum f i ps = wsum g i ps.
Proof.
  induction ps as [|p r IH]; intros i H; [reflexivity|]. cbn [wsum]. rewrite (H i), (IH (S i)); [reflexivity|..]; intros; try apply H; cbn [length]; lia.
Qed.
Lemma wsum_zero f ps : forall i, (forall k, (i <= k < i + length ps)%nat -> f k = 0) -> wsum f i ps = vzero.
Proof.
  induction ps as [|p r IH]; intros i H; [reflexivity|]. cbn [wsum]. rewrite (H i), (IH (S i)); [|intros; apply H; cbn [length]; lia|cbn [length]; lia].
  rewrite vscale_0, vadd_0_l. reflexivity.
Qed.
Lemma wsum_at_0 n ps d : wsum (B 0 n) 0 ps = match ps with [] => vzero | _ => hd d ps end.
Proof.
  destruct ps as [|p r]; [reflexivity|]. cbn [wsum hd]. rewrite (wsum_zero _ r 1).
  - rewrite B_at_0. cbn [Nat.eqb]. rewrite vscale_1, vadd_0_r. reflexivity.
  - intros k H. rewrite B_at_0. replace (k =? 0)%nat with false by (symmetry; apply Nat.eqb_neq; lia). reflexivity.
Qed.
Lemma wsum_at_1 d : forall ps n i, n = (i + length ps - 1)%nat -> ps <> [] -> wsum (B 1 n) i ps = last ps d.
Proof.
  induction ps as [|p r IH]; intros n i H N; [contradiction|]. cbn [wsum]. destruct r as [|q r].
  - cbn [wsum length last] in *. rewrite B_at_1. replace (i =? n)%nat with true by (symmetry; apply Nat.eqb_eq; lia).
    rewrite vscale_1, vadd_0_r. reflexivity.
  - rewrite (IH n (S i)); [|cbn [length] in *; lia|discriminate]. rewrite B_at_1.
    replace (i =? n)%nat with false by (symmetry; apply Nat.eqb_neq; cbn [length] in *; lia).
    rewrite vscale_0, vadd_0_l. reflexivity.
Qed.

(** convexity *)
Lemma wsum_dot m f ps : forall i, dot m (wsum f i ps) = fold_right Rplus 0 (map (fun kp => f (fst kp) * dot m (snd kp)) (combine (seq i (length ps)) ps)).
Proof.
  induction ps as [|p r IH]; intros i; cbn [wsum length seq combine map fold_right fst snd].
  - unfold dot, vzero; cbn; ring.
  - rewrite dot_add_r, dot_scale_r, IH. reflexivity.
Qed.
Lemma wsum_bound m d f ps : (forall k, 0 <= f k) -> Forall (half_space m d) ps -> forall i, dot m (wsum f i ps) <= d * total f i (length ps).
Proof.
  intros F. induction 1 as [|p r Hp Hr IH]; intros i; cbn [wsum length total].
  - unfold dot, vzero; cbn; lra.
  - rewrite dot_add_r, dot_scale_r. specialize (IH (S i)). unfold half_space in Hp. specialize (F i). nra.
Qed.
Lemma wsum_half_space m d t ps : 0 <= t <= 1 -> ps <> [] -> Forall (half_space m d) ps ->
  half_space m d (wsum (B t (length ps - 1)) 0 ps).
Proof.
  intros T N F. unfold half_space. assert (H := wsum_bound m d (B t (length ps - 1)) ps (B_ge t _ T) F 0%nat).
  destruct ps as [|p r]; [contradiction|]. cbn [length] in *. replace (S (length r) - 1)%nat with (length r) in * by lia.
  rewrite unity in H. lra.
Qed.

(** affine maps *)
Lemma affine_lerps f t ps : affine f -> lerps t (map f ps) = map f (lerps t ps).
Proof.
  intros A. induction ps as [|a r IH]; [reflexivity|]. destruct r as [|b r]; [reflexivity|].
  change (lerps t (map f (a :: b :: r))) with (lerp3 (f a) (f b) t :: lerps t (map f (b :: r))). rewrite IH.
  change (lerps t (a :: b :: r)) with (lerp3 a b t :: lerps t (b :: r)). cbn [map]. rewrite A. reflexivity.
Qed.
Lemma affine_casteljau f t n : affine f -> forall ps, casteljau n t (map f ps) = map f (casteljau n t ps).
Proof. intros A. induction n; intros ps; [reflexivity|]. cbn [casteljau]. rewrite affine_lerps by assumption. apply IHn. Qed.

(** reversal *)
Lemma wsum_app f : forall a i b, wsum f i (a ++ b) = vadd (wsum f i a) (wsum f (i + length a) b).
Proof.
  induction a as [|p r IH]; intros i b; cbn [app wsum length]; [rewrite Nat.add_0_r, vadd_0_l; reflexivity|].
  rewrite IH, vadd_assoc. replace (i + S (length r))%nat with (S i + length r)%nat by lia. reflexivity.
Qed.
Lemma wsum_rev f g : forall ps i n, (forall k, (i <= k < i + length ps)%nat -> f k = g (n - k)%nat) -> (i + length ps <= S n)%nat ->
  wsum f i ps = wsum g (S n - i - length ps) (rev ps).
Proof.
  induction ps as [|p r IH]; intros i n H L; [reflexivity|]. cbn [wsum rev length] in *.
  rewrite wsum_app. cbn [wsum]. rewrite rev_length, (IH (S i) n) by (intros; try apply H; lia). rewrite (H i) by lia.
  replace (S n - i - S (length r) + length r)%nat with (n - i)%nat by lia.
  replace (S n - S i - length r)%nat with (S n - i - S (length r))%nat by lia.
  rewrite vadd_0_r. unfold vadd; f_equal; ring.
Qed.
