(** Bezier patches in double precision: the double loop as one sum, its error, and its sides. *)
From Coq Require Import ZArith Reals List Bool Arith Lia Lra Psatz.
From Flocq Require Import Core IEEE754.BinarySingleNaN.
From Verif Require Import Model.Scalar Model.Vec Model.BoxFloat Model.PlaneFloat Model.Bezier Model.BezierFloat Model.BezierPatchFloat.
From Verif Require Import Spec.FloatSpec Spec.ClipFloatSpec Spec.SplineSpec Spec.BezierSpec Spec.BezierFloatSpec Spec.UniformSplineFloatSpec Spec.BezierPatchFloatSpec.
From Verif Require Import Proofs.VecLemmas Proofs.PlaneFloatLemmas Proofs.SplineFloat Proofs.ClipFloatLemmas Proofs.KeyframeFloatLemmas Proofs.MeshFloatLemmas.
From Verif Require Import Proofs.UniformSplineEval Proofs.UniformSplineFloatLemmas Proofs.UniformSplineFloatEval.
From Verif Require Proofs.BSplineFloatEval.
From Verif Require Import Proofs.BezierLemmas Proofs.BezierPatchLemmas Proofs.BezierFloatLemmas.
Import ListNotations.
Local Open Scope R_scope.

(** Sums of weighted numbers, in double precision and as rounded reals *)
Fixpoint lacc (l : list (b64 * b64)) (a : b64) : b64 := match l with [] => a | (p, w) :: l' => lacc l' (b64_add a (b64_mul p w)) end.
Fixpoint racc (l : list (R * R)) (a : R) : R := match l with [] => a | (p, w) :: l' => racc l' (rnd (a + rnd (p * w))) end.
Lemma lacc_app l l' a : lacc (l ++ l') a = lacc l' (lacc l a).
Proof. revert a. induction l as [|[p w] l IH]; intros a; cbn [app lacc]; [reflexivity|apply IH]. Qed.
Lemma racc_app l l' a : racc (l ++ l') a = racc l' (racc l a).
Proof. revert a. induction l as [|[p w] l IH]; intros a; cbn [app racc]; [reflexivity|apply IH]. Qed.

Lemma mul_value (x y : b64) : is_finite (b64_mul x y) = true -> B2R (b64_mul x y) = rnd (B2R x * B2R y).
Proof.
  intros F. assert (C := Bmult_correct 53 1024 b64_prec_gt_0 b64_prec_lt_emax mode_NE x y). fold (b64_mul x y) in C. change (SpecFloat.fexp 53 1024) with f64 in C. cbn [round_mode] in C.
  destruct (Rlt_bool _ _); [exact (proj1 C)|]. destruct (b64_mul x y) as [s|s| |s m e H]; try discriminate F; discriminate C.
Qed.
Lemma add_value (x y : b64) : is_finite (b64_add x y) = true -> is_finite x = true /\ is_finite y = true /\ B2R (b64_add x y) = rnd (B2R x + B2R y).
Proof.
  intros F. assert (Fx : is_finite x = true).
  { destruct x as [s|s| |s m e H]; try reflexivity; exfalso; destruct y as [r|r| |r k g Q]; try discriminate F. cbn in F. destruct (Bool.eqb s r); discriminate F. }
  assert (Fy : is_finite y = true).
  { destruct y as [s|s| |s m e H]; try reflexivity; exfalso; destruct x as [r|r| |r k g Q]; try discriminate F; discriminate Fx. }
  split; [exact Fx|]. split; [exact Fy|].
  assert (C := Bplus_correct 53 1024 b64_prec_gt_0 b64_prec_lt_emax mode_NE x y Fx Fy). fold (b64_add x y) in C. change (SpecFloat.fexp 53 1024) with f64 in C. cbn [round_mode] in C.
  destruct (Rlt_bool _ _); [exact (proj1 C)|]. destruct C as [C _]. destruct (b64_add x y) as [s|s| |s m e H]; try discriminate F; discriminate C.
Qed.
Definition values (l : list (b64 * b64)) : list (R * R) := map (fun a : b64 * b64 => (B2R (fst a), B2R (snd a))) l.
Lemma lacc_finite l a : is_finite (lacc l a) = true -> is_finite a = true /\ B2R (lacc l a) = racc (values l) (B2R a).
Proof.
  revert a. induction l as [|[p w] l IH]; intros a F; cbn [lacc values map racc fst snd] in *; [split; [exact F|reflexivity]|].
  destruct (IH _ F) as [F1 V1]. destruct (add_value _ _ F1) as (Fa & Fm & Va). split; [exact Fa|]. unfold values in V1. rewrite V1, Va, (mul_value _ _ Fm). reflexivity.
Qed.

(** Terms without weight do not count. *)
Lemma racc_zeros l a : rnd a = a -> (forall x, In x l -> snd x = 0) -> racc l a = a.
Proof.
  intros A. induction l as [|[p w] l IH]; intros H; cbn [racc]; [reflexivity|]. rewrite (H (p, w) (or_introl eq_refl) : w = 0), Rmult_0_r, rnd_0, Rplus_0_r, A. apply IH. intros x X. apply H. now right.
Qed.
Lemma rnd_rnd x : rnd (rnd x) = rnd x.
Proof. assert (V := valid64). apply round_generic; auto with typeclass_instances. apply generic_format_round; auto with typeclass_instances. Qed.
Lemma racc_format l a : rnd a = a -> rnd (racc l a) = racc l a.
Proof. revert a. induction l as [|[p w] l IH]; intros a A; cbn [racc]; [exact A|]. apply IH. apply rnd_rnd. Qed.

(** The error of such a sum *)
Lemma lacc_facc (w : Z -> b64) : forall l j a, (forall k x, nth_error l k = Some x -> w (j + Z.of_nat k)%Z = snd x) -> BSplineFloatEval.facc w (map fst l) j a = lacc l a.
Proof.
  induction l as [|[p x] l IH]; intros j a H; cbn [map fst BSplineFloatEval.facc lacc]; [reflexivity|].
  replace (w j) with x by (specialize (H O (p, x) eq_refl); rewrite Z.add_0_r in H; symmetry; exact H). apply IH. intros k y Y. replace (j + 1 + Z.of_nat k)%Z with (j + Z.of_nat (S k))%Z by lia. now apply H.
Qed.
Fixpoint esum (l : list (R * R)) : R := match l with [] => 0 | (p, w) :: l' => w * p + esum l' end.
Fixpoint tsum (l : list R) : R := match l with [] => 0 | w :: l' => w + tsum l' end.
Lemma esum_app l l' : esum (l ++ l') = esum l + esum l'.
Proof. induction l as [|[p w] l IH]; cbn [app esum]; [ring|]. rewrite IH. ring. Qed.
Lemma tsum_app l l' : tsum (l ++ l') = tsum l + tsum l'.
Proof. induction l as [|w l IH]; cbn [app tsum]; [ring|]. rewrite IH. ring. Qed.

(** A term with its exact weight *)
Notation term := ((b64 * b64) * R)%type.
Definition tp (x : term) : b64 := fst (fst x).
Definition tw (x : term) : b64 := snd (fst x).
Lemma eacc_esum (W : Z -> R) : forall (l : list term) j, (forall k x, nth_error l k = Some x -> W (j + Z.of_nat k)%Z = snd x) ->
  BSplineFloatEval.eacc W (map (fun p : b64 => B2R p) (map fst (map fst l))) j = esum (map (fun x => (B2R (tp x), snd x)) l).
Proof.
  induction l as [|[[p w] v] l IH]; intros j H; cbn [map fst snd BSplineFloatEval.eacc esum tp]; [reflexivity|].
  replace (W j) with v by (specialize (H O (p, w, v) eq_refl); rewrite Z.add_0_r in H; symmetry; exact H). f_equal. apply IH. intros k y Y. replace (j + 1 + Z.of_nat k)%Z with (j + Z.of_nat (S k))%Z by lia. now apply H.
Qed.
Lemma wsum_tsum (W : Z -> R) : forall (l : list term) j, (forall k x, nth_error l k = Some x -> W (j + Z.of_nat k)%Z = snd x) ->
  BSplineFloatEval.wsum W (length l) j = tsum (map snd l).
Proof.
  induction l as [|x l IH]; intros j H; cbn [map length BSplineFloatEval.wsum tsum]; [reflexivity|].
  replace (W j) with (snd x) by (specialize (H O x eq_refl); rewrite Z.add_0_r in H; symmetry; exact H). f_equal. apply IH. intros k y Y. replace (j + 1 + Z.of_nat k)%Z with (j + Z.of_nat (S k))%Z by lia. now apply H.
Qed.
Lemma lacc_near M (l : list term) : usual_size M -> (length l <= 441)%nat ->
  (forall x, In x l -> (is_finite (tp x) = true /\ Rabs (B2R (tp x)) <= M) /\ is_finite (tw x) = true /\ 0 <= snd x /\ Rabs (B2R (tw x) - snd x) <= 135 * u * snd x + bpow radix2 28 * eta) ->
  tsum (map snd l) <= 1 ->
  is_finite (lacc (map fst l) b64_0) = true /\ Rabs (B2R (lacc (map fst l) b64_0) - esum (map (fun x => (B2R (tp x), snd x)) l)) <= bpow radix2 (-43) * M.
Proof.
  intros HM L H T. set (w := fun j => tw (nth (Z.to_nat j) l (b64_0, b64_0, 0))). set (W := fun j => snd (nth (Z.to_nat j) l (b64_0, b64_0, 0))).
  assert (Us := v_small). assert (Hs := MeshFloatLemmas.eta_small). assert (Up : 0 < u) by apply bpow_gt_0.
  assert (Hsl : 0 <= bpow radix2 28 * eta <= / 1000000 * u).
  { split; [apply Rmult_le_pos; apply bpow_ge_0|]. rewrite <- bpow_plus. apply Rle_trans with (bpow radix2 (-20 + -53)); [apply bpow_le; lia|]. rewrite bpow_plus. apply Rmult_le_compat_r; [lra|]. change (bpow radix2 (-20)) with (/ 1048576). lra. }
  assert (Hw : forall j, is_finite (w j) = true /\ 0 <= W j /\ Rabs (B2R (w j) - W j) <= 135 * u * W j + bpow radix2 28 * eta).
  { intros j. unfold w, W. destruct (nth_in_or_default (Z.to_nat j) l (b64_0, b64_0, 0)) as [I| ->]; [exact (proj2 (H _ I))|].
    cbn [tw fst snd]. split; [reflexivity|]. split; [lra|]. cbn [B2R b64_0]. rewrite Rminus_0_r, Rabs_R0, Rmult_0_r. lra. }
  assert (N : forall k x, nth_error l k = Some x -> w (0 + Z.of_nat k)%Z = tw x /\ W (0 + Z.of_nat k)%Z = snd x).
  { intros k x E. unfold w, W. rewrite Z.add_0_l, Nat2Z.id, (nth_error_nth l k _ E). split; reflexivity. }
  assert (Li : INR (length l) <= 441). { rewrite INR_IZR_INZ. apply IZR_le. lia. } assert (L0 := pos_INR (length l)).
  assert (A1 := wsum_tsum W l 0%Z ltac:(intros k x E; apply N; exact E)).
  assert (A2 := eacc_esum W l 0%Z ltac:(intros k x E; apply N; exact E)).
  assert (A3 : BSplineFloatEval.facc w (map fst (map fst l)) 0 b64_0 = lacc (map fst l) b64_0).
  { apply lacc_facc. intros k x E. rewrite nth_error_map in E. destruct (nth_error l k) as [y|] eqn:Ey; [|discriminate E]. cbn [option_map] in E. injection E as <-. exact (proj1 (N k y Ey)). }
  destruct (BSplineFloatEval.facc_near M HM w W (135 * u) (bpow radix2 28 * eta) ltac:(lra) Hsl Hw (map fst (map fst l)) 0%Z b64_0 0 0 0) as [F E].
  - apply Forall_forall. intros p I. rewrite map_map in I. apply in_map_iff in I. destruct I as (x & <- & I). exact (proj1 (H x I)).
  - reflexivity.
  - lra.
  - rewrite Rabs_R0. lra.
  - rewrite !map_length, A1. lra.
  - lra.
  - rewrite !map_length. assert (INR (length l) * u <= 441 * / 1000000) by (apply Rmult_le_compat; lra). lra.
  - cbn [B2R b64_0]. rewrite Rminus_0_r, Rabs_R0. lra.
  - rewrite A3 in F, E. split; [exact F|]. rewrite A2, Rplus_0_l in E. rewrite !map_length, A1, !Rplus_0_l in E. apply Rle_trans with (1 := E).
    assert (PM := M_pos M HM). assert (Q : 0 < u * M) by (apply Rmult_lt_0_compat; lra). replace (bpow radix2 (-43)) with (1024 * u) by (change (-43)%Z with (10 + -53)%Z; rewrite bpow_plus; reflexivity).
    assert (K1 : (135 * u + 2 * u) * (M * tsum (map snd l)) <= 137 * (u * M)).
    { apply Rle_trans with ((137 * u) * (M * 1)); [|right; ring]. replace (135 * u + 2 * u) with (137 * u) by ring. apply Rmult_le_compat_l; [lra|]. apply Rmult_le_compat_l; lra. }
    assert (K2 : INR (length l) * (u * M) <= 441 * (u * M)) by (apply Rmult_le_compat_r; lra). lra.
Qed.

(** Sums of which only one part has weights *)
Lemma racc_rows (l : nat -> list (R * R)) n k a : (k <= n)%nat -> rnd a = a -> (forall i x, (i <= n)%nat -> i <> k -> In x (l i) -> snd x = 0) ->
  racc (flat_map l (seq 0 (S n))) a = racc (l k) a.
Proof.
  intros K A H. replace (S n) with (k + S (n - k))%nat by lia. rewrite seq_app, flat_map_app, racc_app. cbn [plus seq flat_map]. rewrite racc_app.
  rewrite (racc_zeros (flat_map l (seq 0 k))); [|exact A|].
  - apply racc_zeros; [now apply racc_format|]. intros x X. apply in_flat_map in X. destruct X as (i & I & X). apply in_seq in I. apply (H i); [lia|lia|exact X].
  - intros x X. apply in_flat_map in X. destruct X as (i & I & X). apply in_seq in I. apply (H i); [lia|lia|exact X].
Qed.
Lemma flat_map_one {A B0} (f : A -> B0) l : flat_map (fun x => [f x]) l = map f l.
Proof. induction l as [|x l IH]; cbn; [reflexivity|]. now rewrite IH. Qed.
Lemma racc_select (l : nat -> R * R) n k a : (k <= n)%nat -> rnd a = a -> (forall i, (i <= n)%nat -> i <> k -> snd (l i) = 0) -> racc (map l (seq 0 (S n))) a = racc [l k] a.
Proof.
  intros K A H. rewrite <- flat_map_one. rewrite (racc_rows (fun i => [l i]) n k a K A); [reflexivity|]. intros i x I D [<-|[]]. now apply H.
Qed.
Lemma flat_map_map {A B0 C} (g : B0 -> C) (f : A -> list B0) l : map g (flat_map f l) = flat_map (fun x => map g (f x)) l.
Proof. induction l as [|x l IH]; cbn; [reflexivity|]. now rewrite map_app, IH. Qed.

(** Sums over the grid *)
Lemma tsum_total f : forall k i, tsum (map f (seq i k)) = total f i k.
Proof. induction k as [|k IH]; intros i; cbn [seq map tsum total]; [reflexivity|]. now rewrite IH. Qed.
Lemma tsum_scale a l : tsum (map (fun x => a * x) l) = a * tsum l.
Proof. induction l as [|x l IH]; cbn [map tsum]; [ring|]. rewrite IH. ring. Qed.
Lemma tsum_flat {A} (f : A -> list R) l : tsum (flat_map f l) = tsum (map (fun x => tsum (f x)) l).
Proof. induction l as [|x l IH]; cbn [flat_map map tsum]; [reflexivity|]. now rewrite tsum_app, IH. Qed.
Lemma esum_flat {A} (f : A -> list (R * R)) l : esum (flat_map f l) = tsum (map (fun x => esum (f x)) l).
Proof. induction l as [|x l IH]; cbn [flat_map map tsum]; [reflexivity|]. now rewrite esum_app, IH. Qed.
Lemma esum_map {A} (f g : A -> R) l : esum (map (fun x => (f x, g x)) l) = tsum (map (fun x => g x * f x) l).
Proof. induction l as [|x l IH]; cbn [map esum tsum]; [reflexivity|]. now rewrite IH. Qed.
Lemma coord_wsum c (g : nat -> R) (h : nat -> vec3) : coordinate c -> forall k i, c (wsum g i (map h (seq i k))) = tsum (map (fun j => g j * c (h j)) (seq i k)).
Proof.
  intros C. induction k as [|k IH]; intros i; cbn [seq map wsum tsum]; [now apply coord_zero|]. rewrite coord_add, coord_scale by exact C. now rewrite IH.
Qed.
Lemma B_le t n i : 0 <= t <= 1 -> (i <= n)%nat -> B t n i <= 1.
Proof.
  intros T I. rewrite <- (unity t n). replace (S n) with (i + S (n - i))%nat by lia.
  assert (G : forall m k j, total (B t n) j (k + S m) >= B t n (j + k)).
  { intros m. induction k as [|k IH]; intros j; cbn [plus total].
    - rewrite Nat.add_0_r. assert (X := total_ge t n T m (S j)). lra.
    - assert (X := IH (S j)). assert (Y := B_ge t n T j). replace (j + S k)%nat with (S j + k)%nat by lia. lra. }
  specialize (G (n - i)%nat i O). cbn [plus] in G. lra.
Qed.

Lemma exact_get p i j : patch_get (exact_patch p) i j = exact_vec (fpatch_get p i j).
Proof.
  unfold patch_get, fpatch_get, exact_patch. cbn [order cpoints]. rewrite map_length. destruct (_ <? _)%Z; [|reflexivity]. exact (map_nth exact_vec (fcpoints p) fzero _).
Qed.
Lemma get_within M p i j : usual_size M -> patch_within M p -> point_within M (fpatch_get p i j).
Proof.
  intros HM [_ H]. assert (PM := M_pos M HM). assert (Z : point_within M fzero) by (repeat split; cbn; rewrite Rabs_R0; lra).
  unfold fpatch_get. destruct (_ <? _)%Z; [|exact Z]. destruct (nth_in_or_default (Z.to_nat (patch_index (forder p) i j)) (fcpoints p) fzero) as [I| ->]; [now apply H|exact Z].
Qed.

Section Pow.
Variable fpow : b64 -> nat -> b64.
Hypothesis accurate : accurate_pow fpow.
Definition fB (n : nat) (t : b64) (i : nat) : b64 := match fbernstein fpow t i n with Some w => w | None => b64_0 end.
Lemma fB_near n t i : parameter t -> (i <= n)%nat -> (1 <= n <= 20)%nat -> fbernstein fpow t i n = Some (fB n t i) /\ is_finite (fB n t i) = true /\
  Rabs (B2R (fB n t i) - B (B2R t) n i) <= 66 * u * B (B2R t) n i + bpow radix2 25 * eta /\
  (B2R t = 0 -> B2R (fB n t i) = if (i =? 0)%nat then 1 else 0) /\ (B2R t = 1 -> B2R (fB n t i) = if (i =? n)%nat then 1 else 0).
Proof.
  intros [F T] I N. destruct (weight fpow accurate t i n F T I N) as (w & E & R). unfold fB. rewrite E. split; [reflexivity|exact R].
Qed.
Lemma product_arith a A b B0 s m h : 0 <= A <= 1 -> 0 <= B0 <= 1 -> 0 <= s <= / 1000000 * u -> 0 <= h <= s ->
  Rabs (a - A) <= 66 * u * A + s -> Rabs (b - B0) <= 66 * u * B0 + s -> Rabs (m - a * b) <= u * Rabs (a * b) + h -> Rabs (m - A * B0) <= 135 * u * (A * B0) + 8 * s /\ Rabs (a * b) <= 2.
Proof.
  intros HA HB Hs Hh Ea Eb Em. assert (Us := v_small). assert (Up : 0 < u) by apply bpow_gt_0.
  assert (AB : 0 <= A * B0 <= 1) by (split; [apply Rmult_le_pos; lra|]; apply Rle_trans with (1 * 1); [apply Rmult_le_compat; lra|lra]).
  assert (D : Rabs (a * b - A * B0) <= (132 + / 100) * u * (A * B0) + 3 * s).
  { replace (a * b - A * B0) with (A * (b - B0) + B0 * (a - A) + (a - A) * (b - B0)) by ring.
    apply Rle_trans with (A * (66 * u * B0 + s) + B0 * (66 * u * A + s) + (66 * u * A + s) * (66 * u * B0 + s)).
    - apply Rle_trans with (1 := Rabs_triang _ _). apply Rplus_le_compat; [apply Rle_trans with (1 := Rabs_triang _ _); apply Rplus_le_compat|]; rewrite Rabs_mult.
      + rewrite (Rabs_pos_eq A) by lra. apply Rmult_le_compat_l; lra.
      + rewrite (Rabs_pos_eq B0) by lra. apply Rmult_le_compat_l; lra.
      + apply Rmult_le_compat; auto using Rabs_pos.
    - assert (A * s <= 1 * s) by (apply Rmult_le_compat_r; lra). assert (B0 * s <= 1 * s) by (apply Rmult_le_compat_r; lra).
      assert (u * u * (A * B0) <= / 1000000 * u * (A * B0)) by (apply Rmult_le_compat_r; [lra|]; apply Rmult_le_compat_r; lra).
      assert (u * (A * s) <= / 1000000 * (1 * s)) by (apply Rmult_le_compat; try lra; apply Rmult_le_pos; lra).
      assert (u * (B0 * s) <= / 1000000 * (1 * s)) by (apply Rmult_le_compat; try lra; apply Rmult_le_pos; lra).
      assert (s * s <= / 1000000 * s) by (apply Rmult_le_compat_r; lra). assert (0 <= u * (A * B0)) by (apply Rmult_le_pos; lra). lra. }
  assert (P : Rabs (a * b) <= (1 + / 100) * (A * B0) + 3 * s).
  { assert ((132 + / 100) * u * (A * B0) <= / 100 * (A * B0)) by (apply Rmult_le_compat_r; lra). apply Rabs_le_inv in D. apply Rabs_le. lra. }
  split; [|lra]. replace (m - A * B0) with ((m - a * b) + (a * b - A * B0)) by ring. apply Rle_trans with (1 := Rabs_triang _ _).
  assert (u * Rabs (a * b) <= u * ((1 + / 100) * (A * B0) + 3 * s)) by (apply Rmult_le_compat_l; lra). assert (u * s <= / 1000000 * s) by (apply Rmult_le_compat_r; lra).
  assert (0 <= u * (A * B0)) by (apply Rmult_le_pos; lra). lra.
Qed.
Lemma product_near n x y i j : parameter x -> parameter y -> (i <= n)%nat -> (j <= n)%nat -> (1 <= n <= 20)%nat ->
  is_finite (b64_mul (fB n x i) (fB n y j)) = true /\ B2R (b64_mul (fB n x i) (fB n y j)) = rnd (B2R (fB n x i) * B2R (fB n y j)) /\
  Rabs (B2R (b64_mul (fB n x i) (fB n y j)) - B (B2R x) n i * B (B2R y) n j) <= 135 * u * (B (B2R x) n i * B (B2R y) n j) + bpow radix2 28 * eta.
Proof.
  intros X Y I J N. destruct (fB_near n x i X I N) as (_ & Fa & Ea & _). destruct (fB_near n y j Y J N) as (_ & Fb & Eb & _).
  assert (A0 := B_ge (B2R x) n (proj2 X) i). assert (A1 := B_le (B2R x) n i (proj2 X) I). assert (B0 := B_ge (B2R y) n (proj2 Y) j). assert (B1 := B_le (B2R y) n j (proj2 Y) J).
  assert (Hsl : 0 <= bpow radix2 25 * eta <= / 1000000 * u).
  { split; [apply Rmult_le_pos; apply bpow_ge_0|]. rewrite <- bpow_plus. apply Rle_trans with (bpow radix2 (-20 + -53)); [apply bpow_le; lia|]. rewrite bpow_plus. apply Rmult_le_compat_r; [apply bpow_ge_0|]. change (bpow radix2 (-20)) with (/ 1048576). lra. }
  assert (Hh : 0 <= eta <= bpow radix2 25 * eta) by (split; [apply bpow_ge_0|]; rewrite <- bpow_plus; apply bpow_le; lia).
  assert (E := rnd_abs (B2R (fB n x i) * B2R (fB n y j))).
  destruct (product_arith _ _ _ _ _ (rnd (B2R (fB n x i) * B2R (fB n y j))) eta (conj A0 A1) (conj B0 B1) Hsl Hh Ea Eb E) as [Q1 Q2].
  destruct (mul_fin (fB n x i) (fB n y j) 1 Fa Fb ltac:(lia) Q2) as [F V]. split; [exact F|]. split; [exact V|]. rewrite V. apply Rle_trans with (1 := Q1).
  change 28%Z with (3 + 25)%Z. rewrite bpow_plus. change (bpow radix2 3) with 8. lra.
Qed.

(** The loops as sums *)
Section Grid.
Variable p : fpatch.
Let n := Z.to_nat (forder p).
Variables x y : b64.
Hypotheses (X : parameter x) (Y : parameter y) (N : (1 <= n <= 20)%nat).
Definition cell (f : fvec -> b64) (i j : nat) : b64 * b64 := (f (fpatch_get p (Z.of_nat i) (Z.of_nat j)), b64_mul (fB (Z.to_nat (forder p)) x i) (fB (Z.to_nat (forder p)) y j)).
Definition grid (f : fvec -> b64) : list (b64 * b64) := flat_map (fun i => map (cell f i) (seq 0 (S (Z.to_nat (forder p))))) (seq 0 (S (Z.to_nat (forder p)))).
Lemma inner_sum i : (i <= n)%nat -> forall k j r, (j + k <= S n)%nat ->
  exists q, fpatch_inner fpow p x y i (seq j k) r = Some q /\ forall f c, coordinates f c -> f q = lacc (map (cell f i) (seq j k)) (f r).
Proof.
  intros I. induction k as [|k IH]; intros j r L; cbn [seq fpatch_inner map].
  - exists r. split; reflexivity.
  - fold n. rewrite (proj1 (fB_near n x i X I N)), (proj1 (fB_near n y j Y ltac:(lia) N)).
    destruct (IH (S j) (fplus r (fweigh (fpatch_get p (Z.of_nat i) (Z.of_nat j)) (b64_mul (fB n x i) (fB n y j)))) ltac:(lia)) as (q & E & V). exists q. split; [exact E|].
    intros f c C. rewrite (V f c C). unfold cell at 2. cbn [lacc]. f_equal. destruct C as [[-> _]|[[-> _]|[-> _]]]; reflexivity.
Qed.
Lemma outer_sum : forall k i r, (i + k <= S n)%nat ->
  exists q, fpatch_outer fpow p x y (seq i k) r = Some q /\ forall f c, coordinates f c -> f q = lacc (flat_map (fun i => map (cell f i) (seq 0 (S n))) (seq i k)) (f r).
Proof.
  induction k as [|k IH]; intros i r L.
  - exists r. split; reflexivity.
  - change (seq i (S k)) with (i :: seq (S i) k). cbn [fpatch_outer flat_map]. fold n. destruct (inner_sum i ltac:(lia) (S n) O r ltac:(lia)) as (q & -> & V). destruct (IH (S i) q ltac:(lia)) as (q' & E & V'). exists q'. split; [exact E|].
    intros f c C. rewrite (V' f c C), (V f c C). symmetry. apply lacc_app.
Qed.
Lemma eval_sum : exists q, fpatch_eval fpow p x y = Some q /\ forall f c, coordinates f c -> f q = lacc (grid f) b64_0.
Proof.
  unfold fpatch_eval. fold n. destruct (outer_sum (S n) O fzero ltac:(lia)) as (q & E & V). exists q. split; [exact E|]. intros f c C. rewrite (V f c C). unfold grid. fold n. f_equal.
  destruct C as [[-> _]|[[-> _]|[-> _]]]; reflexivity.
Qed.

(** Near the exact patch *)
Variable M : R.
Hypotheses (HM : usual_size M) (HP : patch_within M p).
Lemma grid_near f c : coordinates f c -> exists r, patch_eval (exact_patch p) (B2R x) (B2R y) = Some r /\ is_finite (lacc (grid f) b64_0) = true /\
  Rabs (B2R (lacc (grid f) b64_0) - c r) <= bpow radix2 (-43) * M.
Proof.
  intros C. rewrite patch_eval_sum by exact N. change (Z.to_nat (order (exact_patch p))) with n. eexists. split; [reflexivity|].
  set (t := fun i j => (cell f i j, B (B2R x) n i * B (B2R y) n j)). set (l := flat_map (fun i => map (t i) (seq 0 (S n))) (seq 0 (S n))).
  assert (G : grid f = map fst l). { unfold l, grid. fold n. rewrite flat_map_map. apply flat_map_ext. intros i. rewrite map_map. reflexivity. }
  assert (T : tsum (map snd l) = 1).
  { unfold l. rewrite flat_map_map, tsum_flat. rewrite (map_ext _ (B (B2R x) n)).
    - rewrite tsum_total. apply unity.
    - intros i. rewrite map_map. cbn [t snd]. rewrite <- (map_map (B (B2R y) n) (fun z => B (B2R x) n i * z)), tsum_scale, tsum_total, unity. ring. }
  assert (E : esum (map (fun a => (B2R (tp a), snd a)) l) = c (wsum (B (B2R x) n) 0 (map (fun i => wsum (B (B2R y) n) 0 (row (exact_patch p) i (seq 0 (S n)))) (seq 0 (S n))))).
  { assert (C' := coordinates_coordinate f c C). rewrite coord_wsum by exact C'. unfold l. rewrite flat_map_map, esum_flat. f_equal. apply map_ext. intros i. unfold row. rewrite coord_wsum by exact C'.
    rewrite map_map. cbn [t tp fst snd cell]. rewrite (esum_map (fun j => B2R (f (fpatch_get p (Z.of_nat i) (Z.of_nat j)))) (fun j => B (B2R x) n i * B (B2R y) n j)).
    rewrite <- tsum_scale, map_map. f_equal. apply map_ext. intros j. rewrite exact_get, (coordinates_exact f c) by exact C. ring. }
  rewrite G, <- E. apply lacc_near; [exact HM| | |lra].
  - unfold l. assert (Q : forall is, length (flat_map (fun i => map (t i) (seq 0 (S n))) is) = (length is * S n)%nat). { induction is as [|i is IH]; cbn [flat_map length]; [reflexivity|]. rewrite app_length, IH, map_length, seq_length. lia. }
    rewrite Q, seq_length. assert (S n <= 21)%nat by lia. nia.
  - intros a I. unfold l in I. apply in_flat_map in I. destruct I as (i & I & J). apply in_map_iff in J. destruct J as (j & <- & J). apply in_seq in I, J. unfold tp, tw, t, cell. cbn [fst snd]. fold n.
    split; [apply within_coords with c; [exact C|now apply get_within]|]. destruct (product_near n x y i j X Y ltac:(lia) ltac:(lia) N) as (F & _ & Q). split; [exact F|]. split; [|exact Q].
    apply Rmult_le_pos; apply B_ge; [apply X|apply Y].
Qed.
Lemma eval_near : exists q r, fpatch_eval fpow p x y = Some q /\ patch_eval (exact_patch p) (B2R x) (B2R y) = Some r /\ at_most_off (bpow radix2 (-43) * M) q r.
Proof.
  destruct eval_sum as (q & E & V). destruct (grid_near fx vx ltac:(left; auto)) as (r & Er & _). exists q, r. split; [exact E|]. split; [exact Er|]. apply off_coords. intros f c C. rewrite (V f c C).
  destruct (grid_near f c C) as (r' & Er' & Q). rewrite Er in Er'. injection Er' as <-. exact Q.
Qed.
Lemma eval_value : exists q, fpatch_eval fpow p x y = Some q /\ forall f c, coordinates f c -> is_finite (f q) = true /\ B2R (f q) = racc (values (grid f)) 0.
Proof.
  destruct eval_sum as (q & E & V). exists q. split; [exact E|]. intros f c C. destruct (grid_near f c C) as (r & _ & F & _). rewrite (V f c C). split; [exact F|]. exact (proj2 (lacc_finite _ _ F)).
Qed.
End Grid.

(** The curve in the same manner *)
Section Side.
Variables (n : nat) (x : b64) (h : nat -> fvec) (M : R).
Hypotheses (X : parameter x) (N : (1 <= n <= 20)%nat) (HM : usual_size M) (Hh : forall i, (i <= n)%nat -> point_within M (h i)).
Definition line (f : fvec -> b64) (k m : nat) : list (b64 * b64) := map (fun i => (f (h i), fB n x i)) (seq k m).
Lemma curve_sum : forall m k r, (k + m <= S n)%nat ->
  exists q, fcurve_from fpow x n k (map h (seq k m)) r = Some q /\ forall f c, coordinates f c -> f q = lacc (line f k m) (f r).
Proof.
  induction m as [|m IH]; intros k r L; cbn [seq map fcurve_from].
  - exists r. split; reflexivity.
  - rewrite (proj1 (fB_near n x k X ltac:(lia) N)). destruct (IH (S k) (fplus r (fweigh (h k) (fB n x k))) ltac:(lia)) as (q & E & V). exists q. split; [exact E|].
    intros f c C. rewrite (V f c C). unfold line. cbn [seq map lacc]. f_equal. destruct C as [[-> _]|[[-> _]|[-> _]]]; reflexivity.
Qed.
Lemma curve_value : exists q, fcurve fpow (map h (seq 0 (S n))) x = Some q /\ forall f c, coordinates f c -> is_finite (f q) = true /\ B2R (f q) = racc (values (line f 0 (S n))) 0.
Proof.
  unfold fcurve. rewrite map_length, seq_length. replace (S n - 1)%nat with n by lia. destruct (curve_sum (S n) O (FV b64_0 b64_0 b64_0) ltac:(lia)) as (q & E & V). exists q. split; [exact E|]. intros f c C.
  rewrite (V f c C). replace (f (FV b64_0 b64_0 b64_0)) with b64_0 by (destruct C as [[-> _]|[[-> _]|[-> _]]]; reflexivity).
  set (l := map (fun i => ((f (h i), fB n x i), B (B2R x) n i)) (seq 0 (S n))). assert (G : line f 0 (S n) = map fst l) by (unfold l, line; rewrite map_map; reflexivity).
  destruct (lacc_near M l HM) as [F _].
  - unfold l. rewrite map_length, seq_length. lia.
  - intros a I. unfold l in I. apply in_map_iff in I. destruct I as (i & <- & I). apply in_seq in I. unfold tp, tw. cbn [fst snd]. split; [apply within_coords with c; [exact C|apply Hh; lia]|].
    destruct (fB_near n x i X ltac:(lia) N) as (_ & Fb & Eb & _). assert (B0 := B_ge (B2R x) n (proj2 X) i). split; [exact Fb|]. split; [exact B0|]. apply Rle_trans with (1 := Eb). apply Rplus_le_compat.
    + apply Rmult_le_compat_r; [exact B0|]. apply Rmult_le_compat_r; [apply bpow_ge_0|lra].
    + apply Rmult_le_compat_r; [apply bpow_ge_0|]. apply bpow_le. lia.
  - unfold l. rewrite map_map. cbn [snd]. rewrite tsum_total, unity. lra.
  - rewrite G. split; [exact F|]. exact (proj2 (lacc_finite _ _ F)).
Qed.
End Side.
End Pow.
