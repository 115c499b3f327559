(** Rays and boxes in double precision. *)
From Coq Require Import ZArith Reals List Bool Lia Lra Psatz.
From Flocq Require Import Core IEEE754.BinarySingleNaN.
From Flocq Require Import Relative.
From Verif Require Import Model.Scalar Model.BoxFloat Model.BoxRayFloat Spec.FloatSpec Spec.BoxRayFloatSpec Proofs.PlaneFloatLemmas Proofs.SplineFloat.
Import ListNotations.
Local Open Scope R_scope.

Lemma div_fin x y k : is_finite x = true -> B2R y <> 0 -> (-1000 <= k < 1024)%Z -> Rabs (B2R x / B2R y) <= bpow radix2 k ->
  is_finite (b64_div x y) = true /\ B2R (b64_div x y) = rnd (B2R x / B2R y).
Proof.
  intros Fx Ny K H. assert (C := Bdiv_correct 53 1024 b64_prec_gt_0 b64_prec_lt_emax mode_NE x y Ny). fold (b64_div x y) in C.
  change (SpecFloat.fexp 53 1024) with f64 in C. cbn [round_mode] in C. rewrite Rlt_bool_true in C.
  - destruct C as (C & F & _). rewrite F, Fx. split; [reflexivity|exact C].
  - apply Rle_lt_trans with (bpow radix2 k); [apply rnd_bound; [lia|exact H]|apply bpow_lt; lia].
Qed.
Lemma rnd_relative x : bpow radix2 (-1000) <= Rabs x -> Rabs (rnd x - x) <= u * Rabs x.
Proof.
  intros H. pose proof (relative_error_N_FLT radix2 (3 - 1024 - 53) 53 eq_refl (fun x => negb (Z.even x)) x) as K.
  replace (/ 2 * bpow radix2 (- (53) + 1)) with u in K by (change (- (53) + 1)%Z with (1 + -53)%Z; rewrite bpow_plus; change (bpow radix2 1) with 2; field).
  apply K. apply Rle_trans with (2 := H). apply bpow_le. lia.
Qed.

Section Param.
  Variable s : fslab.
  Hypothesis Mo : moderate (fo s).
  Hypothesis Md : moderate (fd s).
  Hypothesis Ld : bpow radix2 (-500) <= Rabs (B2R (fd s)).
  Let d := B2R (fd s).
  Let o := B2R (fo s).
  Let g := rnd (1 / d).

  Lemma dir_nonzero : d <> 0.
  Proof. intros E. fold d in Ld. rewrite E, Rabs_R0 in Ld. pose proof (bpow_gt_0 radix2 (-500)). lra. Qed.
  Lemma inv_bounds : bpow radix2 (-500) <= Rabs (1 / d) <= bpow radix2 500.
  Proof.
    pose proof dir_nonzero as N. assert (P : 0 < Rabs d) by now apply Rabs_pos_lt. fold d in Ld. destruct Md as [_ U]. fold d in U.
    unfold Rdiv. rewrite Rmult_1_l, Rabs_inv. split.
    - change (-500)%Z with (- (500))%Z. rewrite bpow_opp. now apply Rinv_le.
    - change 500%Z with (- (-500))%Z. rewrite bpow_opp. apply Rinv_le; [apply bpow_gt_0|exact Ld].
  Qed.
  Lemma g_value : is_finite (b64_div (b64_of_Z 1) (fd s)) = true /\ B2R (b64_div (b64_of_Z 1) (fd s)) = g.
  Proof.
    destruct (b64_int 1 ltac:(lia)) as [V1 F1]. unfold g. fold d. rewrite <- V1. apply div_fin with 500%Z; [exact F1|exact dir_nonzero|lia|]. rewrite V1. apply inv_bounds.
  Qed.
  Lemma g_bound : Rabs g <= bpow radix2 500.
  Proof. apply rnd_bound; [lia|apply inv_bounds]. Qed.
  Lemma g_error : Rabs (g * d - 1) <= u.
  Proof.
    pose proof dir_nonzero as N. assert (P : 0 < Rabs d) by now apply Rabs_pos_lt.
    replace (g * d - 1) with ((g - 1 / d) * d) by (field; exact N). rewrite Rabs_mult.
    assert (E : Rabs (g - 1 / d) <= u * Rabs (1 / d)) by (apply rnd_relative; apply Rle_trans with (2 := proj1 inv_bounds); apply bpow_le; lia).
    apply Rle_trans with (u * Rabs (1 / d) * Rabs d); [apply Rmult_le_compat_r; [apply Rabs_pos|exact E]|].
    rewrite Rmult_assoc, <- Rabs_mult. replace (1 / d * d) with 1 by (field; exact N). rewrite Rabs_R1. lra.
  Qed.

  (** The parameter of a side *)
  Lemma param_value (b : b64) : moderate b -> is_finite (fparam s b) = true /\ B2R (fparam s b) = rnd (rnd (B2R b - o) * g) /\ Rabs (B2R (fparam s b)) <= bpow radix2 1001.
  Proof.
    intros [Fb Bb]. destruct Mo as [Fo Bo]. destruct g_value as [Fg Vg]. unfold fparam.
    assert (S : Rabs (B2R b - o) <= bpow radix2 501).
    { unfold Rminus. apply Rle_trans with (1 := Rabs_triang _ _). rewrite Rabs_Ropp. assert (Q : bpow radix2 501 = 2 * bpow radix2 500) by exact (double_pow 500). unfold o. lra. }
    destruct (sub_fin b (fo s) 501 Fb Fo ltac:(lia) S) as [Fs Vs]. fold o in Vs.
    assert (P : Rabs (B2R (b64_sub b (fo s)) * B2R (b64_div (b64_of_Z 1) (fd s))) <= bpow radix2 1001).
    { rewrite Vs, Vg, Rabs_mult. change 1001%Z with (501 + 500)%Z. rewrite bpow_plus. apply Rmult_le_compat; auto using Rabs_pos; [apply rnd_bound; [lia|exact S]|apply g_bound]. }
    destruct (mul_fin _ _ 1001 Fs Fg ltac:(lia) P) as [F V]. split; [exact F|]. rewrite V. split; [now rewrite Vs, Vg|]. apply rnd_bound; [lia|exact P].
  Qed.
  Lemma param_error (b : b64) : moderate b -> - wobble s b <= B2R (fparam s b) * d - (B2R b - o) <= wobble s b.
  Proof.
    intros M. destruct (param_value b M) as (_ & -> & _). unfold wobble. fold o d.
    set (D := B2R b - o). pose proof g_error as G. apply Rabs_le_inv in G. pose proof (rnd_error D _ (Rle_refl _)) as E1. set (e := rnd D) in *.
    pose proof (rnd_error (e * g) _ (Rle_refl _)) as E2. set (t := rnd (e * g)) in *.
    assert (AD : - Rabs D <= D <= Rabs D) by (apply Rabs_le_inv, Rle_refl). pose proof (Rabs_pos D) as D0. set (m := Rabs D) in *.
    pose proof (Rabs_pos d) as d0. pose proof (bpow_gt_0 radix2 (-1075)) as E0.
    assert (EU : u = / 9007199254740992) by reflexivity. assert (EV : bpow radix2 (-51) = 4 * / 9007199254740992) by (change (-51)%Z with (2 + -53)%Z; rewrite bpow_plus, EU; reflexivity).
    assert (EW : bpow radix2 (-1074) = 2 * eta) by exact (double_pow (-1075)). rewrite EV, EW. rewrite EU in *. remember eta as h eqn:EH.
    (* e * (g d) - D *)
    set (r := g * d) in *.
    assert (Ae : Rabs e <= m + / 9007199254740992 * m + h) by (apply Rabs_le; lra).
    assert (X1 : Rabs (e * (r - 1)) <= (m + / 9007199254740992 * m + h) * / 9007199254740992).
    { rewrite Rabs_mult. apply Rmult_le_compat; auto using Rabs_pos. apply Rabs_le. lra. }
    apply Rabs_le_inv in X1.
    (* (t - e g) d *)
    assert (X2 : Rabs ((t - e * g) * d) <= (m + / 9007199254740992 * m + h) * (1 + / 9007199254740992) * / 9007199254740992 + h * Rabs d).
    { rewrite Rabs_mult. apply Rle_trans with ((/ 9007199254740992 * Rabs (e * g) + h) * Rabs d).
      - apply Rmult_le_compat_r; [exact d0|]. apply Rabs_le. lra.
      - rewrite Rmult_plus_distr_r. apply Rplus_le_compat_r. rewrite Rmult_assoc, <- Rabs_mult. replace (e * g * d) with (e * r) by (unfold r; ring). rewrite Rabs_mult, Rmult_comm. apply Rmult_le_compat_r; [lra|].
        apply Rmult_le_compat; auto using Rabs_pos. apply Rabs_le. lra. }
    apply Rabs_le_inv in X2. replace (t * d - D) with ((t - e * g) * d + e * (r - 1) + (e - D)) by (unfold r; ring).
    assert (H0 : 0 <= h * Rabs d) by (apply Rmult_le_pos; lra). clear - X1 X2 E1 D0 E0 H0. 
    set (z := (t - e * g) * d) in *. set (y := e * (r - 1)) in *. set (k := h * Rabs d) in *. replace (2 * h * (1 + Rabs d)) with (2 * h + 2 * k) by (unfold k; ring). clearbody z y k. lra.
  Qed.
  Lemma param_mono (a b : b64) : moderate a -> moderate b -> B2R a <= B2R b -> (0 < d -> B2R (fparam s a) <= B2R (fparam s b)) /\ (d < 0 -> B2R (fparam s b) <= B2R (fparam s a)).
  Proof.
    intros Ma Mb L. destruct (param_value a Ma) as (_ & -> & _). destruct (param_value b Mb) as (_ & -> & _).
    assert (LE : rnd (B2R a - o) <= rnd (B2R b - o)) by (apply round_le; auto with typeclass_instances; lra).
    split; intros S; apply round_le; auto with typeclass_instances.
    - assert (0 <= g) by (unfold g; apply round_ge_generic; auto with typeclass_instances; [apply generic_format_0|apply Rlt_le, Rdiv_lt_0_compat; lra]). now apply Rmult_le_compat_r.
    - assert (g <= 0) by (unfold g; apply round_le_generic; auto with typeclass_instances; [apply generic_format_0|unfold Rdiv; rewrite Rmult_1_l; left; now apply Rinv_lt_0_compat]).
      rewrite 2!(Rmult_comm _ g). apply Rmult_le_compat_neg_l; assumption.
  Qed.
  (** Sides that are not ahead have no positive parameters, and conversely. *)
  Lemma param_sign (b : b64) : moderate b -> ((B2R b - o) * d <= 0 -> B2R (fparam s b) <= 0) /\ (0 <= (B2R b - o) * d -> 0 <= B2R (fparam s b)).
  Proof.
    intros M. destruct (param_value b M) as (_ & -> & _). pose proof dir_nonzero as N.
    assert (P1 : 0 <= B2R b - o -> 0 <= rnd (B2R b - o)) by (intros; apply round_ge_generic; auto with typeclass_instances; apply generic_format_0).
    assert (P2 : B2R b - o <= 0 -> rnd (B2R b - o) <= 0) by (intros; apply round_le_generic; auto with typeclass_instances; apply generic_format_0).
    assert (G1 : 0 < d -> 0 <= g) by (intros; unfold g; apply round_ge_generic; auto with typeclass_instances; [apply generic_format_0|apply Rlt_le, Rdiv_lt_0_compat; lra]).
    assert (G2 : d < 0 -> g <= 0) by (intros; unfold g; apply round_le_generic; auto with typeclass_instances; [apply generic_format_0|unfold Rdiv; rewrite Rmult_1_l; left; now apply Rinv_lt_0_compat]).
    set (e := rnd (B2R b - o)) in *. set (D := B2R b - o) in *. clearbody e g D.
    split; intros S; [apply round_le_generic|apply round_ge_generic]; auto with typeclass_instances; try apply generic_format_0.
    - destruct (Rtotal_order d 0) as [H|[H|H]]; [|contradiction|].
      + assert (0 <= D) by nra. specialize (P1 H0). specialize (G2 H). nra.
      + assert (D <= 0) by nra. specialize (P2 H0). specialize (G1 H). nra.
    - destruct (Rtotal_order d 0) as [H|[H|H]]; [|contradiction|].
      + assert (D <= 0) by nra. specialize (P2 H0). specialize (G2 H). nra.
      + assert (0 <= D) by nra. specialize (P1 H0). specialize (G1 H). nra.
  Qed.
End Param.

(** Near and far side of a component *)
Definition near s := fst (fnear_far s).
Definition far s := snd (fnear_far s).
Section Slab.
  Variables (eps : b64) (s : fslab).
  Hypothesis Fe : is_finite eps = true.
  Hypothesis He : bpow radix2 (-500) <= B2R eps.
  Hypothesis Re : regular s.
  Lemma small_dec : Bltb (Babs (fd s)) eps = true <-> small eps s.
  Proof. unfold small. rewrite <- B2R_Babs. apply blt; [|exact Fe]. rewrite is_finite_Babs. apply Re. Qed.
  Lemma big_dir : ~ small eps s -> bpow radix2 (-500) <= Rabs (B2R (fd s)).
  Proof. unfold small. lra. Qed.
  Lemma near_far_cases : ~ small eps s -> is_finite (near s) = true /\ is_finite (far s) = true /\ B2R (near s) <= B2R (far s) /\ B2R (far s) <= bpow radix2 1001 /\
    ((0 < B2R (fd s) /\ B2R (near s) = B2R (fparam s (flo s)) /\ B2R (far s) = B2R (fparam s (fhi s))) \/
     (B2R (fd s) < 0 /\ B2R (near s) = B2R (fparam s (fhi s)) /\ B2R (far s) = B2R (fparam s (flo s)))).
  Proof.
    intros NS. destruct Re as (Mo & Md & Ml & Mh & L). pose proof (big_dir NS) as B. pose proof (dir_nonzero s B) as N.
    destruct (param_value s Mo Md B _ Ml) as (F1 & _ & B1). destruct (param_value s Mo Md B _ Mh) as (F2 & _ & B2). destruct (param_mono s Mo Md B _ _ Ml Mh L) as [M1 M2].
    apply Rabs_le_inv in B1. apply Rabs_le_inv in B2. unfold near, far, fnear_far.
    destruct (Bltb (fparam s (fhi s)) (fparam s (flo s))) eqn:C; cbn [fst snd].
    - apply blt in C; [|exact F2|exact F1]. split; [assumption|]. split; [assumption|]. split; [lra|]. split; [lra|]. destruct (Rtotal_order (B2R (fd s)) 0) as [H|[H|H]]; [|contradiction|specialize (M1 H); lra]. right. lra.
    - apply blt_false in C; [|exact F2|exact F1]. split; [assumption|]. split; [assumption|]. split; [lra|]. split; [lra|]. destruct (Rtotal_order (B2R (fd s)) 0) as [H|[H|H]]; [specialize (M2 H)|contradiction|]; [right|left]; lra.
  Qed.

  (** What the loop checks *)
  Definition passes (v : R) : Prop := (small eps s -> B2R (flo s) <= B2R (fo s) <= B2R (fhi s)) /\ (~ small eps s -> B2R (near s) <= v <= B2R (far s)).
  Lemma deep_passes v : deep_in eps v s -> passes v.
  Proof.
    intros [A B]. split; [exact A|]. intros NS. specialize (B NS). destruct Re as (Mo & Md & Ml & Mh & L). pose proof (big_dir NS) as BD.
    pose proof (param_error s Mo Md BD _ Ml) as E1. pose proof (param_error s Mo Md BD _ Mh) as E2. unfold place in B.
    destruct (near_far_cases NS) as (_ & _ & _ & _ & [(P & -> & ->)|(P & -> & ->)]); split; nra.
  Qed.
  Lemma passes_rough v : passes v -> roughly_in eps v s.
  Proof.
    intros [A B]. split; [exact A|]. intros NS. specialize (B NS). destruct Re as (Mo & Md & Ml & Mh & L). pose proof (big_dir NS) as BD.
    pose proof (param_error s Mo Md BD _ Ml) as E1. pose proof (param_error s Mo Md BD _ Mh) as E2. unfold place.
    destruct (near_far_cases NS) as (_ & _ & _ & _ & [(P & Q1 & Q2)|(P & Q1 & Q2)]); rewrite Q1, Q2 in B; split; nra.
  Qed.
  Lemma inside_passes : B2R (flo s) <= B2R (fo s) <= B2R (fhi s) -> passes 0.
  Proof.
    intros I. split; [intros _; exact I|]. intros NS. destruct Re as (Mo & Md & Ml & Mh & L). pose proof (big_dir NS) as BD.
    pose proof (param_sign s Mo Md BD _ Ml) as [E1 E1']. pose proof (param_sign s Mo Md BD _ Mh) as [E2 E2'].
    destruct (near_far_cases NS) as (_ & _ & _ & _ & [(P & -> & ->)|(P & -> & ->)]); split; (apply E1 || apply E2 || apply E1' || apply E2'); nra.
  Qed.
End Slab.

Lemma fmax2_val (a b : b64) : is_finite a = true -> is_finite b = true -> is_finite (fmax2 a b) = true /\ B2R (fmax2 a b) = Rmax (B2R a) (B2R b).
Proof.
  intros A B. unfold fmax2. destruct (Bltb a b) eqn:C; [apply blt in C|apply blt_false in C]; try assumption; split; trivial; symmetry; [apply Rmax_right|apply Rmax_left]; lra.
Qed.
Lemma fmin2_val (a b : b64) : is_finite a = true -> is_finite b = true -> is_finite (fmin2 a b) = true /\ B2R (fmin2 a b) = Rmin (B2R a) (B2R b).
Proof.
  intros A B. unfold fmin2. destruct (Bltb b a) eqn:C; [apply blt in C|apply blt_false in C]; try assumption; split; trivial; symmetry; [apply Rmin_right|apply Rmin_left]; lra.
Qed.

Lemma loop_spec eps l : is_finite eps = true -> bpow radix2 (-500) <= B2R eps -> Forall regular l -> forall tmin tmax, is_finite tmin = true -> is_finite tmax = true -> B2R tmin <= B2R tmax ->
  match fslab_loop eps l tmin tmax with
  | Some t => is_finite t = true /\ B2R tmin <= B2R t <= B2R tmax /\ Forall (fun s => passes eps s (B2R t)) l /\ forall v, B2R tmin <= v -> Forall (fun s => passes eps s v) l -> B2R t <= v
  | None => forall v, B2R tmin <= v <= B2R tmax -> ~ Forall (fun s => passes eps s v) l
  end.
Proof.
  intros Fe He. induction 1 as [|s l Rs Rl IH]; intros tmin tmax F1 F2 L; cbn [fslab_loop].
  { repeat split; trivial; lra. }
  pose proof (small_dec eps s Fe Rs) as SD. destruct (Bltb (Babs (fd s)) eps) eqn:C.
  - assert (S : small eps s) by now apply SD. destruct Rs as (Mo & Md & Ml & Mh & Lh).
    pose proof (blt (fo s) (flo s) (proj1 Mo) (proj1 Ml)) as B1. pose proof (blt (fhi s) (fo s) (proj1 Mh) (proj1 Mo)) as B2.
    destruct (Bltb (fo s) (flo s) || Bltb (fhi s) (fo s)) eqn:O.
    + intros v _ FA. inversion FA as [|? ? [PA _] _]; subst. specialize (PA S). apply orb_true_iff in O. destruct O as [O|O]; [apply B1 in O|apply B2 in O]; lra.
    + apply orb_false_iff in O. destruct O as [O1 O2]. assert (I : B2R (flo s) <= B2R (fo s) <= B2R (fhi s)) by (apply blt_false in O1; [|apply Mo|apply Ml]; apply blt_false in O2; [|apply Mh|apply Mo]; lra).
      assert (PA : forall v, passes eps s v) by (intros v; split; [intros _; exact I|intros N; contradiction]).
      specialize (IH tmin tmax F1 F2 L). destruct (fslab_loop eps l tmin tmax) as [t|].
      * destruct IH as (Ft & Lt & FA & MN). repeat split; try assumption; try lra; [now constructor|]. intros v Lv FV. apply MN; [exact Lv|]. now inversion FV.
      * intros v Lv FV. apply (IH v Lv). now inversion FV.
  - assert (NS : ~ small eps s) by (intros S; apply SD in S; discriminate).
    destruct (near_far_cases eps s He Rs NS) as (Fn & Ff & NF & _ & _). rewrite (surjective_pairing (fnear_far s)). fold (near s) (far s).
    destruct (fmax2_val tmin (near s) F1 Fn) as [Fm Vm]. destruct (fmin2_val tmax (far s) F2 Ff) as [Fx Vx].
    set (a := fmax2 tmin (near s)) in *. set (b := fmin2 tmax (far s)) in *.
    pose proof (Rmax_l (B2R tmin) (B2R (near s))). pose proof (Rmax_r (B2R tmin) (B2R (near s))). pose proof (Rmin_l (B2R tmax) (B2R (far s))). pose proof (Rmin_r (B2R tmax) (B2R (far s))).
    rewrite <- Vm in *. rewrite <- Vx in *.
    assert (UM : forall v, B2R tmin <= v -> passes eps s v -> B2R a <= v) by (intros v Lv [_ P]; rewrite Vm; apply Rmax_lub; [exact Lv|apply (P NS)]).
    assert (UX : forall v, v <= B2R tmax -> passes eps s v -> v <= B2R b) by (intros v Lv [_ P]; rewrite Vx; apply Rmin_glb; [exact Lv|apply (P NS)]).
    destruct (Bltb b a) eqn:C2.
    + apply blt in C2; [|exact Fx|exact Fm]. intros v Lv FV. inversion FV as [|? ? P _]; subst. specialize (UM v (proj1 Lv) P). specialize (UX v (proj2 Lv) P). lra.
    + apply blt_false in C2; [|exact Fx|exact Fm]. specialize (IH a b Fm Fx C2). destruct (fslab_loop eps l a b) as [t|].
      * destruct IH as (Ft & Lt & FA & MN). repeat split; try assumption; try lra.
        -- constructor; [|exact FA]. split; [intros S; contradiction|intros _; lra].
        -- intros v Lv FV. inversion FV as [|? ? P FV']; subst. apply MN; [now apply UM|exact FV'].
      * intros v Lv FV. inversion FV as [|? ? P FV']; subst. apply (IH v); [|exact FV']. split; [apply UM|apply UX]; try assumption; lra.
Qed.
Lemma big_value : is_finite b64_big = true /\ bpow radix2 1001 <= B2R b64_big.
Proof.
  split; [reflexivity|]. unfold b64_big, Bmax_float. rewrite B2R_SF2B. 
  change (bpow radix2 1001 <= IZR (2 ^ 53 - 1) * bpow radix2 (1024 - 53)). change (1024 - 53)%Z with 971%Z. change 1001%Z with (30 + 971)%Z. rewrite bpow_plus. apply Rmult_le_compat_r; [apply bpow_ge_0|]. change (bpow radix2 30) with (IZR (2 ^ 30)). apply IZR_le. lia.
Qed.
Lemma zero_finite : is_finite b64_0 = true /\ B2R b64_0 = 0.
Proof. split; reflexivity. Qed.

Lemma interp_spec eps l : is_finite eps = true -> bpow radix2 (-500) <= B2R eps -> Forall regular l ->
  match fbox_interp eps l with
  | Some t => is_finite t = true /\ 0 <= B2R t /\ Forall (fun s => passes eps s (B2R t)) l /\ forall v, 0 <= v -> Forall (fun s => passes eps s v) l -> B2R t <= v
  | None => forall v, 0 <= v -> ~ Forall (fun s => passes eps s v) l
  end.
Proof.
  intros Fe He R. destruct big_value as [FB VB]. pose proof (bpow_gt_0 radix2 1001) as B0. pose proof (loop_spec eps l Fe He R b64_0 b64_big eq_refl FB) as K. change (B2R b64_0) with 0 in K. specialize (K ltac:(lra)).
  unfold fbox_interp. destruct (fslab_loop eps l b64_0 b64_big) as [t|].
  - destruct K as (F & B & P & M). repeat split; try assumption; lra.
  - intros v V0 P. destruct (Rle_dec v (B2R b64_big)) as [LE|NL]; [now apply (K v)|]. apply (K 0); [lra|].
    clear K. induction P as [|s l [A B] P IH]; constructor.
    + split; [exact A|]. intros NS. exfalso. inversion R as [|? ? Rs Rl]; subst. destruct (near_far_cases eps s He Rs NS) as (_ & _ & _ & Q & _). specialize (B NS). lra.
    + apply IH. now inversion R.
Qed.
