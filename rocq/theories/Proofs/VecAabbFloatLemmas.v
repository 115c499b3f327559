(** IEEE binary32 lanes of vectorized boxes. *)
From Coq Require Import ZArith NArith Reals List Bool Lia Lra.
From Flocq Require Import Core IEEE754.BinarySingleNaN.
From Flocq Require IEEE754.Binary IEEE754.Bits.
From Verif Require Import Model.Aabb Model.VecAabb Model.VecAabbFloat Spec.AabbSpec.
Import ListNotations.
Local Open Scope R_scope.
Notation b32 := Bits.binary32.
Notation is_nan32 := (Binary.is_nan 24 128).
Notation finite32 := (Binary.is_finite 24 128).
Notation val32 := (Binary.B2R 24 128).

Definition cls32 (x : b32) : Z := match x with Binary.B754_infinity _ _ true => -1 | Binary.B754_infinity _ _ false => 1 | _ => 0 end.
Lemma compare_iff (x y : b32) : is_nan32 x = false -> is_nan32 y = false ->
  Bits.b32_compare x y = Some (match Z.compare (cls32 x) (cls32 y) with Eq => if (cls32 x =? 0)%Z then Rcompare (val32 x) (val32 y) else Eq | c => c end).
Proof.
  intros X Y. destruct (finite32 x) eqn:FX; [destruct (finite32 y) eqn:FY|].
  - unfold Bits.b32_compare. rewrite Binary.Bcompare_correct by assumption. assert (cls32 x = 0%Z) as -> by (destruct x; try reflexivity; discriminate).
    assert (cls32 y = 0%Z) as -> by (destruct y; try reflexivity; discriminate). reflexivity.
  - destruct y as [s|s|s pl B|s m e B]; try discriminate. destruct x as [t|t|t pl B|t m e B]; try discriminate; destruct s, t; reflexivity.
  - destruct x as [t|t|t pl B|t m e B]; try discriminate. destruct y as [s|s|s pl B|s m e B]; try discriminate; destruct s, t; reflexivity.
Qed.

Definition ok32 (a : N) : Prop := is_nan32 (float_of a) = false.
Definition below (x y : b32) : Prop := (cls32 x < cls32 y)%Z \/ cls32 x = 0%Z /\ cls32 y = 0%Z /\ val32 x < val32 y.
Lemma lt32_iff a b : ok32 a -> ok32 b -> lt32 a b = true <-> below (float_of a) (float_of b).
Proof.
  intros A B. unfold lt32, cmp32, below. rewrite compare_iff by assumption. generalize (float_of a) (float_of b). intros x y.
  destruct (Z.compare_spec (cls32 x) (cls32 y)) as [E|E|E].
  - rewrite <- E. destruct (Z.eqb_spec (cls32 x) 0).
    + destruct (Rcompare_spec (val32 x) (val32 y)); split; intros K; try discriminate; try reflexivity; auto; destruct K as [K|(_ & _ & K)]; try lia; lra.
    + split; [discriminate|]. intros [K|(K & _)]; lia.
  - split; auto.
  - split; [discriminate|]. intros [K|(K1 & K2 & _)]; lia.
Qed.
Lemma le32_negb a b : ok32 a -> ok32 b -> le32 a b = negb (lt32 b a).
Proof.
  intros A B. unfold le32, lt32, cmp32. unfold Bits.b32_compare. rewrite (Binary.Bcompare_swap 24 128 (float_of a) (float_of b)). fold Bits.b32_compare. change (Binary.Bcompare 24 128) with Bits.b32_compare. rewrite compare_iff by assumption. generalize (match Z.compare (cls32 (float_of a)) (cls32 (float_of b)) with Eq => if (cls32 (float_of a) =? 0)%Z then Rcompare (val32 (float_of a)) (val32 (float_of b)) else Eq | c => c end). intros []; reflexivity.
Qed.
Lemma f32_laws : order_laws F32Order ok32.
Proof.
  constructor.
  - vm_compute. reflexivity.
  - vm_compute. reflexivity.
  - intros x y X Y H. cbn in *. apply lt32_iff in H; auto. destruct (lt32 y x) eqn:E; [|reflexivity]. apply lt32_iff in E; auto. unfold below in *.
    destruct H as [H|(H1 & H2 & H)], E as [E|(E1 & E2 & E)]; try lia. lra.
  - intros x y z X Y Z H. cbn in *. rewrite !lt32_iff by assumption. apply lt32_iff in H; auto. unfold below in *. generalize (float_of x) (float_of y) (float_of z) H. clear. intros x y z H.
    destruct (Z.lt_trichotomy (cls32 x) (cls32 y)) as [A|[A|A]], (Z.lt_trichotomy (cls32 y) (cls32 z)) as [B|[B|B]]; auto; destruct H as [H|(H1 & H2 & H)]; try lia.
    assert (cls32 y = 0%Z) as C by congruence. destruct (Rlt_or_le (val32 x) (val32 y)); [auto|]. right; right. repeat split; try assumption. lra.
Qed.
Definition finite_lane (a : N) : Prop := finite32 (float_of a) = true.
Lemma float_pattern x : float_of (pattern x) = x.
Proof.
  unfold float_of, pattern. assert (0 <= Bits.bits_of_b32 x)%Z by (apply (Bits.bits_of_binary_float_range 23 8); reflexivity). rewrite Z2N.id by lia.
  apply (Bits.binary_float_of_bits_of_binary_float 23 8).
Qed.

Lemma half_value : val32 (float_of f_half) = / 2 /\ Binary.Bsign 24 128 (float_of f_half) = false /\ finite32 (float_of f_half) = true.
Proof.
  split; [|split; vm_compute; reflexivity]. rewrite <- Binary.FF2R_B2FF. replace (Binary.B2FF 24 128 (float_of f_half)) with (Binary.F754_finite false 8388608 (-24)) by (vm_compute; reflexivity).
  unfold Binary.FF2R, F2R. cbn [Fnum Fexp SpecFloat.cond_Zopp]. change (bpow radix2 (-24)) with (/ IZR 16777216). lra.
Qed.
Lemma two_value : val32 (float_of f2) = 2 /\ Binary.Bsign 24 128 (float_of f2) = false.
Proof.
  split; [|vm_compute; reflexivity]. rewrite <- Binary.FF2R_B2FF. replace (Binary.B2FF 24 128 (float_of f2)) with (Binary.F754_finite false 8388608 (-22)) by (vm_compute; reflexivity).
  unfold Binary.FF2R, F2R. cbn [Fnum Fexp SpecFloat.cond_Zopp]. change (bpow radix2 (-22)) with (/ IZR 4194304). lra.
Qed.
Lemma halves (s : b32) : is_nan32 s = false -> Bits.b32_mult mode_NE s (float_of f_half) = Bits.b32_div mode_NE s (float_of f2).
Proof.
  intros H. destruct (finite32 s) eqn:F.
  - destruct half_value as (VH & SH & FH). destruct two_value as (V2 & S2).
    assert (M := Binary.Bmult_correct 24 128 eq_refl eq_refl Bits.binop_nan_pl32 mode_NE s (float_of f_half)).
    assert (D := Binary.Bdiv_correct 24 128 eq_refl eq_refl Bits.binop_nan_pl32 mode_NE s (float_of f2)). rewrite V2 in D. specialize (D ltac:(lra)).
    rewrite VH, SH, FH, F in M. rewrite S2, F in D. unfold Rdiv in D.
    set (m := Binary.Bmult _ _ _ _ _ _ _ _) in M. set (d := Binary.Bdiv _ _ _ _ _ _ _ _) in D.
    assert (E : m = d).
    { destruct (Rlt_bool _ _).
      - destruct M as (M1 & M2 & M3), D as (D1 & D2 & D3). cbn in M2. apply Binary.B2R_Bsign_inj; auto; [congruence|].
        rewrite M3, D3; [reflexivity|destruct d; try reflexivity; discriminate|destruct m; try reflexivity; discriminate].
      - apply Binary.B2FF_inj. congruence. }
    exact E.
  - destruct s as [t|t|t pl B|t e m B]; try discriminate; destruct t; reflexivity.
Qed.
Lemma plus_not_nan (a b : b32) : finite32 a = true -> finite32 b = true -> is_nan32 (Bits.b32_plus mode_NE a b) = false.
Proof.
  intros A B. assert (C := Binary.Bplus_correct 24 128 eq_refl eq_refl Bits.binop_nan_pl32 mode_NE a b A B).
  change (Binary.Bplus 24 128 eq_refl eq_refl Bits.binop_nan_pl32 mode_NE a b) with (Bits.b32_plus mode_NE a b) in C.
  destruct (Rlt_bool _ _).
  - destruct C as (_ & C & _). destruct (Bits.b32_plus mode_NE a b); try reflexivity; discriminate.
  - destruct C as [C _]. destruct (Bits.b32_plus mode_NE a b); try reflexivity. cbn in C. destruct (Binary.Bsign 24 128 a); discriminate.
Qed.
Lemma centers_agree b : Forall (fun i => finite_lane (fst i) /\ finite_lane (snd i)) b -> v_centers b = center32 b.
Proof.
  unfold v_centers, center32, mul_ps, add_ps. intros H. apply map_ext_in. intros i I. rewrite Forall_forall in H. destruct (H i I) as [A B]. rewrite float_pattern. f_equal.
  apply halves. now apply plus_not_nan.
Qed.
Lemma sign_value32 (x : b32) : if Binary.Bsign 24 128 x then val32 x <= 0 else 0 <= val32 x.
Proof.
  destruct x as [t|t|t pl B|t m e B]; cbn [Binary.Bsign Binary.B2R]; try (destruct t; lra). destruct t; cbn [SpecFloat.cond_Zopp].
  - apply F2R_le_0. cbn. lia.
  - apply F2R_ge_0. cbn. lia.
Qed.
Lemma sizes_agree b : Forall (fun i => finite_lane (fst i) /\ finite_lane (snd i) /\ le32 (fst i) (snd i) = true) b -> Forall2 (fun v s => cmp32 v s = Some Eq) (v_sizes b) (size32 b).
Proof.
  unfold v_sizes, size32, sub_ps, cmp32. induction 1 as [|[a c] b (A & C & L) _ IH]; cbn [map fst snd] in *; constructor; [|exact IH]. clear IH. rewrite !float_pattern.
  assert (LE : val32 (float_of a) <= val32 (float_of c)).
  { unfold le32, cmp32, Bits.b32_compare in L. rewrite Binary.Bcompare_correct in L by assumption. destruct (Rcompare_spec (val32 (float_of a)) (val32 (float_of c))); try discriminate; lra. }
  assert (D := Binary.Bminus_correct 24 128 eq_refl eq_refl Bits.binop_nan_pl32 mode_NE (float_of c) (float_of a) C A).
  change (Binary.Bminus 24 128 eq_refl eq_refl Bits.binop_nan_pl32 mode_NE (float_of c) (float_of a)) with (Bits.b32_minus mode_NE (float_of c) (float_of a)) in D.
  set (d := Bits.b32_minus _ _ _) in *. destruct (Rlt_bool_spec (Rabs (round radix2 (SpecFloat.fexp 24 128) (round_mode mode_NE) (val32 (float_of c) - val32 (float_of a)))) (bpow radix2 128)) as [NO|NO].
  - destruct D as (V & F & _). assert (P : 0 <= val32 d).
    { rewrite V. apply round_ge_generic; auto with typeclass_instances; [apply (fexp_correct 24 128); reflexivity|apply generic_format_0|lra]. }
    unfold Bits.b32_compare. rewrite Binary.Bcompare_correct; [|exact F|unfold Bits.b32_abs; now rewrite Binary.is_finite_Babs].
    unfold Bits.b32_abs. rewrite Binary.B2R_Babs, Rabs_pos_eq by exact P. rewrite Rcompare_Eq; reflexivity.
  - destruct D as [D S]. destruct (Binary.Bsign 24 128 (float_of c)) eqn:SC.
    + exfalso. assert (SA : Binary.Bsign 24 128 (float_of a) = false) by (destruct (Binary.Bsign 24 128 (float_of a)); [discriminate|reflexivity]).
      pose proof (sign_value32 (float_of c)) as P1. pose proof (sign_value32 (float_of a)) as P2. rewrite SC in P1. rewrite SA in P2.
      replace (val32 (float_of c) - val32 (float_of a)) with 0 in NO by lra. rewrite round_0, Rabs_R0 in NO by auto with typeclass_instances. pose proof (bpow_gt_0 radix2 128). lra.
    + destruct d as [t|t|t pl B|t e m B]; try discriminate. cbn in D. injection D as ->. reflexivity.
Qed.
