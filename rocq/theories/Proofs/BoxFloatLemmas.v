(** The center of a box in double precision. *)
From Coq Require Import ZArith Reals List Bool Lia Lra.
From Flocq Require Import Core IEEE754.BinarySingleNaN.
From Verif Require Import Model.Scalar Model.Aabb Model.BoxFloat Proofs.FloatOrder Proofs.PlaneFloatLemmas Proofs.SplineFloat.
Import ListNotations.
Local Open Scope R_scope.
Notation f64 := (FLT_exp (3 - 1024 - 53) 53).
Notation rnd := (round radix2 f64 ZnearestE).

Lemma format_double x : generic_format radix2 f64 x -> generic_format radix2 f64 (2 * x).
Proof.
  intros H. replace (2 * x) with (x * bpow radix2 1) by (change (bpow radix2 1) with 2; ring). apply FLT_format_generic in H; [|reflexivity].
  apply generic_format_FLT. destruct H as [[m e] -> M E]. exists (Float radix2 m (e + 1)); cbn [Fnum Fexp] in *; [|exact M|lia].
  unfold F2R. cbn [Fnum Fexp]. rewrite bpow_plus. ring.
Qed.
Lemma center_between (a b : b64) : is_finite a = true -> is_finite b = true -> B2R a <= B2R b -> is_finite (b64_add a b) = true ->
  let c := b64_div (b64_add a b) (b64_of_Z 2) in is_finite c = true /\ B2R a <= B2R c <= B2R b.
Proof.
  intros A B L S c. assert (C := Bplus_correct 53 1024 b64_prec_gt_0 b64_prec_lt_emax mode_NE a b A B). fold (b64_add a b) in C.
  change (SpecFloat.fexp 53 1024) with f64 in C. cbn [round_mode] in C.
  assert (V : B2R (b64_add a b) = rnd (B2R a + B2R b)).
  { destruct (Rlt_bool _ _); [exact (proj1 C)|]. destruct C as [C _]. destruct (b64_add a b); try discriminate; cbn in C; destruct (Bsign a); discriminate. }
  assert (GA := generic_format_B2R 53 1024 a). assert (GB := generic_format_B2R 53 1024 b). change (SpecFloat.fexp 53 1024) with f64 in GA, GB.
  assert (LO : 2 * B2R a <= B2R (b64_add a b)) by (rewrite V; apply round_ge_generic; auto with typeclass_instances; [now apply format_double|lra]).
  assert (HI : B2R (b64_add a b) <= 2 * B2R b) by (rewrite V; apply round_le_generic; auto with typeclass_instances; [now apply format_double|lra]).
  destruct (b64_int 2 ltac:(lia)) as [V2 F2].
  assert (D := Bdiv_correct 53 1024 b64_prec_gt_0 b64_prec_lt_emax mode_NE (b64_add a b) (b64_of_Z 2)). rewrite V2 in D. specialize (D ltac:(lra)). fold (b64_div (b64_add a b) (b64_of_Z 2)) in D. fold c in D.
  change (SpecFloat.fexp 53 1024) with f64 in D. cbn [round_mode] in D.
  assert (LO2 : B2R a <= rnd (B2R (b64_add a b) / 2)) by (apply round_ge_generic; auto with typeclass_instances; lra).
  assert (HI2 : rnd (B2R (b64_add a b) / 2) <= B2R b) by (apply round_le_generic; auto with typeclass_instances; lra).
  pose proof (abs_B2R_lt_emax 53 1024 a) as BA. pose proof (abs_B2R_lt_emax 53 1024 b) as BB. apply Rabs_def2 in BA. apply Rabs_def2 in BB.
  rewrite Rlt_bool_true in D by (apply Rabs_def1; lra). destruct D as (D & F & _). rewrite F, D. split; [exact S|lra].
Qed.
Lemma sum_infinite (a b : b64) : is_finite a = true -> is_finite b = true -> is_finite (b64_add a b) = false ->
  exists s, b64_div (b64_add a b) (b64_of_Z 2) = B754_infinity s.
Proof.
  intros A B S. assert (C := Bplus_correct 53 1024 b64_prec_gt_0 b64_prec_lt_emax mode_NE a b A B). fold (b64_add a b) in C.
  destruct (Rlt_bool _ _); [destruct C as (_ & F & _); congruence|]. destruct C as [C _].
  assert (E : b64_add a b = B754_infinity (Bsign a)) by (apply B2SF_inj; rewrite C; destruct (Bsign a); reflexivity).
  rewrite E. exists (Bsign a). destruct (Bsign a); apply B2SF_inj; vm_compute; reflexivity.
Qed.
Lemma center_contained (b : box B64Order) : Forall (fun i => is_finite (fst i) = true /\ is_finite (snd i) = true /\ B2R (fst i : b64) <= B2R (snd i : b64)) b ->
  contains_point B64Order b (center64 b) = true <-> Forall (fun i : b64 * b64 => is_finite (b64_add (fst i) (snd i)) = true) b.
Proof.
  unfold contains_point, center64. induction 1 as [|[a c] b (A & C & L) _ IH]; [split; [constructor|reflexivity]|]. cbn [map all2 fst snd]. cbn [fst snd] in A, C, L.
  destruct (is_finite (b64_add a c)) eqn:F.
  - destruct (center_between a c A C L F) as [FC [L1 L2]]. cbn [olt B64Order]. set (z := b64_div _ _) in *.
    replace (Bltb z a) with false by (symmetry; now apply blt_false). replace (Bltb c z) with false by (symmetry; now apply blt_false). cbn [orb negb]. rewrite IH.
    split; [now constructor|]. intros H. now inversion H.
  - destruct (sum_infinite a c A C F) as [s ->]. split; [|intros H; inversion H; cbn [fst snd] in *; congruence]. intros H. exfalso. cbn [olt B64Order] in H.
    destruct s.
    + replace (Bltb (B754_infinity true : b64) a) with true in H; [discriminate|]. symmetry. destruct a as [s|s| |s m e h]; try discriminate; destruct s; reflexivity.
    + replace (Bltb c (B754_infinity false : b64)) with true in H; [rewrite orb_true_r in H; discriminate|]. symmetry. destruct c as [s|s| |s m e h]; try discriminate; destruct s; reflexivity.
Qed.
