(** Building and flipping planes in double precision. *)
From Coq Require Import ZArith Reals List Bool Lia Lra.
From Flocq Require Import Core IEEE754.BinarySingleNaN.
From Verif Require Import Model.Scalar Model.Vec Model.Plane Model.BoxFloat Model.PlaneFloat Model.ClipFloat Model.TriFloat Model.FrustumFloat Model.BuildPlaneFloat Spec.FloatSpec Spec.BuildPlaneFloatSpec
  Proofs.PlaneFloatLemmas Proofs.SplineFloat Proofs.ClipFloatLemmas Proofs.BezierPatchFloatLemmas Proofs.BaryFloatLemmas.
Local Open Scope R_scope.

Lemma sign_twice alt d : fsign alt (fsign alt d) = d.
Proof. destruct alt; [|reflexivity]. destruct d as [s|s| |s m e H]; cbn; try reflexivity; try (f_equal; apply negb_involutive). Qed.
Lemma sub_self (x : b64) : is_finite x = true -> is_finite (b64_sub x x) = true /\ B2R (b64_sub x x) = 0.
Proof.
  intros F. assert (Z : B2R x - B2R x = 0) by ring. destruct (sub_fin x x 0 F F ltac:(lia)) as [FS V]; [rewrite Z, Rabs_R0; apply bpow_ge_0|]. split; [exact FS|]. rewrite V, Z. apply rnd_zero.
Qed.

(** [y] is the number opposite to [x]. *)
Definition mirrored (x y : b64) : Prop := is_finite x = true /\ is_finite y = true /\ B2R y = - B2R x.
Lemma mirror (x : b64) : is_finite x = true -> mirrored x (Bopp x).
Proof. intros F. split; [exact F|]. split; [rewrite is_finite_Bopp; exact F|apply B2R_Bopp]. Qed.
Lemma value_lt (x : b64) : Rabs (B2R x) < bpow radix2 1024.
Proof. apply abs_B2R_lt_emax. Qed.
Lemma mul_mirror a a' b : mirrored a a' -> is_finite (b64_mul a b) = true -> mirrored (b64_mul a b) (b64_mul a' b).
Proof.
  intros (F & F' & V) FM. destruct (product_parts _ _ FM) as [_ Fb]. assert (VM := mul_value _ _ FM). split; [exact FM|].
  assert (C := Bmult_correct 53 1024 b64_prec_gt_0 b64_prec_lt_emax mode_NE a' b). fold (b64_mul a' b) in C. change (SpecFloat.fexp 53 1024) with f64 in C. cbn [round_mode] in C.
  rewrite V in C. replace (- B2R a * B2R b) with (- (B2R a * B2R b)) in C by ring. change (round radix2 f64 ZnearestE (- (B2R a * B2R b))) with (rnd (- (B2R a * B2R b))) in C. rewrite rnd_minus, <- VM in C.
  rewrite Rlt_bool_true in C by (rewrite Rabs_Ropp; apply value_lt). destruct C as (C1 & C2 & _). rewrite F', Fb in C2. split; [exact C2|exact C1].
Qed.
Lemma add_mirror a a' b b' : mirrored a a' -> mirrored b b' -> is_finite (b64_add a b) = true -> mirrored (b64_add a b) (b64_add a' b').
Proof.
  intros (Fa & Fa' & Va) (Fb & Fb' & Vb) FM. destruct (add_value _ _ FM) as (_ & _ & VM). split; [exact FM|].
  assert (C := Bplus_correct 53 1024 b64_prec_gt_0 b64_prec_lt_emax mode_NE a' b' Fa' Fb'). fold (b64_add a' b') in C. change (SpecFloat.fexp 53 1024) with f64 in C. cbn [round_mode] in C.
  rewrite Va, Vb in C. replace (- B2R a + - B2R b) with (- (B2R a + B2R b)) in C by ring. change (round radix2 f64 ZnearestE (- (B2R a + B2R b))) with (rnd (- (B2R a + B2R b))) in C. rewrite rnd_minus, <- VM in C.
  rewrite Rlt_bool_true in C by (rewrite Rabs_Ropp; apply value_lt). destruct C as (C1 & C2 & _). split; [exact C2|exact C1].
Qed.
Lemma sub_mirror a a' b b' : mirrored a a' -> mirrored b b' -> is_finite (b64_sub a b) = true -> mirrored (b64_sub a b) (b64_sub a' b').
Proof.
  intros (Fa & Fa' & Va) (Fb & Fb' & Vb) FM. destruct (sub_value _ _ FM) as (_ & _ & VM). split; [exact FM|].
  assert (C := Bminus_correct 53 1024 b64_prec_gt_0 b64_prec_lt_emax mode_NE a' b' Fa' Fb'). fold (b64_sub a' b') in C. change (SpecFloat.fexp 53 1024) with f64 in C. cbn [round_mode] in C.
  rewrite Va, Vb in C. replace (- B2R a - - B2R b) with (- (B2R a - B2R b)) in C by ring. change (round radix2 f64 ZnearestE (- (B2R a - B2R b))) with (rnd (- (B2R a - B2R b))) in C. rewrite rnd_minus, <- VM in C.
  rewrite Rlt_bool_true in C by (rewrite Rabs_Ropp; apply value_lt). destruct C as (C1 & C2 & _). split; [exact C2|exact C1].
Qed.
Lemma dot_mirror n x : is_finite (fdot n x) = true -> mirrored (fdot n x) (fdot (fvec_opp n) x).
Proof.
  intros F. unfold fdot in F |- *. destruct (add_value _ _ F) as (F12 & F3 & _). destruct (add_value _ _ F12) as (F1 & F2 & _). cbn [fvec_opp fx fy fz].
  destruct (product_parts _ _ F1) as [N1 _]. destruct (product_parts _ _ F2) as [N2 _]. destruct (product_parts _ _ F3) as [N3 _].
  apply add_mirror; [apply add_mirror|..]; try assumption; apply mul_mirror; try assumption; apply mirror; assumption.
Qed.
Lemma flip_mirror alt p x : is_finite (fsgn_distance alt p x) = true -> mirrored (fsgn_distance alt p x) (fsgn_distance alt (fflipped p) x).
Proof.
  intros F. unfold fsgn_distance in F |- *. destruct (sub_value _ _ F) as (FD & FS & _). cbn [fflipped fnormal fdistance]. apply sub_mirror; [apply dot_mirror; exact FD| |exact F].
  rewrite sign_finite in FS. split; [rewrite sign_finite; exact FS|]. split; [rewrite sign_finite, is_finite_Bopp; exact FS|]. rewrite !sign_value, B2R_Bopp. destruct alt; cbn; ring.
Qed.
