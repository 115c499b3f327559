(** Normals of triangles in double precision. *)
From Coq Require Import ZArith Reals List Bool Lia Lra.
From Flocq Require Import Core IEEE754.BinarySingleNaN.
From Verif Require Import Model.Scalar Model.Vec Model.BoxFloat Model.PlaneFloat Model.ClipFloat Model.TriFloat Spec.FloatSpec Spec.ClipFloatSpec Spec.BaryFloatSpec Spec.NormalFloatSpec
  Proofs.PlaneFloatLemmas Proofs.SplineFloat Proofs.ClipFloatLemmas Proofs.BaryFloatLemmas.
Local Open Scope R_scope.

Lemma cross_value (a b c d e f g h : b64) : tame a -> tame b -> tame c -> tame d -> tame e -> tame f -> tame g -> tame h ->
  let r := b64_sub (b64_mul (b64_sub a b) (b64_sub c d)) (b64_mul (b64_sub e f) (b64_sub g h)) in
  is_finite r = true /\ B2R r = rnd (rnd (rnd (B2R a - B2R b) * rnd (B2R c - B2R d)) - rnd (rnd (B2R e - B2R f) * rnd (B2R g - B2R h))).
Proof.
  intros A B C D E F G H. cbv zeta. destruct (diff_product a b c d A B C D) as (F1 & V1 & B1). destruct (diff_product e f g h E F G H) as (F2 & V2 & B2).
  assert (Q : bpow radix2 1001 = 2 * bpow radix2 1000) by exact (double_pow 1000).
  destruct (sub_fin _ _ 1001 F1 F2 ltac:(lia)) as [FR V]; [|split; [exact FR|rewrite V, V1, V2; reflexivity]]. unfold Rminus. eapply Rle_trans; [apply Rabs_triang|]. rewrite Rabs_Ropp. lra.
Qed.
(** Exchanging the factors of a cross product *)
Lemma cross_swap (a b c d e f g h : b64) : tame a -> tame b -> tame c -> tame d -> tame e -> tame f -> tame g -> tame h ->
  B2R (b64_sub (b64_mul (b64_sub e f) (b64_sub g h)) (b64_mul (b64_sub c d) (b64_sub a b))) = - B2R (b64_sub (b64_mul (b64_sub a b) (b64_sub c d)) (b64_mul (b64_sub g h) (b64_sub e f))).
Proof.
  intros A B C D E F G H. destruct (cross_value e f g h c d a b E F G H C D A B) as [_ V]. destruct (cross_value a b c d g h e f A B C D G H E F) as [_ W]. cbv zeta in V, W. rewrite V, W, <- rnd_minus. f_equal.
  rewrite (Rmult_comm (rnd (B2R c - B2R d))), (Rmult_comm (rnd (B2R g - B2R h))). ring.
Qed.
