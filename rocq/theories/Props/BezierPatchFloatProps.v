(** * C104: Bezier patches in double precision *)
From Coq Require Import ZArith Reals List Bool Arith Lia Lra.
From Flocq Require Import Core IEEE754.BinarySingleNaN.
From Verif Require Import Model.Scalar Model.Vec Model.BoxFloat Model.PlaneFloat Model.Bezier Model.KeyframeFloat Model.ClipFloat Model.BezierFloat Model.BezierPatchFloat.
From Verif Require Import Spec.FloatSpec Spec.ClipFloatSpec Spec.BezierSpec Spec.BezierFloatSpec Spec.UniformSplineFloatSpec Spec.BezierPatchFloatSpec.
From Verif Require Import Proofs.PlaneFloatLemmas Proofs.SplineFloat Proofs.ClipFloatLemmas Proofs.KeyframeFloatLemmas Proofs.UniformSplineFloatEval Proofs.BezierFloatLemmas Proofs.BezierPatchFloatLemmas.
From Verif Require Import Props.BezierProps Props.BezierFloatProps.
Import ListNotations.
Local Open Scope R_scope.

(** The computed point is finite and within a relative 2^-43 of the size of the control points from the exact patch, which is what C37 is about. *)
Theorem C104_accuracy : forall fpow p (s t : b64) M, accurate_pow fpow -> usual_size M -> patch_within M p -> parameter s -> parameter t ->
  exists q r, fpatch_eval fpow p s t = Some q /\ patch_eval (exact_patch p) (B2R s) (B2R t) = Some r /\ at_most_off (bpow radix2 (-43) * M) q r.
Proof. intros fpow p s t M A HM HP S T. apply (eval_near fpow A p s t S T ltac:(destruct HP; lia) M HM HP). Qed.
Print Assumptions C104_accuracy.

(** So it stays in every box around the control points, up to that much. *)
Theorem C104_in_box : forall fpow p (s t : b64) M q f c lo hi, accurate_pow fpow -> usual_size M -> patch_within M p -> parameter s -> parameter t ->
  fpatch_eval fpow p s t = Some q -> same_component f c ->
  (forall i j, inside_patch (forder p) i j -> lo <= B2R (f (fpatch_get p i j)) <= hi) ->
  lo - bpow radix2 (-43) * M <= B2R (f q) <= hi + bpow radix2 (-43) * M.
Proof.
  intros fpow p s t M q f c lo hi A HM HP S T E C H. destruct (C104_accuracy fpow p s t M A HM HP S T) as (q' & r & E' & Er & O). rewrite E in E'. injection E' as <-.
  destruct (proj2 (off_coords _ _ _) O f c C) as [_ X].
  assert (G : forall a b d k, (forall i j, inside_patch (forder p) i j -> dot (V3 a b d) (exact_vec (fpatch_get p i j)) <= k) -> dot (V3 a b d) r <= k).
  { intros a b d k K. destruct (C37_convex_hull (exact_patch p) (B2R s) (B2R t) (V3 a b d) k) as (r' & Er' & Hr); [exact (proj1 HP)|apply S|apply T| |rewrite Er in Er'; injection Er' as <-; exact Hr].
    intros i j I. unfold half_space. rewrite exact_get. now apply K. }
  assert (Y : lo <= c r <= hi).
  { destruct C as [[-> ->]|[[-> ->]|[-> ->]]]; [assert (G1 := G 1 0 0 hi); assert (G2 := G (-1) 0 0 (- lo))|assert (G1 := G 0 1 0 hi); assert (G2 := G 0 (-1) 0 (- lo))|assert (G1 := G 0 0 1 hi); assert (G2 := G 0 0 (-1) (- lo))];
      unfold dot in G1, G2; cbn [vx vy vz exact_vec] in G1, G2; split.
    all: first [eapply Rle_trans; [|apply G1; intros i j I; destruct (H i j I); lra]; lra|apply Ropp_le_cancel; eapply Rle_trans; [|apply G2; intros i j I; destruct (H i j I); lra]; lra]. }
  apply Rabs_le_inv in X. lra.
Qed.
Print Assumptions C104_in_box.

Lemma place (q r : fvec) : (forall f c, coordinates f c -> is_finite (f q) = true /\ B2R (f q) = B2R (f r)) -> same_place q r.
Proof.
  intros H. destruct (H fx vx ltac:(left; auto)) as [F1 V1]. destruct (H fy vy ltac:(right; left; auto)) as [F2 V2]. destruct (H fz vz ltac:(right; right; auto)) as [F3 V3].
  split; [now split|]. unfold exact_vec. now rewrite V1, V2, V3.
Qed.
Definition at_end (n : nat) (e : b64) (k : nat) : Prop := (B2R e = 0 /\ k = O) \/ (B2R e = 1 /\ k = n).
Lemma at_end_weight fpow n e k i : accurate_pow fpow -> parameter e -> (1 <= n <= 20)%nat -> at_end n e k -> (i <= n)%nat -> B2R (fB fpow n e i) = if (i =? k)%nat then 1 else 0.
Proof. intros A P N K I. destruct (fB_near fpow A n e i P I N) as (_ & _ & _ & W0 & W1). destruct K as [[K ->]|[K ->]]; auto. Qed.
Lemma side_first fpow p (e t : b64) M k : accurate_pow fpow -> usual_size M -> patch_within M p -> parameter e -> parameter t -> at_end (Z.to_nat (forder p)) e k ->
  exists q r, fpatch_eval fpow p e t = Some q /\ fcurve fpow (side p (fun j => (Z.of_nat k, j))) t = Some r /\ same_place q r.
Proof.
  intros A HM HP E T K. set (n := Z.to_nat (forder p)) in *. assert (N : (1 <= n <= 20)%nat) by (destruct HP; lia). assert (Kn : (k <= n)%nat) by (destruct K as [[_ ->]|[_ ->]]; lia).
  destruct (eval_value fpow A p e t E T N M HM HP) as (q & Eq & Vq). destruct (curve_value fpow A n t (fun j => fpatch_get p (Z.of_nat k) (Z.of_nat j)) M T N HM) as (r & Er & Vr); [intros j _; now apply get_within|].
  exists q, r. split; [exact Eq|]. split; [exact Er|]. apply place. intros f c C. destruct (Vq f c C) as [F ->]. destruct (Vr f c C) as [_ ->]. split; [exact F|].
  unfold grid, values. fold n. rewrite flat_map_map, (racc_rows _ n k 0 Kn rnd_0).
  - unfold line. rewrite !map_map. f_equal. apply map_ext_in. intros j J. apply in_seq in J. unfold cell. cbn [fst snd]. fold n. destruct (product_near fpow A n e t k j E T Kn ltac:(lia) N) as (_ & V & _).
    rewrite V, (at_end_weight fpow n e k k A E N K Kn), Nat.eqb_refl, Rmult_1_l, format_b64. reflexivity.
  - intros i x I D H. rewrite map_map in H. apply in_map_iff in H. destruct H as (j & <- & J). apply in_seq in J. unfold cell. cbn [fst snd]. fold n. destruct (product_near fpow A n e t i j E T I ltac:(lia) N) as (_ & V & _).
    rewrite V, (at_end_weight fpow n e k i A E N K I), (proj2 (Nat.eqb_neq i k) D), Rmult_0_l. exact rnd_0.
Qed.
Lemma side_second fpow p (s e : b64) M k : accurate_pow fpow -> usual_size M -> patch_within M p -> parameter s -> parameter e -> at_end (Z.to_nat (forder p)) e k ->
  exists q r, fpatch_eval fpow p s e = Some q /\ fcurve fpow (side p (fun i => (i, Z.of_nat k))) s = Some r /\ same_place q r.
Proof.
  intros A HM HP S E K. set (n := Z.to_nat (forder p)) in *. assert (N : (1 <= n <= 20)%nat) by (destruct HP; lia). assert (Kn : (k <= n)%nat) by (destruct K as [[_ ->]|[_ ->]]; lia).
  destruct (eval_value fpow A p s e S E N M HM HP) as (q & Eq & Vq). destruct (curve_value fpow A n s (fun i => fpatch_get p (Z.of_nat i) (Z.of_nat k)) M S N HM) as (r & Er & Vr); [intros j _; now apply get_within|].
  exists q, r. split; [exact Eq|]. split; [exact Er|]. apply place. intros f c C. destruct (Vq f c C) as [F ->]. destruct (Vr f c C) as [_ ->]. split; [exact F|].
  unfold grid, values, line. fold n. rewrite flat_map_map, map_map.
  assert (G : forall m i a, (i + m <= Datatypes.S n)%nat -> rnd a = a ->
    racc (flat_map (fun x => map (fun a => (B2R (fst a), B2R (snd a))) (map (cell fpow p s e f x) (seq 0 (Datatypes.S n)))) (seq i m)) a =
    racc (map (fun i => (B2R (fst (f (fpatch_get p (Z.of_nat i) (Z.of_nat k)), fB fpow n s i)), B2R (snd (f (fpatch_get p (Z.of_nat i) (Z.of_nat k)), fB fpow n s i)))) (seq i m)) a).
  { induction m as [|m IH]; intros i a L Fa; [reflexivity|]. change (seq i (Datatypes.S m)) with (i :: seq (Datatypes.S i) m). cbn [flat_map]. rewrite racc_app, map_map.
    rewrite (racc_select _ n k a Kn Fa).
    - cbn [racc map]. rewrite IH by (lia || apply rnd_rnd). f_equal. unfold cell. cbn [fst snd]. fold n. destruct (product_near fpow A n s e i k S E ltac:(lia) Kn N) as (_ & V & _).
      rewrite V, (at_end_weight fpow n e k k A E N K Kn), Nat.eqb_refl, Rmult_1_r, format_b64. reflexivity.
    - intros j J D. unfold cell. cbn [fst snd]. fold n. destruct (product_near fpow A n s e i j S E ltac:(lia) J N) as (_ & V & _).
      rewrite V, (at_end_weight fpow n e k j A E N K J), (proj2 (Nat.eqb_neq j k) D), Rmult_0_r. exact rnd_0. }
  apply G; [lia|exact rnd_0].
Qed.

(** The sides of a patch are exactly the computed curves of the control points along them. *)
Theorem C104_sides : forall fpow p (e t : b64) M, accurate_pow fpow -> usual_size M -> patch_within M p -> parameter e -> parameter t ->
  (B2R e = 0 -> (exists q r, fpatch_eval fpow p e t = Some q /\ fcurve fpow (side p (fun j => (0, j)%Z)) t = Some r /\ same_place q r) /\
                (exists q r, fpatch_eval fpow p t e = Some q /\ fcurve fpow (side p (fun i => (i, 0)%Z)) t = Some r /\ same_place q r)) /\
  (B2R e = 1 -> (exists q r, fpatch_eval fpow p e t = Some q /\ fcurve fpow (side p (fun j => (forder p, j)%Z)) t = Some r /\ same_place q r) /\
                (exists q r, fpatch_eval fpow p t e = Some q /\ fcurve fpow (side p (fun i => (i, forder p)%Z)) t = Some r /\ same_place q r)).
Proof.
  intros fpow p e t M A HM HP E T. assert (Q : Z.of_nat (Z.to_nat (forder p)) = forder p) by (destruct HP; lia). split; intros V.
  - split; [apply (side_first fpow p e t M 0)|apply (side_second fpow p t e M 0)]; auto; left; auto.
  - rewrite <- Q. split.
    + assert (G := side_first fpow p e t M (Z.to_nat (forder p)) A HM HP E T ltac:(right; auto)). rewrite Q in G |- *. exact G.
    + assert (G := side_second fpow p t e M (Z.to_nat (forder p)) A HM HP T E ltac:(right; auto)). rewrite Q in G |- *. exact G.
Qed.
Print Assumptions C104_sides.

(** So patches that share the control points of a side meet there without gaps: the computed points are the same. *)
Theorem C104_no_gap : forall fpow p p' (a b t : b64) M, accurate_pow fpow -> usual_size M -> patch_within M p -> patch_within M p' -> parameter a -> parameter b -> parameter t ->
  B2R a = 1 -> B2R b = 0 -> forder p = forder p' -> (forall j, (0 <= j <= forder p)%Z -> fpatch_get p (forder p) j = fpatch_get p' 0 j) ->
  exists q q', fpatch_eval fpow p a t = Some q /\ fpatch_eval fpow p' b t = Some q' /\ same_place q q'.
Proof.
  intros fpow p p' a b t M A HM HP HP' Pa Pb T Va Vb O H.
  destruct (proj2 (C104_sides fpow p a t M A HM HP Pa T) Va) as [(q & r & Eq & Er & [Fq Sq]) _]. destruct (proj1 (C104_sides fpow p' b t M A HM HP' Pb T) Vb) as [(q' & r' & Eq' & Er' & [Fq' Sq']) _].
  exists q, q'. split; [exact Eq|]. split; [exact Eq'|]. split; [exact Fq|]. rewrite Sq, Sq'. f_equal.
  assert (G : side p (fun j => (forder p, j)%Z) = side p' (fun j => (0, j)%Z)).
  { unfold side. rewrite <- O. apply map_ext_in. intros j J. apply in_seq in J. cbn [fst snd]. apply H. destruct HP. lia. }
  rewrite G, Er' in Er. injection Er as <-. reflexivity.
Qed.
Print Assumptions C104_no_gap.

Lemma curve_end fpow n (e : b64) (h : nat -> fvec) M k : accurate_pow fpow -> usual_size M -> (1 <= n <= 20)%nat -> (forall i, (i <= n)%nat -> point_within M (h i)) -> parameter e -> at_end n e k ->
  exists r, fcurve fpow (map h (seq 0 (S n))) e = Some r /\ same_place r (h k).
Proof.
  intros A HM N Hh E K. assert (Kn : (k <= n)%nat) by (destruct K as [[_ ->]|[_ ->]]; lia). destruct (curve_value fpow A n e h M E N HM Hh) as (r & Er & Vr). exists r. split; [exact Er|]. apply place. intros f c C.
  destruct (Vr f c C) as [F ->]. split; [exact F|]. unfold values, line. rewrite map_map. rewrite (racc_select _ n k 0 Kn rnd_0).
  - cbn [racc fst snd]. rewrite (at_end_weight fpow n e k k A E N K Kn), Nat.eqb_refl, Rmult_1_r, Rplus_0_l, rnd_rnd. apply format_b64.
  - intros i I D. cbn [fst snd]. rewrite (at_end_weight fpow n e k i A E N K I), (proj2 (Nat.eqb_neq i k) D). reflexivity.
Qed.
(** The corners are exactly the control points in the corners. *)
Theorem C104_corners : forall fpow p (s t : b64) M i j, accurate_pow fpow -> usual_size M -> patch_within M p -> parameter s -> parameter t ->
  (B2R s = 0 /\ i = 0%Z) \/ (B2R s = 1 /\ i = forder p) -> (B2R t = 0 /\ j = 0%Z) \/ (B2R t = 1 /\ j = forder p) ->
  exists q, fpatch_eval fpow p s t = Some q /\ same_place q (fpatch_get p i j).
Proof.
  intros fpow p s t M i j A HM HP S T I J. set (n := Z.to_nat (forder p)). assert (N : (1 <= n <= 20)%nat) by (destruct HP; lia).
  assert (G : forall (e : b64) k, (B2R e = 0 /\ k = 0%Z) \/ (B2R e = 1 /\ k = forder p) -> exists m, k = Z.of_nat m /\ at_end n e m).
  { intros e k [[V ->]|[V ->]]; [exists O; split; [reflexivity|left; auto]|exists n; split; [destruct HP; lia|right; auto]]. }
  destruct (G s i I) as (a & -> & Ka). destruct (G t j J) as (b & -> & Kb).
  destruct (side_first fpow p s t M a A HM HP S T Ka) as (q & r & Eq & Er & [Fq Sq]). exists q. split; [exact Eq|]. split; [exact Fq|]. rewrite Sq.
  destruct (curve_end fpow n t (fun j => fpatch_get p (Z.of_nat a) (Z.of_nat j)) M b A HM N) as (r' & Er' & [_ Sr]); [intros; now apply get_within|exact T|exact Kb|].
  unfold side in Er. cbn [fst snd] in Er. fold n in Er. rewrite Er in Er'. injection Er' as <-. exact Sr.
Qed.
Print Assumptions C104_corners.

(** Not exactly in the box: a patch with equal control points leaves them. *)
Definition flat_patch : fpatch := mkFPatch 1 [three; three; three; three].
Lemma flat_within : patch_within 3 flat_patch.
Proof.
  split; [cbn; lia|]. assert (V : B2R (b64_of_Z 3) = 3) by (destruct (b64_int 3 ltac:(lia)) as [V _]; exact V).
  assert (P : point_within 3 three) by (repeat split; cbn [three fx fy fz]; rewrite V, Rabs_pos_eq; lra). intros q [<-|[<-|[<-|[<-|[]]]]]; exact P.
Qed.
Lemma fifth_parameter : parameter fifth.
Proof. destruct C95_example as (_ & _ & _ & F & U). split; assumption. Qed.
Lemma three_usual : usual_size 3.
Proof.
  split.
  - apply Rle_trans with (bpow radix2 0); [apply bpow_le; lia|]. cbn. lra.
  - apply Rle_trans with (bpow radix2 2); [cbn; lra|]. apply bpow_le; lia.
Qed.
Theorem C104_hull_refuted : exists fpow p (s t : b64) q, accurate_pow fpow /\ patch_within 3 p /\ parameter s /\ parameter t /\
  (forall i j, inside_patch (forder p) i j -> B2R (fx (fpatch_get p i j)) = 3) /\ fpatch_eval fpow p s t = Some q /\ 3 < B2R (fx q).
Proof.
  exists good_pow, flat_patch, fifth, fifth. eexists. split; [exact good_pow_accurate|]. split; [exact flat_within|]. split; [exact fifth_parameter|]. split; [exact fifth_parameter|].
  assert (V : B2R (b64_of_Z 3) = 3) by (destruct (b64_int 3 ltac:(lia)) as [V _]; exact V).
  split. { intros i j [I J]. cbn [flat_patch forder] in I, J. assert (K : ((i = 0 \/ i = 1) /\ (j = 0 \/ j = 1))%Z) by lia. destruct K as [[-> | ->] [-> | ->]]; exact V. }
  split; [reflexivity|]. rewrite <- V at 1. apply blt; vm_compute; reflexivity.
Qed.
Print Assumptions C104_hull_refuted.

(** A patch of order 2 that meets the hypotheses *)
Definition hill : fpatch := mkFPatch 2 [three; FV (b64_of_Z (-1)) fifth (b64_of_Z 2); FV b64_0 (b64_of_Z 2) fifth; three; FV fifth fifth fifth; three; FV (b64_of_Z 1) (b64_of_Z 1) (b64_of_Z (-3)); three; FV fifth b64_0 (b64_of_Z 1)].
Example C104_case : accurate_pow good_pow /\ usual_size 3 /\ patch_within 3 hill /\ parameter fifth /\ parameter b64_0 /\ parameter b64_1 /\ fpatch_get hill 1 0 = FV (b64_of_Z (-1)) fifth (b64_of_Z 2).
Proof.
  split; [exact good_pow_accurate|]. split; [exact three_usual|]. destruct one_value as [V1 F1].
  assert (Ff : Rabs (B2R fifth) <= 3) by (destruct fifth_parameter as [_ K]; rewrite Rabs_pos_eq; lra).
  assert (Vz : forall n, (Z.abs n <= 3)%Z -> Rabs (B2R (b64_of_Z n)) <= 3).
  { intros n H. assert (K : (n = -3 \/ n = -2 \/ n = -1 \/ n = 0 \/ n = 1 \/ n = 2 \/ n = 3)%Z) by lia. destruct K as [->|[->|[->|[->|[->|[->| ->]]]]]]; apply Rabs_le; cbn; unfold F2R; cbn; lra. }
  split; [|split; [exact fifth_parameter|split; [split; [reflexivity|cbn; lra]|split; [split; [exact F1|rewrite V1; lra]|reflexivity]]]].
  split; [cbn; lia|]. intros q H. cbn [hill fcpoints In] in H. destruct H as [<-|[<-|[<-|[<-|[<-|[<-|[<-|[<-|[<-|[]]]]]]]]]]; repeat split; try exact Ff; try (apply (Vz 0%Z); lia); apply Vz; lia.
Qed.
