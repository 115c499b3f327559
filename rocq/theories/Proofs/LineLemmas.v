From Coq Require Import Reals List Bool Lra Psatz.
From Verif Require Import Model.Scalar Model.Vec Model.Plane Model.Coll Spec.PlaneSpec Spec.CollSpec Proofs.VecLemmas.
Local Open Scope R_scope.

Lemma saturate_range x : 0 <= saturate x <= 1.
Proof. unfold saturate, Rmax, Rmin. destruct (Rle_dec x 1); destruct (Rle_dec 0 _); lra. Qed.
Lemma saturate_cases x : (x < 0 /\ saturate x = 0) \/ (0 <= x <= 1 /\ saturate x = x) \/ (1 < x /\ saturate x = 1).
Proof. unfold saturate, Rmax, Rmin. destruct (Rle_dec x 1); destruct (Rle_dec 0 _); lra. Qed.

(** Minimum of a*s + q over the unit interval, as a variational inequality *)
Lemma saturate_vi a q : 0 < a -> let s := saturate (- q / a) in forall s', 0 <= s' <= 1 -> 0 <= (a * s + q) * (s' - s).
Proof.
  intros Ha s s' Hs'. assert (E : a * (- q / a) = - q) by (field; lra).
  destruct (saturate_cases (- q / a)) as [(K & F)|[(K & F)|(K & F)]]; fold s in F; rewrite F.
  - assert (0 < q) by nra. apply Rmult_le_pos; lra.
  - replace (a * (- q / a) + q) with 0 by lra. lra.
  - assert (- q > a) by nra. nra.
Qed.

Section KKT.
Variables a b c e f : R.
Hypothesis Ha : 0 < a.
Hypothesis He : 0 < e.
Hypothesis Hd : 0 <= a * e - b * b.
Hypothesis Hz : a * e - b * b = 0 -> c * e = b * f.

Definition kkt_s0 : R := if Reqb (a * e - b * b) 0 then 0 else saturate ((b * f - c * e) / (a * e - b * b)).
Definition kkt : R * R :=
  let s := kkt_s0 in
  let t := (b * s + f) / e in
  if Rltb t 0 then (saturate (- c / a), 0)
  else if Rltb 1 t then (saturate ((b - c) / a), 1)
  else (s, t).

(** The first estimate s0 minimises over the segment A and the whole line B. *)
Lemma s0_range : 0 <= kkt_s0 <= 1.
Proof. unfold kkt_s0. destruct (Reqb _ 0); [lra|apply saturate_range]. Qed.
Lemma s0_vi s' : 0 <= s' <= 1 -> 0 <= ((a * e - b * b) * kkt_s0 + c * e - b * f) * (s' - kkt_s0).
Proof.
  intros Hs. unfold kkt_s0. destruct (Reqb (a * e - b * b) 0) eqn:E.
  - apply Reqb_iff in E. rewrite E. replace (0 * 0 + c * e - b * f) with 0 by (rewrite Hz by exact E; ring). lra.
  - apply Reqb_false in E. assert (P : 0 < a * e - b * b) by lra.
    assert (K := saturate_vi (a * e - b * b) (c * e - b * f) P s' Hs). cbn zeta in K.
    replace (- (c * e - b * f) / (a * e - b * b)) with ((b * f - c * e) / (a * e - b * b)) in K by (field; lra).
    eapply Rle_trans; [exact K|]. right. ring.
Qed.

Lemma low_t s : b * kkt_s0 + f <= 0 -> 0 <= s <= 1 -> (forall s', 0 <= s' <= 1 -> 0 <= (a * s + c) * (s' - s)) -> b * s + f <= 0.
Proof.
  intros H Hs V. assert (V0 := V kkt_s0 s0_range). assert (W := s0_vi s Hs). assert (R0 := s0_range). set (s0 := kkt_s0) in *.
  (* add the two inequalities:  e*(a s + c)(s0 - s) >= 0  and  (e (a s0 + c) - b (b s0 + f)) (s - s0) >= 0 *)
  assert (X : 0 <= (e * (a * s0 + c) - b * (b * s0 + f)) * (s - s0)) by (eapply Rle_trans; [exact W|right; ring]).
  assert (Y : 0 <= e * (a * s + c) * (s0 - s)) by (rewrite Rmult_assoc; apply Rmult_le_pos; lra).
  assert (Z : a * e * (s - s0) * (s - s0) <= - (b * (b * s0 + f)) * (s - s0)).
  { replace (- (b * (b * s0 + f)) * (s - s0)) with ((e * (a * s0 + c) - b * (b * s0 + f)) * (s - s0) + e * (a * s + c) * (s0 - s) + a * e * (s - s0) * (s - s0)) by ring. lra. }
  destruct (Req_dec s s0) as [->|N]; [exact H|].
  (* b (s - s0) =: d; then  d^2 <= a e (s-s0)^2 <= - d (b s0 + f) *)
  set (d := b * (s - s0)). assert (D : d * d <= - d * (b * s0 + f)).
  { unfold d. eapply Rle_trans; [|eapply Rle_trans; [exact Z|right; ring]].
    replace (b * (s - s0) * (b * (s - s0))) with (b * b * ((s - s0) * (s - s0))) by ring.
    replace (a * e * (s - s0) * (s - s0)) with (a * e * ((s - s0) * (s - s0))) by ring.
    apply Rmult_le_compat_r; [exact (Rle_0_sqr (s - s0))|lra]. }
  replace (b * s + f) with (d + (b * s0 + f)) by (unfold d; ring).
  destruct (Rle_dec d 0); [lra|]. assert (d <= - (b * s0 + f)); [|lra]. apply (Rmult_le_reg_l d); nra.
Qed.

Lemma kkt_spec : let (s, t) := kkt in 0 <= s <= 1 /\ 0 <= t <= 1 /\
  (forall s', 0 <= s' <= 1 -> 0 <= (a * s - b * t + c) * (s' - s)) /\
  (forall t', 0 <= t' <= 1 -> 0 <= (e * t - b * s - f) * (t' - t)).
Proof.
  unfold kkt. set (t0 := (b * kkt_s0 + f) / e). cbn zeta. assert (T0 : e * t0 = b * kkt_s0 + f) by (unfold t0; field; lra).
  destruct (Rltb t0 0) eqn:E.
  - apply Rltb_iff in E. assert (L : b * kkt_s0 + f <= 0) by nra. set (s := saturate (- c / a)).
    assert (S := saturate_range (- c / a)). fold s in S.
    assert (V : forall s', 0 <= s' <= 1 -> 0 <= (a * s + c) * (s' - s)) by (intros s' Hs'; apply (saturate_vi a c Ha s' Hs')).
    assert (B := low_t s L S V). split; [exact S|]. split; [lra|]. split.
    + intros s' Hs'. replace (a * s - b * 0 + c) with (a * s + c) by ring. apply V, Hs'.
    + intros t' Ht'. apply Rmult_le_pos; lra.
  - apply Rltb_false in E. destruct (Rltb 1 t0) eqn:E1.
    + apply Rltb_iff in E1. set (s := saturate ((b - c) / a)). assert (S := saturate_range ((b - c) / a)). fold s in S.
      assert (V : forall s', 0 <= s' <= 1 -> 0 <= (a * s + (c - b)) * (s' - s)).
      { intros s' Hs'. assert (K := saturate_vi a (c - b) Ha s' Hs'). cbn zeta in K. replace (- (c - b) / a) with ((b - c) / a) in K by (field; lra). exact K. }
      split; [exact S|]. split; [lra|]. split.
      * intros s' Hs'. replace (a * s - b * 1 + c) with (a * s + (c - b)) by ring. apply V, Hs'.
      * assert (B : e <= b * s + f); [|intros t' Ht'; nra].
        (* the same argument as in low_t, mirrored at t = 1 *)
        assert (V0 := V kkt_s0 s0_range). assert (W := s0_vi s S). set (s0 := kkt_s0) in *.
        assert (H : e <= b * s0 + f) by nra.
        assert (X : 0 <= (e * (a * s0 + c) - b * (b * s0 + f)) * (s - s0)) by (eapply Rle_trans; [exact W|right; ring]).
        assert (Y : 0 <= e * (a * s + (c - b)) * (s0 - s)) by (rewrite Rmult_assoc; apply Rmult_le_pos; lra).
        set (d := b * (s - s0)). set (g := b * s0 + f - e) in *.
        assert (Z : a * e * (s - s0) * (s - s0) <= - d * g).
        { replace (- d * g) with ((e * (a * s0 + c) - b * (b * s0 + f)) * (s - s0) + e * (a * s + (c - b)) * (s0 - s) + a * e * (s - s0) * (s - s0)) by (unfold d, g; ring). lra. }
        assert (D : d * d <= - d * g).
        { unfold d at 1 2. eapply Rle_trans; [|exact Z].
          replace (b * (s - s0) * (b * (s - s0))) with (b * b * ((s - s0) * (s - s0))) by ring.
          replace (a * e * (s - s0) * (s - s0)) with (a * e * ((s - s0) * (s - s0))) by ring.
          apply Rmult_le_compat_r; [exact (Rle_0_sqr (s - s0))|lra]. }
        assert (G : 0 <= g) by (unfold g; lra).
        replace (b * s + f) with (d + g + e) by (unfold d, g; ring).
        destruct (Rle_dec 0 d); [lra|]. assert (- g <= d); [|lra].
        apply (Rmult_le_reg_l (- d)); [lra|]. replace (- d * - g) with (d * g) by ring. nra.
    + apply Rltb_false in E1. assert (R0 := s0_range). split; [exact R0|]. split; [lra|]. split.
      * intros s' Hs'. assert (W := s0_vi s' Hs'). apply (Rmult_le_reg_l e); [exact He|]. rewrite Rmult_0_r.
        eapply Rle_trans; [exact W|]. right.
        replace (e * ((a * kkt_s0 - b * t0 + c) * (s' - kkt_s0))) with ((e * a * kkt_s0 - b * (e * t0) + c * e) * (s' - kkt_s0)) by ring.
        rewrite T0. ring.
      * intros t' Ht'. replace (e * t0 - b * kkt_s0 - f) with 0 by lra. lra.
Qed.
End KKT.

(** Squared distance of two points of two lines, and its first order condition *)
Lemma quad_min (r u v : vec3) s t s' t' :
  0 <= (dot u u * s - dot u v * t + dot u r) * (s' - s) -> 0 <= (dot v v * t - dot u v * s - dot v r) * (t' - t) ->
  let q x y := vadd r (vsub (vscale x u) (vscale y v)) in
  dot (q s t) (q s t) <= dot (q s' t') (q s' t').
Proof.
  intros A B q. set (w := vsub (vscale (s' - s) u) (vscale (t' - t) v)).
  assert (W := dot_self_ge w).
  assert (E : dot (q s' t') (q s' t') = dot (q s t) (q s t) + dot w w +
    2 * ((dot u u * s - dot u v * t + dot u r) * (s' - s)) + 2 * ((dot v v * t - dot u v * s - dot v r) * (t' - t))).
  { unfold q, w. clear. vring. }
  lra.
Qed.

Lemma parallel_coeff u v r : dot u u * dot v v - dot u v * dot u v = 0 -> 0 < dot v v -> dot u r * dot v v = dot u v * dot v r.
Proof.
  intros H P. set (w := vsub (vscale (dot v v) u) (vscale (dot u v) v)).
  assert (E : dot w w = dot v v * (dot u u * dot v v - dot u v * dot u v)) by (unfold w; clear; vring).
  rewrite H, Rmult_0_r in E. apply dot_self_0 in E.
  assert (F : dot w r = dot v v * dot u r - dot u v * dot v r) by (unfold w; clear; vring).
  rewrite E in F. replace (dot vzero r) with 0 in F by (unfold dot, vzero; cbn; ring). lra.
Qed.

Lemma dist_le a b c d : dot (vsub a b) (vsub a b) <= dot (vsub c d) (vsub c d) -> dist a b <= dist c d.
Proof. intros H. unfold dist, len. apply sqrt_le_1; [apply dot_self_ge|apply dot_self_ge|exact H]. Qed.

Lemma closest_params_spec eps A B : 0 < eps -> eps < len_sq (line_direction A) -> eps < len_sq (line_direction B) ->
  let (s, t) := closest_params eps A B in
  let u := line_direction A in let v := line_direction B in let r := vsub (la A) (la B) in
  0 <= s <= 1 /\ 0 <= t <= 1 /\
  (forall s', 0 <= s' <= 1 -> 0 <= (dot u u * s - dot u v * t + dot u r) * (s' - s)) /\
  (forall t', 0 <= t' <= 1 -> 0 <= (dot v v * t - dot u v * s - dot v r) * (t' - t)).
Proof.
  intros He HA HB. unfold len_sq in *. unfold closest_params, len_sq.
  set (u := line_direction A) in *. set (v := line_direction B) in *. set (r := vsub (la A) (la B)).
  replace (Rleb (dot u u) eps) with false by (symmetry; apply Rleb_false; lra).
  replace (Rleb (dot v v) eps) with false by (symmetry; apply Rleb_false; lra).
  assert (C := cauchy u v).
  assert (K := kkt_spec (dot u u) (dot u v) (dot u r) (dot v v) (dot v r) ltac:(lra) ltac:(lra) ltac:(lra)
    (fun H => parallel_coeff u v r H ltac:(lra))).
  exact K.
Qed.

Lemma dist_sym x y : dist x y = dist y x.
Proof. unfold dist, len. f_equal. clear. vring. Qed.
Lemma len_add a b : len (vadd a b) <= len a + len b.
Proof.
  assert (A := len_ge a). assert (B := len_ge b). assert (C := cauchy_le a b).
  apply Rsqr_incr_0_var; [|lra]. unfold Rsqr. rewrite len_sqr.
  replace (dot (vadd a b) (vadd a b)) with (dot a a + dot b b + 2 * dot a b) by (clear; vring).
  assert (LA := len_sqr a). assert (LB := len_sqr b). nra.
Qed.
Lemma dist_triangle x y z : dist x z <= dist x y + dist y z.
Proof. unfold dist. replace (vsub x z) with (vadd (vsub x y) (vsub y z)) by (clear; vring). apply len_add. Qed.
