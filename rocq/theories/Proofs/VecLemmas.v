From Coq Require Import Reals Lra Psatz.
From Verif Require Import Model.Scalar Model.Vec.
Local Open Scope R_scope.

Lemma Rleb_iff x y : Rleb x y = true <-> x <= y.
Proof. unfold Rleb. destruct (Rle_dec x y); intuition congruence. Qed.
Lemma Rleb_false x y : Rleb x y = false <-> y < x.
Proof. unfold Rleb. destruct (Rle_dec x y); split; intros; try congruence; lra. Qed.
Lemma Rltb_iff x y : Rltb x y = true <-> x < y.
Proof. unfold Rltb. destruct (Rlt_dec x y); intuition congruence. Qed.
Lemma Rltb_false x y : Rltb x y = false <-> y <= x.
Proof. unfold Rltb. destruct (Rlt_dec x y); split; intros; try congruence; lra. Qed.
Lemma Reqb_iff x y : Reqb x y = true <-> x = y.
Proof. unfold Reqb. destruct (Req_EM_T x y); intuition congruence. Qed.
Lemma Reqb_false x y : Reqb x y = false <-> x <> y.
Proof. unfold Reqb. destruct (Req_EM_T x y); intuition congruence. Qed.

Ltac vdestr := repeat match goal with v : vec3 |- _ => destruct v | v : vec2 |- _ => destruct v end.
Ltac vunfold := unfold len_sq, dot, cross, vadd, vsub, vopp, vscale, vzero, lerp3, add2, sub2, scale2, dot2 in *; cbn [vx vy vz x2 y2] in *.
Ltac vring := vdestr; vunfold; try (f_equal; ring); try ring.

Lemma vec3_ext a b : vx a = vx b -> vy a = vy b -> vz a = vz b -> a = b.
Proof. destruct a, b; cbn; intros -> -> ->; reflexivity. Qed.
Lemma dot_comm a b : dot a b = dot b a. Proof. vring. Qed.
Lemma dot_add_l a b c : dot (vadd a b) c = dot a c + dot b c. Proof. vring. Qed.
Lemma dot_add_r a b c : dot a (vadd b c) = dot a b + dot a c. Proof. vring. Qed.
Lemma dot_sub_l a b c : dot (vsub a b) c = dot a c - dot b c. Proof. vring. Qed.
Lemma dot_sub_r a b c : dot a (vsub b c) = dot a b - dot a c. Proof. vring. Qed.
Lemma dot_scale_l s a b : dot (vscale s a) b = s * dot a b. Proof. vring. Qed.
Lemma dot_scale_r s a b : dot a (vscale s b) = s * dot a b. Proof. vring. Qed.
Lemma dot_opp_l a b : dot (vopp a) b = - dot a b. Proof. vring. Qed.
Lemma dot_opp_r a b : dot a (vopp b) = - dot a b. Proof. vring. Qed.
Lemma dot_cross_l a b : dot a (cross a b) = 0. Proof. vring. Qed.
Lemma dot_cross_r a b : dot b (cross a b) = 0. Proof. vring. Qed.
Lemma lagrange a b : dot (cross a b) (cross a b) = dot a a * dot b b - dot a b * dot a b. Proof. vring. Qed.

Lemma dot_self_ge a : 0 <= dot a a.
Proof. vdestr; vunfold; nra. Qed.
Lemma dot_self_0 a : dot a a = 0 -> a = vzero.
Proof. destruct a as [x y z]; unfold dot; cbn; intros H. assert (x = 0) by nra. assert (y = 0) by nra. assert (z = 0) by nra. subst; reflexivity. Qed.
Lemma cauchy a b : dot a b * dot a b <= dot a a * dot b b.
Proof. assert (H := dot_self_ge (cross a b)). rewrite lagrange in H. lra. Qed.
Lemma len_ge a : 0 <= len a. Proof. apply sqrt_pos. Qed.
Lemma len_sqr a : len a * len a = dot a a. Proof. apply sqrt_sqrt, dot_self_ge. Qed.
Lemma len_0 a : len a = 0 -> a = vzero.
Proof. intros H. apply dot_self_0. rewrite <- len_sqr, H. ring. Qed.
Lemma cauchy_abs a b : Rabs (dot a b) <= len a * len b.
Proof.
  apply Rsqr_incr_0_var; [|apply Rmult_le_pos; apply len_ge]. rewrite <- Rsqr_abs. unfold Rsqr.
  replace (len a * len b * (len a * len b)) with ((len a * len a) * (len b * len b)) by ring. rewrite !len_sqr. apply cauchy.
Qed.
Lemma cauchy_le a b : dot a b <= len a * len b.
Proof. eapply Rle_trans; [apply Rle_abs|apply cauchy_abs]. Qed.
Lemma len_pos a : dot a a <> 0 -> 0 < len a.
Proof. intros H. apply sqrt_lt_R0. assert (K := dot_self_ge a). lra. Qed.

Lemma normalize_dot v : v <> vzero -> dot (normalize v) (normalize v) = 1.
Proof.
  intros H. unfold normalize. destruct (Reqb (dot v v) 0) eqn:E; [apply Reqb_iff, dot_self_0 in E; contradiction|].
  destruct (Reqb (dot v v) 1) eqn:E1; [apply Reqb_iff in E1; exact E1|]. apply Reqb_false in E.
  assert (P := len_pos v E). rewrite dot_scale_l, dot_scale_r, <- len_sqr. field. lra.
Qed.
Lemma normalize_zero : normalize vzero = vzero.
Proof. unfold normalize. replace (dot vzero vzero) with 0 by (unfold dot, vzero; cbn; ring). replace (Reqb 0 0) with true by (symmetry; apply Reqb_iff; reflexivity). reflexivity. Qed.
Lemma normalize_scale v : v <> vzero -> normalize v = vscale (/ len v) v.
Proof.
  intros H. unfold normalize. destruct (Reqb (dot v v) 0) eqn:E; [apply Reqb_iff, dot_self_0 in E; contradiction|].
  destruct (Reqb (dot v v) 1) eqn:E1; [|reflexivity]. apply Reqb_iff in E1. unfold len. rewrite E1, sqrt_1, Rinv_1. destruct v; unfold vscale; cbn. f_equal; ring.
Qed.
Lemma unit_dot_le a b : dot a a = 1 -> dot b b = 1 -> -1 <= dot a b <= 1.
Proof. intros Ha Hb. assert (C := cauchy a b). rewrite Ha, Hb in C. nra. Qed.
