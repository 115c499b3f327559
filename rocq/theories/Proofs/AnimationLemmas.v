(** Lemmas for C81 and C82: sampling keyframe sequences into matrices. *)
From Coq Require Import ZArith Reals List Bool Lia Lra.
From Verif Require Import Model.Scalar Model.Vec Model.Plane Model.Transforms Model.Keyframe Model.Playback Model.Animation.
From Verif Require Import Spec.KeyframeSpec Spec.TransformSpec Spec.AnimationSpec Spec.PlaybackSpec.
From Verif Require Import Proofs.KeyframeLemmas Proofs.KeyframeSeq.
Import ListNotations.
Open Scope Z_scope.

Lemma lerp3_between a b t : lerp3 a b t = between a b t.
Proof. destruct a as [a1 a2 a3], b as [b1 b2 b3]. unfold lerp3, between, vadd, vscale, vsub; cbn [vx vy vz]. f_equal; ring. Qed.

Lemma between_same a t : between a a t = a.
Proof. destruct a as [a1 a2 a3]. unfold between; cbn [vx vy vz]. f_equal; ring. Qed.

Lemma track_value_same {A} (ip ip' : interp A) kfs f v : (forall a b t, ip_lerp ip a b t = ip_lerp ip' a b t) ->
  track_value ip kfs f v -> track_value ip' kfs f v.
Proof.
  intros H T. destruct T as [k Hk E|k1 k2 H1 H2 Hb Hn|k1 H1 Hb Hn|k2 H1 Hb Hn].
  - apply tv_at; assumption.
  - rewrite H. apply tv_between; assumption.
  - apply tv_before; assumption.
  - apply tv_after; assumption.
Qed.

(** After the last keyframe the value does not change. *)
Lemma track_value_later {A} (ip : interp A) kfs e f v : (forall k, In k kfs -> kf_frame k <= e) -> e <= f ->
  track_value ip kfs e v -> track_value ip kfs f v.
Proof.
  intros H L T. destruct (Z.eq_dec e f) as [<-|N]; [exact T|].
  destruct T as [k Hk E|k1 k2 H1 H2 Hb Hn|k1 H1 Hb Hn|k2 H1 Hb Hn].
  - apply tv_after; [exact Hk|lia|]. intros k' Hk'. specialize (H k' Hk'). lia.
  - specialize (H k2 H2). lia.
  - specialize (H k1 H1). lia.
  - apply tv_after; [exact H1|lia|exact Hn].
Qed.

Lemma resize_default {A} n (v x : A) i : nth_error (vec_resize [] n v) i = Some x -> x = v.
Proof.
  unfold vec_resize. rewrite firstn_nil. cbn [app]. intros E. apply nth_error_In in E. apply repeat_spec in E. exact E.
Qed.

Section Seq.
Context {V Q : Type}.
Variables (ipv : interp V) (ipq : interp Q) (v0 v1 : V) (q1 : Q).
(** A sequence built from nothing has the default value in the tracks without keyframes. *)
Lemma build_defaults ps rs ss (s' : @kseq V Q) : build_keys ipv ipq v0 v1 q1 ps rs ss kseq_init = Some s' ->
  (ps = [] -> forall i v, nth_error (pos_keys s') i = Some v -> v = v0) /\
  (rs = [] -> forall i v, nth_error (rot_keys s') i = Some v -> v = q1) /\
  (ss = [] -> forall i v, nth_error (scl_keys s') i = Some v -> v = v1).
Proof.
  unfold build_keys. destruct (all_bounds ps rs ss) as [b e]. cbn [fst snd]. cbv zeta. destruct (b <? e).
  - destruct (build_track_safe ipv (pos_keys (@kseq_init V Q)) (kf_sort ps) (e - b) v0) as (x & Ex & L1).
    destruct (build_track_safe ipq (rot_keys (@kseq_init V Q)) (kf_sort rs) (e - b) q1) as (y & Ey & L2).
    destruct (build_track_safe ipv (scl_keys (@kseq_init V Q)) (kf_sort ss) (e - b) v1) as (z & Ez & L3).
    rewrite Ex, Ey, Ez. intros [= <-]. cbn [pos_keys rot_keys scl_keys].
    repeat split; intros ->; intros i v Hi.
    + cbn in Ex. injection Ex as <-. exact (resize_default _ _ _ _ Hi).
    + cbn in Ey. injection Ey as <-. exact (resize_default _ _ _ _ Hi).
    + cbn in Ez. injection Ez as <-. exact (resize_default _ _ _ _ Hi).
  - intros [= <-]. cbn. repeat split; intros _ i v Hi; destruct i; discriminate.
Qed.
End Seq.

Section Anim.
Variable slerp : quat -> quat -> R -> quat.
Variable li : vec3 -> vec3 -> vec3.
Variable si : quat -> quat -> quat.
Notation vi := (vec_interp li).
Notation qi := (quat_interp slerp si).
Notation build := (build_animation slerp li si).

Lemma sampled_matrix s m from to t p q c : frame_begin s < frame_end s ->
  interpolate vi qi s from to t = Sampled p q c ->
  exists m', interpolate_matrix slerp li si s m from to t = Some m' /\ matrix3_of p q c m'.
Proof.
  intros L E. unfold interpolate_matrix. apply Z.ltb_lt in L. rewrite L, E. eexists. split; [reflexivity|].
  intros v. destruct v as [a b d], p as [p1 p2 p3], q as [x y z w], c as [c1 c2 c3].
  unfold transform_vector, rotate_vector, scale_matrix, quaternion_to_matrix, set_position_3, vmul, rotate, dot, vadd, vscale, cross, qvec.
  cbn [vx vy vz qx qy qz qw row0 row1 row2 trans]. f_equal; ring.
Qed.

Lemma animation_pose ps rs ss : valid_frames ps -> valid_frames rs -> valid_frames ss ->
  distinct_frames ps -> distinct_frames rs -> distinct_frames ss ->
  In 0 (map kf_frame ps ++ map kf_frame rs ++ map kf_frame ss) ->
  exists s, build ps rs ss kseq_init = Some s /\ frame_begin s = 0 /\ 0 < frame_end s /\
  forall m from to t, 0 <= from -> 0 <= to ->
  exists m' p q, interpolate_matrix slerp li si s m from to t = Some m' /\
    pose_at qi li ps rs ss from p /\ pose_at qi li ps rs ss to q /\ shows m' (mixed qi p q t).
Proof.
  intros Vp Vr Vs Dp Dr Ds H0.
  destruct (all_bounds_ok ps rs ss Vp Vr Vs) as (B1 & B2 & B3 & B4).
  destruct (build_total vi qi vzero (V3 1 1 1) qone ps rs ss kseq_init) as (s & E & Eb & Ee).
  exists s. split; [exact E|].
  assert (U : used ps rs ss 0) by (unfold used; rewrite !in_app_iff in H0; tauto).
  apply B3 in U. assert (Eb0 : frame_begin s = 0) by lia. assert (He : 0 < frame_end s) by lia.
  split; [exact Eb0|]. split; [exact He|].
  intros m from to t Hf Ht.
  assert (L : lengths_ok s).
  { eapply build_lengths; [| | |exact E].
    - intros k Hk; specialize (Vp k Hk); lia.
    - intros k Hk; specialize (Vr k Hk); lia.
    - intros k Hk; specialize (Vs k Hk); lia. }
  destruct (build_values vi qi vzero (V3 1 1 1) qone ps rs ss kseq_init s Vp Vr Vs Dp Dr Ds E) as (W1 & W2 & W3).
  destruct (build_defaults vi qi vzero (V3 1 1 1) qone ps rs ss s E) as (D1 & D2 & D3).
  destruct (interpolate_ok vi qi s from to t L ltac:(lia)) as (p1 & r1 & c1 & p2 & r2 & c2 & F1 & F2 & F3 & F4 & F5 & F6 & F).
  destruct (sampled_matrix s m from to t _ _ _ ltac:(lia) F) as (m' & M1 & M2).
  assert (N : forall f, 0 <= f -> forall p r c,
    nth_error (pos_keys s) (Z.to_nat (nearest s f - frame_begin s)) = Some p ->
    nth_error (rot_keys s) (Z.to_nat (nearest s f - frame_begin s)) = Some r ->
    nth_error (scl_keys s) (Z.to_nat (nearest s f - frame_begin s)) = Some c -> pose_at qi li ps rs ss f (mkPose p r c)).
  { intros f Hf0 p r c N1 N2 N3.
    assert (Hn : 0 <= nearest s f - frame_begin s /\ (nearest s f - frame_begin s = f \/ (nearest s f - frame_begin s = frame_end s - 1 /\ frame_end s - 1 <= f)))
      by (unfold nearest; lia).
    destruct Hn as [Hn0 Hn].
    assert (LE : forall g, used ps rs ss g -> g <= frame_end s - 1) by (intros g Hg; apply B3 in Hg; lia).
    unfold pose_at, value_at; cbn [at_position at_rotation at_scale].
    assert (SAME : forall a b u, ip_lerp vi a b u = ip_lerp (straight li) a b u) by (intros; apply lerp3_between).
    repeat split.
    - destruct ps as [|k l] eqn:Eps; [left; split; [reflexivity|exact (D1 eq_refl _ _ N1)]|]. right. split; [discriminate|]. rewrite <- Eps in *.
      apply (track_value_same vi _ _ _ _ SAME). specialize (W1 ltac:(congruence) _ _ N1). rewrite Z2Nat.id in W1 by exact Hn0.
      destruct Hn as [Hn|[Hn Hn']]; [rewrite Hn in W1; exact W1|]. rewrite Hn in W1.
      apply (track_value_later _ _ _ _ _ (fun k Hk => LE _ (or_introl (in_map kf_frame _ _ Hk))) Hn' W1).
    - destruct rs as [|k l] eqn:Eps; [left; split; [reflexivity|exact (D2 eq_refl _ _ N2)]|]. right. split; [discriminate|]. rewrite <- Eps in *.
      specialize (W2 ltac:(congruence) _ _ N2). rewrite Z2Nat.id in W2 by exact Hn0.
      destruct Hn as [Hn|[Hn Hn']]; [rewrite Hn in W2; exact W2|]. rewrite Hn in W2.
      apply (track_value_later _ _ _ _ _ (fun k Hk => LE _ (or_intror (or_introl (in_map kf_frame _ _ Hk)))) Hn' W2).
    - destruct ss as [|k l] eqn:Eps; [left; split; [reflexivity|exact (D3 eq_refl _ _ N3)]|]. right. split; [discriminate|]. rewrite <- Eps in *.
      apply (track_value_same vi _ _ _ _ SAME). specialize (W3 ltac:(congruence) _ _ N3). rewrite Z2Nat.id in W3 by exact Hn0.
      destruct Hn as [Hn|[Hn Hn']]; [rewrite Hn in W3; exact W3|]. rewrite Hn in W3.
      apply (track_value_later _ _ _ _ _ (fun k Hk => LE _ (or_intror (or_intror (in_map kf_frame _ _ Hk)))) Hn' W3). }
  exists m', (mkPose p1 r1 c1), (mkPose p2 r2 c2).
  split; [exact M1|]. split; [exact (N from Hf _ _ _ F1 F2 F3)|]. split; [exact (N to Ht _ _ _ F4 F5 F6)|].
  unfold shows, mixed; cbn [at_position at_rotation at_scale].
  rewrite <- !lerp3_between. exact M2.
Qed.

Lemma animation_safe os : Forall builds_only os ->
  exists s, krun vi qi vzero (V3 1 1 1) qone kseq_init os = Some s /\
  forall m from to t,
    (frame_end s <= frame_begin s -> interpolate_matrix slerp li si s m from to t = Some m) /\
    (frame_begin s < frame_end s -> exists p q c m', interpolate vi qi s from to t = Sampled p q c /\
       interpolate_matrix slerp li si s m from to t = Some m' /\ matrix3_of p q c m').
Proof.
  intros Ho. destruct (krun_lengths vi qi vzero (V3 1 1 1) qone os kseq_init) as (s & E & L).
  - unfold lengths_ok; cbn. repeat split; lia.
  - exact Ho.
  - exists s. split; [exact E|]. intros m from to t. split; intros H.
    + unfold interpolate_matrix. apply Z.ltb_ge in H. rewrite H. reflexivity.
    + destruct (interpolate_ok vi qi s from to t L H) as (p1 & r1 & c1 & p2 & r2 & c2 & _ & _ & _ & _ & _ & _ & F).
      destruct (sampled_matrix s m from to t _ _ _ H F) as (m' & M1 & M2). do 4 eexists. eauto.
Qed.
End Anim.
