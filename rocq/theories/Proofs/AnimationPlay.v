(** Lemmas for C82: keyframe sequences sampled by a playback. *)
From Coq Require Import ZArith Reals List Bool Lia Lra.
From Verif Require Import Model.Scalar Model.Vec Model.Plane Model.Transforms Model.Keyframe Model.Playback Model.Animation.
From Verif Require Import Spec.KeyframeSpec Spec.TransformSpec Spec.AnimationSpec Spec.PlaybackSpec.
From Verif Require Import Proofs.KeyframeLemmas Proofs.KeyframeSeq Proofs.PlaybackLemmas Proofs.AnimationLemmas.
From Verif Require Import Props.PlaybackProps.
Import ListNotations.
Open Scope Z_scope.

(** The matrix sampled by the playback [p] shows the pose that is mixed from those at the frames [f] and [g]. *)
Definition plays_between slerp li si ps rs ss (p : playback RScalar) (f g : Z) (t : R) : Prop :=
  exists s, build_animation slerp li si ps rs ss kseq_init = Some s /\
  forall m, exists m' a b, interpolate_playback slerp li si s m p = Some m' /\
    let turn := mkInterp slerp si in
    pose_at turn li ps rs ss f a /\ pose_at turn li ps rs ss g b /\ shows m' (mixed turn a b t).

Section Playing.
Variables (slerp : quat -> quat -> R -> quat) (li : vec3 -> vec3 -> vec3) (si : quat -> quat -> quat).
Variables (ps : list (keyframe vec3)) (rs : list (keyframe quat)) (ss : list (keyframe vec3)).
Hypotheses (Vp : valid_frames ps) (Vr : valid_frames rs) (Vs : valid_frames ss).
Hypotheses (Dp : distinct_frames ps) (Dr : distinct_frames rs) (Ds : distinct_frames ss).
Hypothesis H0 : In 0 (map kf_frame ps ++ map kf_frame rs ++ map kf_frame ss).
Let turn := mkInterp slerp si.

Notation plays_between := (plays_between slerp li si ps rs ss).

Lemma plays_fields p f g t : 0 <= f -> 0 <= g -> frame (pf p) = f -> nextFrame (pf p) = g -> interpolator (pf p) = t ->
  plays_between p f g t.
Proof.
  intros Hf Hg <- <- <-. destruct (animation_pose slerp li si ps rs ss Vp Vr Vs Dp Dr Ds H0) as (s & E & _ & _ & H).
  exists s. split; [exact E|]. intros m. exact (H m _ _ (interpolator (pf p)) Hf Hg).
Qed.

Lemma frame_at_nonneg a b i : is_size a -> is_size b -> 0 <= i <= span a b -> 0 <= frame_at a b i.
Proof. unfold is_size, frame_at, span. intros. destruct (Z.leb_spec a b); lia. Qed.

Lemma whole_nonneg s ds k : (0 <= s)%R -> whole_frames (s * elapsed ds) k -> 0 <= k.
Proof.
  intros Hs Hk. unfold whole_frames in Hk. pose proof (Rmult_le_pos s _ Hs (elapsed_nonneg ds)).
  assert (0 < k + 1); [|lia]. apply lt_IZR. rewrite plus_IZR. lra.
Qed.

Lemma oneshot_pose :
  forall (p0 : playback RScalar) (first last : Z) (speed : R) (ds : list R) (k : Z),
  is_size first -> is_size last -> first <> last -> (0 <= speed)%R -> whole_frames (speed * elapsed ds) k -> k < span first last ->
  exists p, ends_in p0 (OpPlay first last speed LOneShot :: update_calls ds) p /\
    plays_between p (frame_at first last k) (frame_at first last (k + 1)) (speed * elapsed ds - IZR k).
Proof.
  intros p0 a b v ds k Ha Hb Hab Hv Hk Hlt.
  destruct (C02_oneshot_visits_range p0 a b v ds k Ha Hb Hab Hv Hk) as (p & E & F & _ & G).
  pose proof (whole_nonneg v ds k Hv Hk) as K.
  apply Z.ltb_lt in Hlt. rewrite Hlt in G. apply Z.ltb_lt in Hlt. destruct G as (G1 & G2 & _).
  exists p. split; [exact E|]. apply plays_fields.
  - apply frame_at_nonneg; [assumption..|lia].
  - apply frame_at_nonneg; [assumption..|lia].
  - rewrite F. unfold oneshot_frame. rewrite Z.min_l by lia. reflexivity.
  - exact G2.
  - exact G1.
Qed.

(** When the playback has ended the pose is that of the last frame. *)
Lemma oneshot_end :
  forall (p0 : playback RScalar) (first last : Z) (speed : R) (ds : list R) (k : Z),
  (forall q t, slerp q q t = q) ->
  is_size first -> is_size last -> first <> last -> (0 <= speed)%R -> whole_frames (speed * elapsed ds) k -> span first last <= k ->
  exists p, ends_in p0 (OpPlay first last speed LOneShot :: update_calls ds) p /\
    exists s, build_animation slerp li si ps rs ss kseq_init = Some s /\
    forall m, exists m' a, interpolate_playback slerp li si s m p = Some m' /\ pose_at turn li ps rs ss last a /\ shows m' a.
Proof.
  intros p0 a b v ds k Hq Ha Hb Hab Hv Hk Hle. pose proof (whole_nonneg v ds k Hv Hk) as K.
  destruct (oneshot_play p0 a b v Ha Hb Hab Hv) as (p1 & E1 & HI & Hi).
  destruct (oneshot_updates p0 a b v Ha Hb Hab Hv ds 0 p1 (Z.to_nat k) HI) as (N & p' & j & E & R1 & R2).
  - unfold span; lia.
  - rewrite Hi; lra.
  - rewrite Hi, INR_IZR_INZ, Z2Nat.id by exact K. unfold whole_frames in Hk. lra.
  - cbn [Nat.add] in *. rewrite Z2Nat.id in R2 by exact K.
    destruct R2 as [(X & _)|(_ & X)]; [lia|].
    exists p'. split.
    { exists N. intros fuel Hf. cbn [run step]. rewrite E1. cbn [lift]. apply E, Hf. }
    pose proof (oi_frame _ _ _ _ _ _ R1) as F. pose proof (oi_next _ _ _ _ _ _ R1) as G.
    unfold oneshot_frame in F, G. rewrite Z.min_r in F, G by lia. rewrite frame_at_span in F, G.
    destruct (plays_fields p' b b (interpolator (pf p')) ltac:(unfold is_size in Hb; lia) ltac:(unfold is_size in Hb; lia) F G eq_refl) as (s & B & H).
    exists s. split; [exact B|]. intros m. destruct (H m) as (m' & x & y & M & P1 & P2 & S).
    exists m', x. split; [exact M|]. split; [exact P1|].
    assert (x = y) as <-.
    { destruct x as [x1 x2 x3], y as [y1 y2 y3]. destruct P1 as (A1 & A2 & A3), P2 as (B1 & B2 & B3). cbn [at_position at_rotation at_scale] in *.
      f_equal.
      - destruct A1 as [[A A1]|[A A1]], B1 as [[B' B1]|[B' B1]]; try congruence. exact (track_value_unique _ _ _ _ _ Dp A1 B1).
      - destruct A2 as [[A A2]|[A A2]], B2 as [[B' B2]|[B' B2]]; try congruence. exact (track_value_unique _ _ _ _ _ Dr A2 B2).
      - destruct A3 as [[A A3]|[A A3]], B3 as [[B' B3]|[B' B3]]; try congruence. exact (track_value_unique _ _ _ _ _ Ds A3 B3). }
    unfold shows, mixed in S. cbn [at_position at_rotation at_scale] in S. rewrite !between_same in S. cbn in S. rewrite Hq in S. exact S.
Qed.

Lemma loop_pose :
  forall (p0 : playback RScalar) (first last : Z) (speed : R) (ds : list R) (k : Z),
  is_size first -> is_size last -> (0 <= speed)%R -> whole_frames (speed * elapsed ds) k ->
  exists p, ends_in p0 (OpPlay first last speed LLoop :: update_calls ds) p /\
    plays_between p (loop_frame first last k) (loop_frame first last (k + 1)) (speed * elapsed ds - IZR k).
Proof.
  intros p0 a b v ds k Ha Hb Hv Hk.
  destruct (C03_loop_cycles p0 a b v ds k Ha Hb Hv Hk) as (p & E & _ & F & G & I & _).
  assert (N : forall i, 0 <= loop_frame a b i).
  { intros i. unfold loop_frame. apply frame_at_nonneg; [assumption..|].
    pose proof (Z.mod_pos_bound i (span a b + 1) ltac:(unfold span; lia)). lia. }
  exists p. split; [exact E|]. apply plays_fields; auto.
Qed.

Lemma pingpong_pose :
  forall (p0 : playback RScalar) (first last : Z) (speed : R) (ds : list R) (k : Z),
  is_size first -> is_size last -> first <> last -> (0 <= speed)%R -> whole_frames (speed * elapsed ds) k ->
  exists p, ends_in p0 (OpPlay first last speed LPingPong :: update_calls ds) p /\
    plays_between p (pingpong_frame first last k) (pingpong_frame first last (k + 1)) (speed * elapsed ds - IZR k).
Proof.
  intros p0 a b v ds k Ha Hb Hab Hv Hk.
  destruct (C04_pingpong_bounces p0 a b v ds k Ha Hb Hab Hv Hk) as (p & E & _ & F & G & I & _).
  assert (N : forall i, 0 <= pingpong_frame a b i).
  { intros i. unfold pingpong_frame. apply frame_at_nonneg; [assumption..|]. unfold triangle_wave.
    assert (0 < span a b) by (unfold span; lia).
    pose proof (Z.mod_pos_bound i (2 * span a b) ltac:(lia)). destruct (Z.leb_spec (i mod (2 * span a b)) (span a b)); lia. }
  exists p. split; [exact E|]. apply plays_fields; auto.
Qed.
Lemma loop_back_pose :
  forall (p0 : playback RScalar) (first last : Z) (speed : R) (ds : list R) (k : Z),
  is_size first -> is_size last -> (speed < 0)%R -> (0 < elapsed ds)%R -> whole_frames (- speed * elapsed ds) k ->
  exists p, ends_in p0 (OpPlay first last speed LLoop :: update_calls ds) p /\
    plays_between p (loop_frame last first (k + 1)) (loop_frame last first k) (1 - (- speed * elapsed ds - IZR k)).
Proof.
  intros p0 a b v ds k Ha Hb Hv He Hk.
  destruct (C07_loop_backward_mirrors p0 a b v ds k Ha Hb Hv He Hk) as (p & E & _ & F & G & I).
  assert (N : forall i, 0 <= loop_frame b a i).
  { intros i. unfold loop_frame. apply frame_at_nonneg; [assumption..|].
    pose proof (Z.mod_pos_bound i (span b a + 1) ltac:(unfold span; lia)). lia. }
  exists p. split; [exact E|]. apply plays_fields; auto.
Qed.
End Playing.
