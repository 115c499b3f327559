(** Properties C81 and C82: the matrix of an animated object. *)
From Coq Require Import ZArith Reals List Bool Lia Lra.
From Verif Require Import Model.Scalar Model.Vec Model.Plane Model.Transforms Model.Keyframe Model.Playback Model.Animation.
From Verif Require Import Spec.KeyframeSpec Spec.TransformSpec Spec.AnimationSpec Spec.PlaybackSpec.
From Verif Require Import Proofs.KeyframeLemmas Proofs.KeyframeSeq Proofs.PlaybackLemmas Proofs.AnimationLemmas.
From Verif Require Import Proofs.AnimationPlay Props.PlaybackProps.
Import ListNotations.
Open Scope Z_scope.

(** ** C81 *)

(** The matrix sampled between two frames scales, rotates and moves by the values of the three tracks at the two frames,
    mixed by the given fraction; nothing of the old matrix is left.  Frames after the end count as the last one. *)
Theorem C81_matrix_of_frames :
  forall (slerp : quat -> quat -> R -> quat) (li : vec3 -> vec3 -> vec3) (si : quat -> quat -> quat)
    (ps : list (keyframe vec3)) (rs : list (keyframe quat)) (ss : list (keyframe vec3)),
  proper_tracks ps rs ss ->
  exists s, build_animation slerp li si ps rs ss kseq_init = Some s /\
  forall (m : affine) (from to : Z) (t : R), 0 <= from -> 0 <= to ->
  exists m' p q, interpolate_matrix slerp li si s m from to t = Some m' /\
    let turn := mkInterp slerp si in
    pose_at turn li ps rs ss from p /\ pose_at turn li ps rs ss to q /\ shows m' (mixed turn p q t).
Proof.
  intros slerp li si ps rs ss ((Vp & Vr & Vs) & (Dp & Dr & Ds) & H0).
  destruct (animation_pose slerp li si ps rs ss Vp Vr Vs Dp Dr Ds H0) as (s & E & _ & _ & H). exists s. split; [exact E|exact H].
Qed.
Print Assumptions C81_matrix_of_frames.

(** After any number of builds sampling is in bounds; without frames the matrix is not touched. *)
Theorem C81_sampling_safe :
  forall (slerp : quat -> quat -> R -> quat) (li : vec3 -> vec3 -> vec3) (si : quat -> quat -> quat) (os : list (@kop vec3 quat)),
  Forall (fun o => match o with
                   | KBuild ps rs ss => (forall k, In k ps -> 0 <= kf_frame k) /\ (forall k, In k rs -> 0 <= kf_frame k)
                                        /\ (forall k, In k ss -> 0 <= kf_frame k)
                   | KClear => False end) os ->
  exists s, krun (vec_interp li) (quat_interp slerp si) (V3 0 0 0) (V3 1 1 1) (Q4 0 0 0 1) kseq_init os = Some s /\
  forall m from to t,
    (frame_end s <= frame_begin s -> interpolate_matrix slerp li si s m from to t = Some m) /\
    (frame_begin s < frame_end s -> exists p q c m', interpolate (vec_interp li) (quat_interp slerp si) s from to t = Sampled p q c /\
       interpolate_matrix slerp li si s m from to t = Some m' /\ matrix3_of p q c m').
Proof. exact animation_safe. Qed.
Print Assumptions C81_sampling_safe.

(** After ClearKeys the arrays are empty but the range of frames is not: a key outside of the arrays is read. *)
Theorem C81_sampling_after_clear_refuted :
  forall (slerp : quat -> quat -> R -> quat) (li : vec3 -> vec3 -> vec3) (si : quat -> quat -> quat) (a : vec3) (p : playback RScalar),
  exists s, krun (vec_interp li) (quat_interp slerp si) (V3 0 0 0) (V3 1 1 1) (Q4 0 0 0 1) kseq_init [KBuild [mkKf a 0] [] []; KClear] = Some s
  /\ forall m, interpolate_playback slerp li si s m p = None.
Proof.
  intros. eexists. split; [vm_compute; reflexivity|]. intros m. unfold interpolate_playback, interpolate_matrix, interpolate.
  cbn [frame_begin frame_end pos_keys rot_keys scl_keys]. change (0 <? 1) with true. cbn iota zeta. unfold vec_at. destruct (_ <? 0); [reflexivity|].
  destruct (Z.to_nat _); reflexivity.
Qed.
Print Assumptions C81_sampling_after_clear_refuted.

(** An animation that does not begin at frame 0 shows the wrong pose: the origin is still at [a] at frame 6. *)
Theorem C81_late_start_refuted :
  forall (slerp : quat -> quat -> R -> quat) (li : vec3 -> vec3 -> vec3) (si : quat -> quat -> quat) (a b : vec3), a <> b ->
  exists s, build_animation slerp li si [mkKf a 5; mkKf b 6] [] [] kseq_init = Some s /\
  forall m, exists m', interpolate_matrix slerp li si s m 6 6 0 = Some m' /\ transform_vector m' (V3 0 0 0) = a.
Proof.
  intros slerp li si a b H. eexists. split; [vm_compute; reflexivity|]. intros m.
  edestruct (sampled_matrix slerp li si (mkSeq [a; a] [qone; qone] [V3 1 1 1; V3 1 1 1] 5 7) m 6 6 0) as (m' & E & M).
  - cbn; lia.
  - reflexivity.
  - exists m'. split; [exact E|]. rewrite M. cbn [vec_interp ip_lerp]. rewrite !lerp3_between. destruct a as [a1 a2 a3].
    unfold between, rotate, cross, vadd, vscale; cbn [vx vy vz]. f_equal; ring.
Qed.
Print Assumptions C81_late_start_refuted.

(** Two positions, one turn; the position half way between frames 1 and 2. *)
Definition ex_slerp (a b : quat) (t : R) : quat :=
  Q4 ((1 - t) * qx a + t * qx b) ((1 - t) * qy a + t * qy b) ((1 - t) * qz a + t * qz b) ((1 - t) * qw a + t * qw b).
Definition ex_positions : list (keyframe vec3) := [mkKf (V3 30 0 3) 3; mkKf (V3 0 6 0) 0].
Definition ex_rotations : list (keyframe quat) := [mkKf (Q4 0 0 1 0) 2].
Lemma ex_frames : proper_tracks ex_positions ex_rotations [].
Proof.
  unfold proper_tracks, valid_frames, distinct_frames, ex_positions, ex_rotations; cbn [In map kf_frame app].
  split; [split; [|split]|split; [split; [|split]|]].
  1-3: intros k H; repeat destruct H as [<-|H]; try contradiction; cbn; lia.
  1-3: repeat constructor; cbn; intuition discriminate.
  right; left; reflexivity.
Qed.
Example C81_example : exists s, build_animation ex_slerp (fun a _ => a) (fun a _ => a) ex_positions ex_rotations [] kseq_init = Some s /\
  forall m, exists m', interpolate_matrix ex_slerp (fun a _ => a) (fun a _ => a) s m 1 2 (1 / 2) = Some m' /\
  transform_vector m' (V3 1 0 0) = V3 14 3 (3 / 2).
Proof.
  eexists. split; [vm_compute; reflexivity|]. intros m. eexists. split; [reflexivity|].
  unfold transform_vector, rotate_vector, dot, vadd, vmul, lerp3, vscale, vsub. cbn. f_equal; field.
Qed.

(** ** C82: a playback shows the pose of the frames it plays *)

Theorem C82_oneshot_pose :
  forall (slerp : quat -> quat -> R -> quat) (li : vec3 -> vec3 -> vec3) (si : quat -> quat -> quat) ps rs ss
    (p0 : playback RScalar) (first last : Z) (speed : R) (ds : list R) (k : Z),
  proper_tracks ps rs ss ->
  is_size first -> is_size last -> first <> last -> (0 <= speed)%R -> whole_frames (speed * elapsed ds) k -> k < span first last ->
  exists p, ends_in p0 (OpPlay first last speed LOneShot :: update_calls ds) p /\
    plays_between slerp li si ps rs ss p (frame_at first last k) (frame_at first last (k + 1)) (speed * elapsed ds - IZR k).
Proof.
  intros slerp li si ps rs ss p0 first last speed ds k ((V1 & V2 & V3) & (D1 & D2 & D3) & H0).
  exact (oneshot_pose slerp li si ps rs ss V1 V2 V3 D1 D2 D3 H0 p0 first last speed ds k).
Qed.
Print Assumptions C82_oneshot_pose.

(** When the playback has ended the pose is that of the last frame, if interpolating between equal rotations has no effect. *)
Theorem C82_oneshot_end_pose :
  forall (slerp : quat -> quat -> R -> quat) (li : vec3 -> vec3 -> vec3) (si : quat -> quat -> quat) ps rs ss
    (p0 : playback RScalar) (first last : Z) (speed : R) (ds : list R) (k : Z),
  proper_tracks ps rs ss ->
  (forall q t, slerp q q t = q) ->
  is_size first -> is_size last -> first <> last -> (0 <= speed)%R -> whole_frames (speed * elapsed ds) k -> span first last <= k ->
  exists p, ends_in p0 (OpPlay first last speed LOneShot :: update_calls ds) p /\
    exists s, build_animation slerp li si ps rs ss kseq_init = Some s /\
    forall m, exists m' a, interpolate_playback slerp li si s m p = Some m' /\ pose_at (mkInterp slerp si) li ps rs ss last a /\ shows m' a.
Proof.
  intros slerp li si ps rs ss p0 first last speed ds k ((V1 & V2 & V3) & (D1 & D2 & D3) & H0).
  exact (oneshot_end slerp li si ps rs ss V1 V2 V3 D1 D2 D3 H0 p0 first last speed ds k).
Qed.
Print Assumptions C82_oneshot_end_pose.

Theorem C82_loop_pose :
  forall (slerp : quat -> quat -> R -> quat) (li : vec3 -> vec3 -> vec3) (si : quat -> quat -> quat) ps rs ss
    (p0 : playback RScalar) (first last : Z) (speed : R) (ds : list R) (k : Z),
  proper_tracks ps rs ss ->
  is_size first -> is_size last -> (0 <= speed)%R -> whole_frames (speed * elapsed ds) k ->
  exists p, ends_in p0 (OpPlay first last speed LLoop :: update_calls ds) p /\
    plays_between slerp li si ps rs ss p (loop_frame first last k) (loop_frame first last (k + 1)) (speed * elapsed ds - IZR k).
Proof.
  intros slerp li si ps rs ss p0 first last speed ds k ((V1 & V2 & V3) & (D1 & D2 & D3) & H0).
  exact (loop_pose slerp li si ps rs ss V1 V2 V3 D1 D2 D3 H0 p0 first last speed ds k).
Qed.
Print Assumptions C82_loop_pose.

Theorem C82_loop_backward_pose :
  forall (slerp : quat -> quat -> R -> quat) (li : vec3 -> vec3 -> vec3) (si : quat -> quat -> quat) ps rs ss
    (p0 : playback RScalar) (first last : Z) (speed : R) (ds : list R) (k : Z),
  proper_tracks ps rs ss ->
  is_size first -> is_size last -> (speed < 0)%R -> (0 < elapsed ds)%R -> whole_frames (- speed * elapsed ds) k ->
  exists p, ends_in p0 (OpPlay first last speed LLoop :: update_calls ds) p /\
    plays_between slerp li si ps rs ss p (loop_frame last first (k + 1)) (loop_frame last first k) (1 - (- speed * elapsed ds - IZR k)).
Proof.
  intros slerp li si ps rs ss p0 first last speed ds k ((V1 & V2 & V3) & (D1 & D2 & D3) & H0).
  exact (loop_back_pose slerp li si ps rs ss V1 V2 V3 D1 D2 D3 H0 p0 first last speed ds k).
Qed.
Print Assumptions C82_loop_backward_pose.

Theorem C82_pingpong_pose :
  forall (slerp : quat -> quat -> R -> quat) (li : vec3 -> vec3 -> vec3) (si : quat -> quat -> quat) ps rs ss
    (p0 : playback RScalar) (first last : Z) (speed : R) (ds : list R) (k : Z),
  proper_tracks ps rs ss ->
  is_size first -> is_size last -> first <> last -> (0 <= speed)%R -> whole_frames (speed * elapsed ds) k ->
  exists p, ends_in p0 (OpPlay first last speed LPingPong :: update_calls ds) p /\
    plays_between slerp li si ps rs ss p (pingpong_frame first last k) (pingpong_frame first last (k + 1)) (speed * elapsed ds - IZR k).
Proof.
  intros slerp li si ps rs ss p0 first last speed ds k ((V1 & V2 & V3) & (D1 & D2 & D3) & H0).
  exact (pingpong_pose slerp li si ps rs ss V1 V2 V3 D1 D2 D3 H0 p0 first last speed ds k).
Qed.
Print Assumptions C82_pingpong_pose.

(** The example above played from frame 0 to frame 3 at 2 frames per second: after 0.75 s half way between frames 1 and 2. *)
Example C82_example : exists p, ends_in (playback_init RScalar) (OpPlay 0 3 2%R LOneShot :: update_calls [0.25; 0.5]%R) p /\
  plays_between ex_slerp (fun a _ => a) (fun a _ => a) ex_positions ex_rotations [] p 1 2 (1 / 2).
Proof.
  destruct (C82_oneshot_pose ex_slerp (fun a _ => a) (fun a _ => a) ex_positions ex_rotations [] (playback_init RScalar) 0 3 2 [0.25; 0.5]%R 1)
    as (p & E & H).
  - exact ex_frames.
  - unfold is_size; lia.
  - unfold is_size; lia.
  - lia.
  - lra.
  - unfold whole_frames; cbn [elapsed]. rewrite !Rmax_left by lra. lra.
  - reflexivity.
  - exists p. split; [exact E|]. replace (1 / 2)%R with (2 * elapsed [0.25; 0.5] - IZR 1)%R; [exact H|].
    cbn [elapsed]. rewrite !Rmax_left by lra. lra.
Qed.

Example C82_slerp_example : forall q t, ex_slerp q q t = q.
Proof. intros [x y z w] t. unfold ex_slerp; cbn [qx qy qz qw]. f_equal; ring. Qed.
