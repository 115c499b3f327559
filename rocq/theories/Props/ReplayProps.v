(** C92: playing again with what a playback remembers. *)
From Coq Require Import ZArith List Bool.
From Verif Require Import Model.Scalar Model.Playback Spec.PlaybackSpec Spec.ReplaySpec Proofs.PlaybackReplay.
Import ListNotations.
Local Open Scope Z_scope.

(** C92: after any history of calls with the one-shot, loop and list listeners (no assignments to public fields), Play(listener) does what Play does with the
    range and the speed that were last asked for, and Play(first, last, listener) what it does with that speed; for every scalar type. *)
Theorem C92_play_again S fuel p0 first last sp l os p l' :
  call_with S (one_way S) (OpPlay first last sp l) -> Forall (call_with S (one_way S)) os -> run S fuel p0 (OpPlay first last sp l :: os) = Done p ->
  let '(f, g, s) := asked S (first, last, sp) os in
  step S fuel p (OpPlayAgain l') = step S fuel p (OpPlay f g s l') /\
  forall a b, step S fuel p (OpPlayRange a b l') = step S fuel p (OpPlay a b s l').
Proof.
  intros C Cs R. cbn [run] in R. destruct (step S fuel p0 (OpPlay first last sp l)) as [q| |] eqn:E; try discriminate.
  assert (F : fine S false (first, last, sp) q).
  { cbn [step] in E. unfold lift in E. destruct (play S first last sp l p0) as [q'|] eqn:E'; [|discriminate]. injection E as <-. exact (play_fine S false _ _ _ _ _ _ C E'). }
  pose proof (run_fine S false fuel os _ _ _ Cs F R) as [K _]. destruct (asked S (first, last, sp) os) as [[f g] s]. destruct K as [K [[A B]|[Q _]]]; [|discriminate].
  cbn [step]. rewrite A, B, K. split; [|reflexivity]. f_equal. apply play_same; apply wrap_wrap.
Qed.
Print Assumptions C92_play_again.

(** With the ping-pong listener too the speed is remembered, but the range may be the reversed one. *)
Theorem C92_play_again_any S fuel p0 first last sp l os p l' :
  call_with S (built_in S) (OpPlay first last sp l) -> Forall (call_with S (built_in S)) os -> run S fuel p0 (OpPlay first last sp l :: os) = Done p ->
  let '(f, g, s) := asked S (first, last, sp) os in
  (step S fuel p (OpPlayAgain l') = step S fuel p (OpPlay f g s l') \/ step S fuel p (OpPlayAgain l') = step S fuel p (OpPlay g f s l')) /\
  forall a b, step S fuel p (OpPlayRange a b l') = step S fuel p (OpPlay a b s l').
Proof.
  intros C Cs R. cbn [run] in R. destruct (step S fuel p0 (OpPlay first last sp l)) as [q| |] eqn:E; try discriminate.
  assert (F : fine S true (first, last, sp) q).
  { cbn [step] in E. unfold lift in E. destruct (play S first last sp l p0) as [q'|] eqn:E'; [|discriminate]. injection E as <-. exact (play_fine S true _ _ _ _ _ _ C E'). }
  pose proof (run_fine S true fuel os _ _ _ Cs F R) as [K _]. destruct (asked S (first, last, sp) os) as [[f g] s]. destruct K as [K [[A B]|(_ & A & B)]];
    cbn [step]; rewrite A, B, K; (split; [|reflexivity]); [left|right]; f_equal; apply play_same; apply wrap_wrap.
Qed.
Print Assumptions C92_play_again_any.

(** Refuted for ping-pong (finding): after the first turn Play(listener) plays backwards from the end.  Frames 2 to 3 in double precision, one frame per second:
    after one second and a Stop, playing once more begins at frame 3. *)
Definition one : car B64Scalar := s1 B64Scalar.
Definition seen (r : result B64Scalar) : option (Z * Z * pstate) := match r with Done p => Some (frame (pf p), nextFrame (pf p), pst p) | _ => None end.
Theorem C92_pingpong_refuted :
  seen (run B64Scalar 3 (playback_init B64Scalar) [OpPlay 2 3 one LPingPong; OpUpdate (S := B64Scalar) one; OpStop; OpPlayAgain LOneShot]) = Some (3, 2, Playing) /\
  seen (run B64Scalar 3 (playback_init B64Scalar) [OpPlay 2 3 one LOneShot; OpUpdate (S := B64Scalar) one; OpStop; OpPlayAgain LOneShot]) = Some (2, 3, Playing).
Proof. split; vm_compute; reflexivity. Qed.
Print Assumptions C92_pingpong_refuted.

(** A range is replayed at two frames per second, the speed of the first call: one second later the third frame is reached. *)
Definition two : car B64Scalar := sadd B64Scalar one one.
Definition later_calls : list (op B64Scalar) := [OpUpdate (S := B64Scalar) one; OpPlayRange 5 9 LLoop; OpStop].
Example C92_example :
  seen (run B64Scalar 3 (playback_init B64Scalar) (OpPlay 2 3 two LOneShot :: later_calls ++ [OpPlayAgain LOneShot; OpUpdate (S := B64Scalar) one])) = Some (7, 8, Playing) /\
  Forall (call_with B64Scalar (one_way B64Scalar)) later_calls /\ asked B64Scalar (2, 3, two) later_calls = (5, 9, two).
Proof. split; [vm_compute; reflexivity|]. split; [repeat constructor|reflexivity]. Qed.
