(** Properties C01-C08, C61, C62: animation playback. *)
From Coq Require Import ZArith Reals List Bool Lia Lra.
From Flocq Require Import Core IEEE754.BinarySingleNaN.
From Verif Require Import Model.Scalar Model.Playback Spec.PlaybackSpec.
From Verif Require Import Proofs.PlaybackLemmas Proofs.PlaybackMore Proofs.PlaybackSim Proofs.PlaybackBackward Proofs.PlaybackFloat.
Import ListNotations.
Open Scope Z_scope.

(** The range of [std::size_t]. *)
Definition is_size (z : Z) : Prop := 0 <= z < 2 ^ 64.

(** Successive Update calls. *)
Definition update_calls (ds : list R) : list (op RScalar) := map (fun d => @OpUpdate RScalar d) ds.

(** A history of calls ends in [p], once the loop bound is large enough. *)
Definition ends_in {S : scalar} (p0 : playback S) (os : list (op S)) (p : playback S) : Prop :=
  exists N, forall fuel, (N <= fuel)%nat -> run S fuel p0 os = Done p.

(** ** C01 *)

Theorem C01_notifications_describe_state :
  forall (S : scalar) (os : list (op S)) (fuel : nat) (p : playback S),
  run S fuel (playback_init S) os = Done p ->
  legal_from Stopped (announcements (plog p)) /\ pst p = last (announcements (plog p)) Stopped.
Proof. exact (fun S os fuel p => log_ok_run S fuel os _ p (log_ok_init S)). Qed.
Print Assumptions C01_notifications_describe_state.

(** A listener that pauses from inside OnNextFrame: the history Play, Stop has the expected log. *)
Example C01_example :
  run RScalar 5 (playback_init RScalar)
    [OpPlay 2 7 1%R (LCustom (fun _ _ => [APause RScalar true; ASetNext RScalar])); OpStop] =
  Done (mkPlayback (pf (with_pf RScalar (set_next_frame RScalar) (mkPlayback (@mkFields RScalar 2 7 2 0 0%R 1%R) Paused LOneShot [])))
         Stopped (LCustom (fun _ _ => [APause RScalar true; ASetNext RScalar])) [EvPlay; EvNext 2; EvPause; EvStop]).
Proof. reflexivity. Qed.

(** ** C02 *)

Theorem C02_oneshot_visits_range :
  forall (p0 : playback RScalar) (first last : Z) (speed : R) (ds : list R) (k : Z),
  is_size first -> is_size last -> first <> last -> (0 <= speed)%R ->
  whole_frames (speed * elapsed ds) k ->
  exists p, ends_in p0 (OpPlay first last speed LOneShot :: update_calls ds) p
  /\ frame (pf p) = oneshot_frame first last k
  /\ pst p = (if k <? span first last then Playing else Stopped)
  /\ (if k <? span first last
      then interpolator (pf p) = (speed * elapsed ds - IZR k)%R
           /\ nextFrame (pf p) = frame_at first last (k + 1)
           /\ plog p = plog (stop RScalar p0) ++ EvPlay :: map (fun i => EvNext (frame_at first last i)) (upto (k + 1))
      else exists m, plog p = plog (stop RScalar p0) ++ EvPlay ::
             map (fun i => EvNext (frame_at first last i)) (upto (span first last + 1)) ++ EvStop :: repeat (EvNext last) m).
Proof.
  intros p0 a b s ds k Ha Hb Hab Hs Hk.
  assert (Hk0 : 0 <= k).
  { unfold whole_frames in Hk. pose proof (Rmult_le_pos s _ Hs (elapsed_nonneg ds)).
    assert (0 < k + 1); [|lia]. apply lt_IZR. rewrite plus_IZR. lra. }
  destruct (oneshot_play p0 a b s Ha Hb Hab Hs) as (p1 & E1 & HI & Hi).
  destruct (oneshot_updates p0 a b s Ha Hb Hab Hs ds 0 p1 (Z.to_nat k) HI) as (N & p' & j & E & R1 & R2).
  - unfold span; lia.
  - rewrite Hi; lra.
  - rewrite Hi, INR_IZR_INZ, Z2Nat.id by exact Hk0. unfold whole_frames in Hk. lra.
  - exists p'. cbn [Nat.add] in *. rewrite Z2Nat.id in R2 by exact Hk0.
    destruct R1 as [I1 I2 I3 I4 I5 I6 I7 I8].
    assert (Hend : ends_in p0 (OpPlay a b s LOneShot :: update_calls ds) p').
    { exists N. intros fuel Hf. cbn [run step]. rewrite E1. cbn [lift]. apply E, Hf. }
    split; [exact Hend|].
    unfold pre_log in I8. rewrite <- app_assoc in I8. cbn [app] in I8.
    destruct R2 as [(A & B & C)|(A & B)].
    + subst j. rewrite Z2Nat.id in * by exact Hk0. apply Z.ltb_lt in A. rewrite A in *. apply Z.ltb_lt in A.
      repeat split; auto.
      * rewrite C, Hi, INR_IZR_INZ, Z2Nat.id by exact Hk0. lra.
      * rewrite I7. unfold oneshot_frame. rewrite Z.min_l by lia. reflexivity.
      * rewrite I8. unfold nexts, upto. rewrite map_map.
        replace (Z.to_nat (k + 1)) with (Datatypes.S (Z.to_nat k)) by lia. reflexivity.
    + destruct (Z.ltb_spec k (span a b)); [lia|]. destruct (Z.ltb_spec (Z.of_nat j) (span a b)); [lia|].
      repeat split; auto.
      * rewrite I6. unfold oneshot_frame. rewrite !Z.min_r by lia. reflexivity.
      * eexists. rewrite I8. unfold nexts, upto. rewrite map_map.
        replace (Z.to_nat (span a b + 1)) with (Datatypes.S (Z.to_nat (span a b))) by (unfold span; lia). reflexivity.
Qed.
Print Assumptions C02_oneshot_visits_range.

(** Frames 3..6 at speed 2: three updates of 0.9s pass 5.4 frames, so the playback has stopped at frame 6. *)
Example C02_example : exists p, ends_in (playback_init RScalar) (OpPlay 3 6 2%R LOneShot :: update_calls [0.9; 0.9; 0.9]%R) p
  /\ frame (pf p) = 6 /\ pst p = Stopped.
Proof.
  destruct (C02_oneshot_visits_range (playback_init RScalar) 3 6 2 [0.9; 0.9; 0.9] 5)%R as (p & H & H1 & H2 & _).
  1, 2: unfold is_size; lia. 1: lia. 1: lra.
  - unfold whole_frames; cbn [elapsed]. rewrite !Rmax_left by lra. lra.
  - exists p. rewrite H1, H2. split; [exact H|]. split; reflexivity.
Qed.

(** The notifications are not only those of the visited frames: an Update that runs over the end goes on to deliver
    OnNextFrame after OnStop. *)
Theorem C02_silent_after_stop_refuted :
  exists p, run RScalar 5 (playback_init RScalar) [OpPlay 3 4 1%R LOneShot; @OpUpdate RScalar 2.5%R] = Done p
  /\ plog p = [EvPlay; EvNext 3; EvNext 4; EvStop; EvNext 4].
Proof.
  assert (Hs : (0 <= 1)%R) by lra.
  assert (E1 : play RScalar 3 4 1%R LOneShot (playback_init RScalar) =
    Some (@mkPlayback RScalar (@mkFields RScalar 3 4 3 4 0%R 1%R) Playing LOneShot [EvPlay; EvNext 3])).
  { rewrite play_plain by (unfold size_max; lia).
    unfold post_next_frame, has_end_reached, set_next_frame, are_frames_chrono, is_forward; cbn.
    unfold are_frames_chrono, is_forward; cbn. rewrite (Hsp_b 1 Hs). unfold with_pf; cbn. rewrite (Hsp_b 1 Hs). reflexivity. }
  cbn [run step]. rewrite E1. cbn [lift]. rewrite update_forward by (cbn; lra || reflexivity).
  eexists. split.
  - match goal with |- match ?x with _ => _ end = Done ?e => assert (E2 : x = Done e); [|rewrite E2; reflexivity] end.
    unfold add_time, with_pf, set_interp; cbn [pf plst pst plog firstFrame lastFrame frame nextFrame interpolator speed].
    cbn [forward_loop pf interpolator].
    replace (sle RScalar (s1 RScalar) (0 + 2.5 * 1)%R) with true by (symmetry; apply Rleb_true; cbn; lra).
    match goal with |- context [post_next_frame _ (with_pf _ ?g ?p)] => change (with_pf RScalar g p) with (advance p) end.
    rewrite (plain_oneshot 3 4 3 4 (0 + 2.5 * 1)%R 1%R Playing _ Hs).
    change (end_fwd 3 4 4) with true. cbn [stop pst set_state post with_st with_lst pf plst plog on_stop interpolator app].
    replace (sle RScalar (s1 RScalar) (0 + 2.5 * 1 - 1)%R) with true by (symmetry; apply Rleb_true; cbn; lra).
    match goal with |- context [post_next_frame _ (with_pf _ ?g ?p)] => change (with_pf RScalar g p) with (advance p) end.
    match goal with |- context [advance ?p] => change p with (@mkPlayback RScalar
      (@mkFields RScalar 3 4 4 4 (0 + 2.5 * 1 - 1)%R 1%R) Stopped LOneShot [EvPlay; EvNext 3; EvNext 4; EvStop]) end.
    rewrite (plain_oneshot 3 4 4 4 (0 + 2.5 * 1 - 1)%R 1%R Stopped _ Hs).
    change (end_fwd 3 4 4) with true. cbn [stop pst set_state post with_st with_lst pf plst plog on_stop interpolator app].
    replace (sle RScalar (s1 RScalar) (0 + 2.5 * 1 - 1 - 1)%R) with false by (symmetry; apply Rleb_false; cbn; lra).
    reflexivity.
  - reflexivity.
Qed.
Print Assumptions C02_silent_after_stop_refuted.

(** ** C03 *)

Theorem C03_loop_cycles :
  forall (p0 : playback RScalar) (first last : Z) (speed : R) (ds : list R) (k : Z),
  is_size first -> is_size last -> (0 <= speed)%R -> whole_frames (speed * elapsed ds) k ->
  exists p, ends_in p0 (OpPlay first last speed LLoop :: update_calls ds) p
  /\ pst p = Playing
  /\ frame (pf p) = loop_frame first last k
  /\ nextFrame (pf p) = loop_frame first last (k + 1)
  /\ interpolator (pf p) = (speed * elapsed ds - IZR k)%R
  /\ plog p = plog (stop RScalar p0) ++ EvPlay :: map (fun i => EvNext (loop_frame first last i)) (upto (k + 1)).
Proof.
  intros p0 a b s ds k Ha Hb Hs Hk.
  assert (Hk0 : 0 <= k).
  { unfold whole_frames in Hk. pose proof (Rmult_le_pos s _ Hs (elapsed_nonneg ds)).
    assert (0 < k + 1); [|lia]. apply lt_IZR. rewrite plus_IZR. lra. }
  destruct (loop_run p0 a b s ds (Z.to_nat k) Ha Hb Hs) as (N & p' & E & [I1 I2 I3 I4 I5 I6 I7 I8] & Ei).
  - rewrite INR_IZR_INZ, Z2Nat.id by exact Hk0. unfold whole_frames in Hk. lra.
  - exists p'. rewrite Z2Nat.id in * by exact Hk0. rewrite INR_IZR_INZ, Z2Nat.id in Ei by exact Hk0.
    unfold pre_log in I8. rewrite <- app_assoc in I8. cbn [app] in I8.
    repeat split; auto.
    + exists N. exact E.
    + rewrite I8. unfold nexts, upto. rewrite map_map.
      replace (Z.to_nat (k + 1)) with (Datatypes.S (Z.to_nat k)) by lia. reflexivity.
Qed.
Print Assumptions C03_loop_cycles.

Example C03_example : exists p, ends_in (playback_init RScalar) (OpPlay 3 6 2%R LLoop :: update_calls [0.9; 0.9; 0.9]%R) p
  /\ frame (pf p) = 4 /\ nextFrame (pf p) = 5.
Proof.
  destruct (C03_loop_cycles (playback_init RScalar) 3 6 2 [0.9; 0.9; 0.9] 5)%R as (p & H & _ & H1 & H2 & _).
  1, 2: unfold is_size; lia. 1: lra.
  - unfold whole_frames; cbn [elapsed]. rewrite !Rmax_left by lra. lra.
  - exists p. rewrite H1, H2. split; [exact H|]. split; reflexivity.
Qed.

(** ** C04 *)

Theorem C04_pingpong_bounces :
  forall (p0 : playback RScalar) (first last : Z) (speed : R) (ds : list R) (k : Z),
  is_size first -> is_size last -> first <> last -> (0 <= speed)%R -> whole_frames (speed * elapsed ds) k ->
  exists p, ends_in p0 (OpPlay first last speed LPingPong :: update_calls ds) p
  /\ pst p = Playing
  /\ frame (pf p) = pingpong_frame first last k
  /\ nextFrame (pf p) = pingpong_frame first last (k + 1)
  /\ interpolator (pf p) = (speed * elapsed ds - IZR k)%R
  /\ Z.min first last <= frame (pf p) <= Z.max first last
  /\ Z.abs (nextFrame (pf p) - frame (pf p)) = 1
  /\ plog p = plog (stop RScalar p0) ++ EvPlay :: map (fun i => EvNext (pingpong_frame first last i)) (upto (k + 1)).
Proof.
  intros p0 a b s ds k Ha Hb Hab Hs Hk.
  assert (Hk0 : 0 <= k).
  { unfold whole_frames in Hk. pose proof (Rmult_le_pos s _ Hs (elapsed_nonneg ds)).
    assert (0 < k + 1); [|lia]. apply lt_IZR. rewrite plus_IZR. lra. }
  destruct (pingpong_run p0 a b s ds (Z.to_nat k) Ha Hb Hab Hs) as (N & p' & E & [I1 I2 I3 I4 I5 I6 I7 I8] & Ei).
  - rewrite INR_IZR_INZ, Z2Nat.id by exact Hk0. unfold whole_frames in Hk. lra.
  - exists p'. rewrite Z2Nat.id in * by exact Hk0. rewrite INR_IZR_INZ, Z2Nat.id in Ei by exact Hk0.
    unfold pre_log in I8. rewrite <- app_assoc in I8. cbn [app] in I8.
    assert (Hb1 : Z.min a b <= pingpong_frame a b k <= Z.max a b).
    { unfold pingpong_frame, triangle_wave, frame_at. cbn zeta.
      pose proof (Z.mod_pos_bound k (2 * span a b) ltac:(unfold span; lia)).
      set (r := k mod (2 * span a b)) in *. clearbody r. unfold span in *. zb; lia. }
    assert (Hb2 : Z.abs (pingpong_frame a b (k + 1) - pingpong_frame a b k) = 1).
    { unfold pingpong_frame, triangle_wave, frame_at. cbn zeta.
      rewrite Zsucc_mod by (unfold span; lia).
      pose proof (Z.mod_pos_bound k (2 * span a b) ltac:(unfold span; lia)).
      set (r := k mod (2 * span a b)) in *. clearbody r. unfold span in *. zb; lia. }
    rewrite I5, I6 in *. split; [exists N; exact E|]. split; [exact I2|]. repeat split; try lia; auto.
    rewrite I8. unfold nexts, upto. rewrite map_map.
    replace (Z.to_nat (k + 1)) with (Datatypes.S (Z.to_nat k)) by lia. reflexivity.
Qed.
Print Assumptions C04_pingpong_bounces.

Example C04_example : exists p, ends_in (playback_init RScalar) (OpPlay 3 6 2%R LPingPong :: update_calls [0.9; 0.9; 0.9]%R) p
  /\ frame (pf p) = 4 /\ nextFrame (pf p) = 3.
Proof.
  destruct (C04_pingpong_bounces (playback_init RScalar) 3 6 2 [0.9; 0.9; 0.9] 5)%R as (p & H & _ & H1 & H2 & _).
  1, 2: unfold is_size; lia. 1: lia. 1: lra.
  - unfold whole_frames; cbn [elapsed]. rewrite !Rmax_left by lra. lra.
  - exists p. rewrite H1, H2. split; [exact H|]. split; reflexivity.
Qed.

(** On a range of a single frame the playback leaves the range: after [k] steps it shows frame [first + k]
    (modulo 2^64). *)
Theorem C04_pingpong_single_frame_refuted :
  forall (p0 : playback RScalar) (first : Z) (speed : R) (ds : list R) (k : Z),
  is_size first -> (0 <= speed)%R -> whole_frames (speed * elapsed ds) k ->
  exists p, ends_in p0 (OpPlay first first speed LPingPong :: update_calls ds) p
  /\ frame (pf p) = (first + k) mod 2 ^ 64.
Proof.
  intros p0 a s ds k Ha Hs Hk.
  assert (Hk0 : 0 <= k).
  { unfold whole_frames in Hk. pose proof (Rmult_le_pos s _ Hs (elapsed_nonneg ds)).
    assert (0 < k + 1); [|lia]. apply lt_IZR. rewrite plus_IZR. lra. }
  destruct (pprun_run p0 a s ds (Z.to_nat k) Ha Hs) as (N & p' & E & [I1 I2 I3 I4 I5 I6 I7]).
  - rewrite INR_IZR_INZ, Z2Nat.id by exact Hk0. unfold whole_frames in Hk. lra.
  - exists p'. split; [exists N; exact E|]. rewrite I5, Z2Nat.id by exact Hk0. reflexivity.
Qed.
Print Assumptions C04_pingpong_single_frame_refuted.

Example C04_refuted_example : exists p,
  ends_in (playback_init RScalar) (OpPlay 5 5 1%R LPingPong :: update_calls [3]%R) p /\ frame (pf p) = 8.
Proof.
  destruct (C04_pingpong_single_frame_refuted (playback_init RScalar) 5 1 [3]%R 3) as (p & H & H1).
  - unfold is_size; lia.
  - lra.
  - unfold whole_frames; cbn [elapsed]. rewrite Rmax_left by lra. lra.
  - exists p. split; [exact H|]. rewrite H1. reflexivity.
Qed.

(** ** C05 *)

(** Over any listener the interpolator stays in [0,1) going forward and gets into (0,1] going backward. *)
Theorem C05_interpolator_range :
  forall (fuel : nat) (dt : R) (p p' : playback RScalar),
  update RScalar fuel dt p = Done p' ->
  ((0 <= speed (pf p))%R -> (0 <= interpolator (pf p) < 1)%R -> (0 <= interpolator (pf p') < 1)%R)
  /\ ((speed (pf p) < 0)%R -> (interpolator (pf p) <= 1)%R -> pst p = Playing -> (0 < dt)%R ->
      (0 < interpolator (pf p') <= 1)%R).
Proof.
  exact (fun fuel dt p p' H => conj (fun Hs Hi => update_interp_forward p p' fuel dt Hs Hi H)
                                    (fun Hs Hi Hp Hd => update_interp_backward p p' fuel dt Hs Hi Hp Hd H)).
Qed.
Print Assumptions C05_interpolator_range.

(** Splitting an update of a forward playback changes nothing (built-in listeners), as long as the playback is still
    playing in between. *)
Theorem C05_update_additive :
  forall (p p1 : playback RScalar) (a b : R) (f0 : nat),
  match plst p with LCustom _ => False | _ => True end ->
  pst p = Playing -> (0 <= speed (pf p))%R -> (0 <= interpolator (pf p))%R -> (0 < a)%R -> (0 < b)%R ->
  update RScalar f0 a p = Done p1 -> pst p1 = Playing ->
  exists N, forall fuel, (N <= fuel)%nat -> update RScalar fuel b p1 = update RScalar fuel (a + b)%R p.
Proof. exact split_update. Qed.
Print Assumptions C05_update_additive.

Theorem C05_update_idle :
  forall (S : scalar) (fuel : nat) (dt : car S) (p : playback S),
  pst p <> Playing \/ sle S dt (s0 S) = true -> update S fuel dt p = Done p.
Proof.
  exact (fun S fuel dt p H => match H with
    | or_introl H1 => update_not_playing S fuel dt p H1
    | or_intror H2 => update_nonpos S fuel dt p H2 end).
Qed.
Print Assumptions C05_update_idle.

Example C05_example :
  let p := mkPlayback (@mkFields RScalar 3 6 3 4 0.25%R 1%R) Playing LLoop [] in
  exists p1, update RScalar 2 0.5%R p = Done p1 /\ pst p1 = Playing /\ interpolator (pf p1) = 0.75%R.
Proof.
  cbn zeta. rewrite update_forward by (cbn; lra || reflexivity). cbn [forward_loop].
  match goal with |- context [sle RScalar ?a ?b] => replace (sle RScalar a b) with false end.
  - eexists; split; [reflexivity|]. cbn. split; [reflexivity|lra].
  - symmetry. apply Rleb_false. cbn. lra.
Qed.

(** ** C06 *)

Theorem C06_pause_transparent :
  forall (S : scalar) (fuel : nat) (p : playback S) (ds : list (car S)) (os : list (op S)), pst p = Playing ->
  match run S fuel p (OpPause true :: map (fun d => OpUpdate d) ds ++ OpPause false :: os), run S fuel p os with
  | Done x, Done y => pf x = pf y /\ pst x = pst y /\ plst x = plst y /\
      exists s, plog x = plog p ++ [EvPause; EvPlay] ++ s /\ plog y = plog p ++ s
  | Undef, Undef => True
  | OutOfFuel, OutOfFuel => True
  | _, _ => False
  end.
Proof. exact pause_transparent. Qed.
Print Assumptions C06_pause_transparent.

(** Frame 3, three quarters towards frame 4: pause, wait, resume, update by half a frame. *)
Example C06_example :
  let p := mkPlayback (@mkFields RScalar 3 6 3 4 0.75%R 1%R) Playing LLoop [] in
  exists x, run RScalar 2 p (OpPause true :: map (fun d => OpUpdate (d : car RScalar)) [100%R; 7%R] ++ OpPause false :: [@OpUpdate RScalar 0.5%R]) = Done x
  /\ frame (pf x) = 4 /\ interpolator (pf x) = 0.25%R /\ plog x = [EvPause; EvPlay; EvNext 4].
Proof.
  cbn zeta. cbn [map app run step pause pst set_state post with_st plog]. rewrite update_not_playing by discriminate.
  cbn [run step]. rewrite update_not_playing by discriminate. cbn [run step pause pst set_state].
  rewrite update_forward by (cbn; lra || reflexivity).
  match goal with |- context [forward_loop _ _ ?p] => change p with (@mkPlayback RScalar
      (@mkFields RScalar 3 6 3 4 (0.75 + 0.5 * 1)%R 1%R) Playing LLoop [EvPause; EvPlay]) end.
  cbn [forward_loop pf interpolator].
  replace (sle RScalar (s1 RScalar) (0.75 + 0.5 * 1)%R) with true by (symmetry; apply Rleb_true; cbn; lra).
  match goal with |- context [post_next_frame _ (with_pf _ ?g ?p)] => change (with_pf RScalar g p) with (advance p) end.
  rewrite (plain_loop 3 6 3 4 (0.75 + 0.5 * 1)%R 1%R Playing) by lra.
  cbn [pf interpolator].
  replace (sle RScalar (s1 RScalar) (0.75 + 0.5 * 1 - 1)%R) with false by (symmetry; apply Rleb_false; cbn; lra).
  eexists; split; [reflexivity|]. cbn [pf frame interpolator plog app]. split; [reflexivity|]. split; [lra|reflexivity].
Qed.

(** ** C07 *)

(** Looped playback with negative speed goes through the range from [last] down to [first]: after [k] whole frames of
    time the playback is between the [k]-th and the [k+1]-th frame of that walk. *)
Theorem C07_loop_backward_mirrors :
  forall (p0 : playback RScalar) (first last : Z) (speed : R) (ds : list R) (k : Z),
  is_size first -> is_size last -> (speed < 0)%R -> (0 < elapsed ds)%R -> whole_frames (- speed * elapsed ds) k ->
  exists p, ends_in p0 (OpPlay first last speed LLoop :: update_calls ds) p
  /\ pst p = Playing
  /\ nextFrame (pf p) = loop_frame last first k
  /\ frame (pf p) = loop_frame last first (k + 1)
  /\ interpolator (pf p) = (1 - (- speed * elapsed ds - IZR k))%R.
Proof.
  intros p0 a b s ds k Ha Hb Hs Hel Hk.
  assert (Hk0 : 0 <= k).
  { unfold whole_frames in Hk. pose proof (Rmult_lt_0_compat (- s) _ ltac:(lra) Hel).
    assert (0 < k + 1); [|lia]. apply lt_IZR. rewrite plus_IZR. lra. }
  destruct (loopb_run p0 a b s ds (Z.to_nat k) Ha Hb Hs Hel) as (N & p' & E & [I1 I2 I3 I4 I5 I6 I7 I8] & Ei).
  - rewrite INR_IZR_INZ, Z2Nat.id by exact Hk0. unfold whole_frames in Hk. lra.
  - exists p'. rewrite INR_IZR_INZ, Z2Nat.id in Ei by exact Hk0.
    split; [exists N; exact E|]. split; [exact I2|]. split; [|split; [|exact Ei]].
    + rewrite I6 by discriminate. f_equal. lia.
    + rewrite I5. f_equal. lia.
Qed.
Print Assumptions C07_loop_backward_mirrors.

Example C07_example : exists p, ends_in (playback_init RScalar) (OpPlay 3 6 (-2)%R LLoop :: update_calls [0.9]%R) p
  /\ nextFrame (pf p) = 5 /\ frame (pf p) = 4.
Proof.
  destruct (C07_loop_backward_mirrors (playback_init RScalar) 3 6 (-2) [0.9] 1)%R as (p & H & _ & H1 & H2 & _).
  1, 2: unfold is_size; lia. 1: lra.
  - cbn [elapsed]. rewrite Rmax_left by lra. lra.
  - unfold whole_frames; cbn [elapsed]. rewrite !Rmax_left by lra. lra.
  - exists p. rewrite H1, H2. split; [exact H|]. split; reflexivity.
Qed.

(** One-shot playback with negative speed does not play at all: Play itself already stops the playback. *)
Theorem C07_oneshot_backward_refuted :
  forall (p0 : playback RScalar) (first last : Z) (speed : R),
  is_size first -> is_size last -> (speed < 0)%R ->
  exists p, play RScalar first last speed LOneShot p0 = Some p /\ pst p = Stopped
    /\ frame (pf p) = first /\ nextFrame (pf p) = nextFrame (pf p0).
Proof. exact oneshot_backward_stops. Qed.
Print Assumptions C07_oneshot_backward_refuted.

Example C07_refuted_example : exists p,
  play RScalar 3 9 (-1)%R LOneShot (playback_init RScalar) = Some p /\ pst p = Stopped /\ frame (pf p) = 3.
Proof.
  destruct (C07_oneshot_backward_refuted (playback_init RScalar) 3 9 (-1)) as (p & H & H1 & H2 & _);
    [unfold is_size; lia|unfold is_size; lia|lra|]. exists p; auto.
Qed.

(** ** C08 *)

(** Over exact reals Update always returns (or hits the out-of-range access of a list loop). *)
Theorem C08_update_terminates_exact :
  forall (p : playback RScalar) (dt : R), exists N, forall fuel, (N <= fuel)%nat ->
  update RScalar fuel dt p = Undef \/ exists p', update RScalar fuel dt p = Done p'.
Proof. exact update_ends. Qed.
Print Assumptions C08_update_terminates_exact.

(** Over binary64: there is a reachable playback and a finite delta for which Update never returns. *)
Theorem C08_update_terminates_refuted :
  exists (p : playback B64Scalar) (dt : b64),
    run B64Scalar 0 (playback_init B64Scalar) [OpPlay 0 9 (b64_of_Z 1 : car B64Scalar) LLoop] = Done p
    /\ is_finite dt = true /\ forall fuel, update B64Scalar fuel dt p = OutOfFuel.
Proof.
  exact (ex_intro _ _ (ex_intro _ (b64_of_Z (2 ^ 60))
    (conj (f_equal (lift B64Scalar) stuck_is_reached) (conj eq_refl (fun fuel => stuck_update fuel _))))).
Qed.
Print Assumptions C08_update_terminates_refuted.

(** When exactly Update returns over binary64: [C08_update_returns_float] in PlaybackFloatProps.v. *)

(** ** C61 *)

(** List loop: after [k >= 1] steps the playback shows the entry [k mod n] of the list. *)
Theorem C61_list_loop_cycles :
  forall (p0 : playback RScalar) (first last : Z) (speed : R) (frames : list Z) (ds : list R) (k : nat),
  is_size first -> is_size last -> (2 <= length frames)%nat -> (0 <= speed)%R ->
  whole_frames (speed * elapsed ds) (Z.of_nat k) ->
  exists p, ends_in p0 (OpPlay first last speed (LList frames 0) :: update_calls ds) p
  /\ pst p = Playing
  /\ frame (pf p) = (if (k =? 0)%nat then first else nth (k mod length frames) frames 0)
  /\ nextFrame (pf p) = nth (Datatypes.S k mod length frames) frames 0
  /\ interpolator (pf p) = (speed * elapsed ds - INR k)%R.
Proof.
  intros p0 a b s fs ds k Ha Hb Hl Hs Hk.
  destruct (list_run p0 a b s fs ds k Ha Hb Hl Hs) as (N & p' & E & [I1 I2 I3 I4 I5] & Ei).
  - unfold whole_frames in Hk. rewrite INR_IZR_INZ. lra.
  - exists p'. split; [exists N; exact E|]. auto.
Qed.
Print Assumptions C61_list_loop_cycles.

Example C61_example : exists p, ends_in (playback_init RScalar) (OpPlay 4 0 1%R (LList [4; 9; 2] 0) :: update_calls [3.5]%R) p
  /\ frame (pf p) = 4 /\ nextFrame (pf p) = 9.
Proof.
  destruct (C61_list_loop_cycles (playback_init RScalar) 4 0 1 [4; 9; 2] [3.5]%R 3) as (p & H & _ & H1 & H2 & _).
  1, 2: unfold is_size; lia. 1: cbn; lia. 1: lra.
  - change (Z.of_nat 3) with 3; unfold whole_frames; cbn [elapsed]. rewrite Rmax_left by lra. lra.
  - exists p. split; [exact H|]. auto.
Qed.

(** Stopping rewinds the list: if the listener of a stopped playback is used again, the list starts over. *)
Theorem C61_stop_rewinds_list :
  forall (p0 : playback RScalar) (frames : list Z) (i : Z) (first last : Z) (speed : R) (ds : list R) (k : nat),
  plst p0 = LList frames i -> pst p0 <> Stopped ->
  is_size first -> is_size last -> (2 <= length frames)%nat -> (0 <= speed)%R ->
  whole_frames (speed * elapsed ds) (Z.of_nat k) ->
  exists p1, ends_in p0 [OpStop] p1 /\ pst p1 = Stopped
  /\ exists p, ends_in p1 (OpPlay first last speed (plst p1) :: update_calls ds) p
  /\ frame (pf p) = (if (k =? 0)%nat then first else nth (k mod length frames) frames 0)
  /\ nextFrame (pf p) = nth (Datatypes.S k mod length frames) frames 0.
Proof.
  intros p0 fs i a b s ds k Hp Hst Ha Hb Hl Hs Hk.
  assert (E : exists p1, run RScalar 1 p0 [OpStop] = Done p1 /\ pst p1 = Stopped /\ plst p1 = LList fs 0).
  { destruct p0 as [f st l ev]; cbn in Hp, Hst. subst l.
    destruct st.
    all: try (exfalso; apply Hst; reflexivity).
    all: eexists; split; [reflexivity|]; split; reflexivity. }
  destruct E as (p1 & E1 & E2 & E3). exists p1. split.
  - exists 1%nat. intros fuel Hf. destruct fuel as [|fuel]; [lia|]. exact E1.
  - split; [exact E2|]. rewrite E3.
    destruct (C61_list_loop_cycles p1 a b s fs ds k Ha Hb Hl Hs Hk) as (p & H & _ & H1 & H2 & _).
    exists p. auto.
Qed.
Print Assumptions C61_stop_rewinds_list.

(** ** C62 *)

(** The documented range of [nextFrame] is violated after playing a single-frame range: it keeps its old value. *)
Theorem C62_next_frame_in_range_refuted :
  exists p, run RScalar 5 (playback_init RScalar)
     [OpPlay 8 9 1%R LOneShot; OpPlay 2 2 1%R LOneShot] = Done p
   /\ firstFrame (pf p) = 2 /\ lastFrame (pf p) = 2 /\ frame (pf p) = 2 /\ nextFrame (pf p) = 9.
Proof.
  assert (Hs : (0 <= 1)%R) by lra.
  assert (E1 : play RScalar 8 9 1%R LOneShot (playback_init RScalar) =
    Some (@mkPlayback RScalar (@mkFields RScalar 8 9 8 9 0%R 1%R) Playing LOneShot [EvPlay; EvNext 8])).
  { rewrite play_plain by (unfold size_max; lia).
    unfold post_next_frame, has_end_reached, set_next_frame, are_frames_chrono, is_forward; cbn.
    unfold are_frames_chrono, is_forward; cbn. rewrite (Hsp_b 1 Hs). unfold with_pf; cbn. rewrite (Hsp_b 1 Hs). reflexivity. }
  assert (E2 : exists p, play RScalar 2 2 1%R LOneShot
      (@mkPlayback RScalar (@mkFields RScalar 8 9 8 9 0%R 1%R) Playing LOneShot [EvPlay; EvNext 8]) = Some p
      /\ firstFrame (pf p) = 2 /\ lastFrame (pf p) = 2 /\ frame (pf p) = 2 /\ nextFrame (pf p) = 9).
  { rewrite play_plain by (unfold size_max; lia).
    unfold post_next_frame, has_end_reached, set_next_frame, are_frames_chrono, is_forward; cbn.
    unfold are_frames_chrono, is_forward; cbn. rewrite (Hsp_b 1 Hs). eexists. split; [reflexivity|]. cbn. auto. }
  destruct E2 as (p & E2 & H). exists p. split; [|exact H].
  cbn [run step]. rewrite E1. cbn [lift]. rewrite E2. reflexivity.
Qed.
Print Assumptions C62_next_frame_in_range_refuted.

(** For ranges of at least two frames both frames stay in the range under one-shot, loop and ping-pong playback. *)
Theorem C62_frames_in_range :
  forall (p0 : playback RScalar) (first last : Z) (speed : R) (ds : list R) (l : listener RScalar),
  is_size first -> is_size last -> first <> last -> (0 <= speed)%R -> l = LOneShot \/ l = LLoop \/ l = LPingPong ->
  exists p, ends_in p0 (OpPlay first last speed l :: update_calls ds) p
  /\ Z.min first last <= frame (pf p) <= Z.max first last
  /\ Z.min first last <= nextFrame (pf p) <= Z.max first last.
Proof.
  intros p0 a b s ds l Ha Hb Hab Hs Hl.
  destruct (nat_floor (s * elapsed ds) (Rmult_le_pos s _ Hs (elapsed_nonneg ds))) as [n Hn].
  destruct Hl as [->|[->| ->]].
  - destruct (oneshot_play p0 a b s Ha Hb Hab Hs) as (p1 & E1 & HI & Hi).
    destruct (oneshot_updates p0 a b s Ha Hb Hab Hs ds 0 p1 n HI) as (N & p' & j & E & R1 & R2).
    + unfold span; lia.
    + rewrite Hi; lra.
    + rewrite Hi. lra.
    + exists p'. destruct R1 as [I1 I2 I3 I4 I5 I6 I7 I8]. rewrite I6, I7. split.
      * exists N. intros fuel Hf. cbn [run step]. rewrite E1. cbn [lift]. apply E, Hf.
      * unfold oneshot_frame, frame_at, span. zb; lia.
  - destruct (loop_run p0 a b s ds n Ha Hb Hs Hn) as (N & p' & E & [I1 I2 I3 I4 I5 I6 I7 I8] & Ei).
    exists p'. split; [exists N; exact E|]. rewrite I5, I6. unfold loop_frame, frame_at.
    pose proof (Z.mod_pos_bound (Z.of_nat n) (span a b + 1) ltac:(unfold span; lia)).
    pose proof (Z.mod_pos_bound (Z.of_nat n + 1) (span a b + 1) ltac:(unfold span; lia)).
    set (x := Z.of_nat n mod _) in *. set (y := (Z.of_nat n + 1) mod _) in *. clearbody x y. unfold span in *. zb; lia.
  - destruct (pingpong_run p0 a b s ds n Ha Hb Hab Hs Hn) as (N & p' & E & [I1 I2 I3 I4 I5 I6 I7 I8] & Ei).
    exists p'. split; [exists N; exact E|]. rewrite I5, I6. unfold pingpong_frame, triangle_wave, frame_at. cbn zeta.
    pose proof (Z.mod_pos_bound (Z.of_nat n) (2 * span a b) ltac:(unfold span; lia)).
    pose proof (Z.mod_pos_bound (Z.of_nat n + 1) (2 * span a b) ltac:(unfold span; lia)).
    set (x := Z.of_nat n mod _) in *. set (y := (Z.of_nat n + 1) mod _) in *. clearbody x y. unfold span in *. zb; lia.
Qed.
Print Assumptions C62_frames_in_range.
