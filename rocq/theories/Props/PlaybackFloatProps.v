(** Property C88 and the parts of C05 and C08 about floating point: playback whatever the arithmetic of its scalars, and in IEEE
    double precision. *)
From Coq Require Import ZArith Reals List Bool Lia Lra.
From Flocq Require Import Core IEEE754.BinarySingleNaN.
From Verif Require Import Model.Scalar Model.Playback Spec.PlaybackSpec.
From Verif Require Import Proofs.PlaybackLemmas Proofs.PlaybackAny Proofs.PlaybackDrift Proofs.PlaybackRange Proofs.PlaybackReturns.
From Verif Require Import Props.PlaybackProps.
Import ListNotations.
Open Scope Z_scope.

(** Play, then a sequence of Update calls. *)
Definition play_and_update {S : scalar} (first last : Z) (speed : car S) (l : listener S) (ds : list (car S)) : list (op S) :=
  OpPlay first last speed l :: map (fun d => OpUpdate d) ds.

(** ** The frames do not depend on the arithmetic *)

(** Whatever addition, subtraction, multiplication and comparison do (rounding, overflow, NaN), if the calls return, the
    frames announced are the first ones of the exact sequence: none is left out, repeated or out of range. *)
Theorem C88_loop_any_arithmetic :
  forall (S : scalar) (p0 : playback S) (first last : Z) (speed : car S) (ds : list (car S)) (fuel : nat),
  is_size first -> is_size last -> sle S (s0 S) speed = true ->
  let r := run S fuel p0 (play_and_update first last speed LLoop ds) in
  r <> Undef /\
  forall p, r = Done p -> exists k, 0 <= k /\ pst p = Playing
    /\ frame (pf p) = loop_frame first last k /\ nextFrame (pf p) = loop_frame first last (k + 1)
    /\ plog p = plog (stop S p0) ++ EvPlay :: map (fun i => EvNext (loop_frame first last i)) (upto (k + 1)).
Proof.
  intros S p0 a b s ds fuel Ha Hb Hs. unfold play_and_update. cbn [run step]. rewrite (loop_start S a b s p0 Ha Hb Hs). cbn [lift].
  destruct (any_updates S (loop_course S a b (plog (stop S p0) ++ [EvPlay])) s Hs (loop_walks S a b s _ Ha Hb Hs) fuel ds 0 (s0 S)) as [A B].
  split; [exact A|]. intros p H. destruct (B p H) as (n & y & ->). exists (Z.of_nat n). cbn -[app nexts]. split; [lia|].
  split; [reflexivity|]. split; [reflexivity|]. split; [reflexivity|]. rewrite <- app_assoc. unfold nexts, upto. rewrite map_map.
  replace (Z.to_nat (Z.of_nat n + 1)) with (Datatypes.S n) by lia. reflexivity.
Qed.
Print Assumptions C88_loop_any_arithmetic.

Theorem C88_pingpong_any_arithmetic :
  forall (S : scalar) (p0 : playback S) (first last : Z) (speed : car S) (ds : list (car S)) (fuel : nat),
  is_size first -> is_size last -> first <> last -> sle S (s0 S) speed = true ->
  let r := run S fuel p0 (play_and_update first last speed LPingPong ds) in
  r <> Undef /\
  forall p, r = Done p -> exists k, 0 <= k /\ pst p = Playing
    /\ frame (pf p) = pingpong_frame first last k /\ nextFrame (pf p) = pingpong_frame first last (k + 1)
    /\ plog p = plog (stop S p0) ++ EvPlay :: map (fun i => EvNext (pingpong_frame first last i)) (upto (k + 1)).
Proof.
  intros S p0 a b s ds fuel Ha Hb Hab Hs. unfold play_and_update. cbn [run step]. rewrite (pingpong_start S a b s p0 Ha Hb Hs Hab). cbn [lift].
  destruct (any_updates S (pingpong_course S a b (plog (stop S p0) ++ [EvPlay])) s Hs (pingpong_walks S a b s _ Ha Hb Hs Hab) fuel ds 0 (s0 S)) as [A B].
  split; [exact A|]. intros p H. destruct (B p H) as (n & y & ->). exists (Z.of_nat n). cbn -[app nexts]. split; [lia|].
  split; [reflexivity|]. split; [reflexivity|]. split; [reflexivity|]. rewrite <- app_assoc. unfold nexts, upto. rewrite map_map.
  replace (Z.to_nat (Z.of_nat n + 1)) with (Datatypes.S n) by lia. reflexivity.
Qed.
Print Assumptions C88_pingpong_any_arithmetic.

Theorem C88_oneshot_any_arithmetic :
  forall (S : scalar) (p0 : playback S) (first last : Z) (speed : car S) (ds : list (car S)) (fuel : nat),
  is_size first -> is_size last -> first <> last -> sle S (s0 S) speed = true ->
  let r := run S fuel p0 (play_and_update first last speed LOneShot ds) in
  r <> Undef /\
  forall p, r = Done p -> exists k, 0 <= k /\ frame (pf p) = oneshot_frame first last k
    /\ pst p = (if k <? span first last then Playing else Stopped)
    /\ (if k <? span first last
        then nextFrame (pf p) = frame_at first last (k + 1)
             /\ plog p = plog (stop S p0) ++ EvPlay :: map (fun i => EvNext (frame_at first last i)) (upto (k + 1))
        else exists m, plog p = plog (stop S p0) ++ EvPlay ::
               map (fun i => EvNext (frame_at first last i)) (upto (span first last + 1)) ++ EvStop :: repeat (EvNext last) m).
Proof.
  intros S p0 a b s ds fuel Ha Hb Hab Hs. unfold play_and_update. cbn [run step]. rewrite (oneshot_start S a b s p0 Ha Hb Hs Hab). cbn [lift].
  destruct (any_updates S (oneshot_course S a b (plog (stop S p0) ++ [EvPlay])) s Hs (oneshot_walks S a b s _ Ha Hb Hs Hab) fuel ds 0 (s0 S)) as [A B].
  split; [exact A|]. intros p H. destruct (B p H) as (n & y & ->). exists (Z.of_nat n).
  unfold after. cbn [pf pst plog frame nextFrame c_live c_frame c_next c_log oneshot_course Nat.add]. split; [lia|].
  split; [reflexivity|]. split; [reflexivity|]. rewrite <- app_assoc. cbn [app]. unfold nexts, upto. rewrite !map_map.
  destruct (Z.ltb_spec (Z.of_nat n) (span a b)) as [L|L].
  - split.
    + unfold oneshot_frame. rewrite Z.min_l by lia. reflexivity.
    + replace (Z.to_nat (Z.of_nat n + 1)) with (Datatypes.S n) by lia. reflexivity.
  - eexists. replace (Z.to_nat (span a b + 1)) with (Datatypes.S (Z.to_nat (span a b))) by (unfold span; lia). reflexivity.
Qed.
Print Assumptions C88_oneshot_any_arithmetic.

(** Backward, a loop walks through the reversed range. *)
Theorem C88_backward_any_arithmetic :
  forall (S : scalar) (p0 : playback S) (first last : Z) (speed : car S) (ds : list (car S)) (fuel : nat),
  is_size first -> is_size last -> sle S (s0 S) speed = false ->
  let r := run S fuel p0 (play_and_update first last speed LLoop ds) in
  r <> Undef /\
  forall p, r = Done p -> exists k, 0 <= k /\ pst p = Playing
    /\ frame (pf p) = loop_frame last first k /\ (0 < k -> nextFrame (pf p) = loop_frame last first (k - 1))
    /\ plog p = plog (stop S p0) ++ EvPlay :: EvNext first :: map (fun i => EvNext (loop_frame last first i)) (upto k).
Proof.
  intros S p0 a b s ds fuel Ha Hb Hs. unfold play_and_update. cbn [run step]. rewrite (back_start S a b s p0 Ha Hb Hs). cbn [lift].
  destruct (back_updates S (back_course S a b p0) s Hs (back_walks S a b s p0 Ha Hb Hs) (fun _ => eq_refl) fuel ds 0 (s0 S)) as [A B].
  split; [exact A|]. intros p H. destruct (B p H) as (n & y & ->). exists (Z.of_nat n).
  unfold after. cbn [pf pst plog frame nextFrame c_live c_frame c_next c_log back_course Nat.add]. split; [lia|].
  split; [reflexivity|]. split; [reflexivity|]. split.
  - intros L. destruct n as [|n]; [lia|]. f_equal. lia.
  - rewrite <- app_assoc. cbn [app]. unfold upto. rewrite !map_map, Nat2Z.id. reflexivity.
Qed.
Print Assumptions C88_backward_any_arithmetic.

(** ** Double precision *)

(** Each update advances the playback by at most [m] frames. *)
Definition at_most (speed : b64) (m : R) (d : b64) : Prop := is_finite d = true /\ (B2R d * B2R speed <= m)%R.
(** The rounding error allowed for [n] updates. *)
Definition drift (n : nat) (m : R) : R := (INR n * ((2 * m + 2) * / 2 ^ 53))%R.

Lemma drift_eq n m : drift n m = (INR n * ((2 * m + 2) * bpow radix2 (-53)))%R.
Proof. unfold drift. do 2 f_equal. change (-53)%Z with (- (53))%Z. rewrite bpow_opp. f_equal. rewrite p53, pow_IZR. f_equal. Qed.
Lemma big_eq : bpow radix2 50 = (2 ^ 50)%R.
Proof. rewrite pow_IZR. change (2 ^ Z.of_nat 50)%Z with (radix2 ^ 50)%Z. rewrite (IZR_Zpower radix2 50) by lia. reflexivity. Qed.

(** The updates return, the interpolator is a number in [0, 1), and the position on the course - frames passed plus
    interpolator - is the exact product of speed and elapsed time, up to the rounding of a multiplication and an addition
    per update. *)
Theorem C88_loop_drift :
  forall (p0 : playback B64Scalar) (first last : Z) (speed : b64) (ds : list b64) (m : R),
  is_size first -> is_size last -> is_finite speed = true -> (0 <= B2R speed)%R -> (0 <= m <= 2 ^ 50)%R -> Forall (at_most speed m) ds ->
  exists p k, ends_in p0 (@play_and_update B64Scalar first last speed LLoop ds) p /\ 0 <= k
  /\ frame (pf p) = loop_frame first last k /\ nextFrame (pf p) = loop_frame first last (k + 1)
  /\ let x : b64 := interpolator (pf p) in
     is_finite x = true /\ (0 <= B2R x < 1)%R
     /\ (Rabs ((IZR k + B2R x) - B2R speed * elapsed (map (fun d : b64 => B2R d) ds)) <= drift (length ds) m)%R.
Proof.
  intros p0 a b s ds m Ha Hb Fs S Hm HF. rewrite <- big_eq in Hm.
  assert (Hs : b64_leb b64_0 s = true) by (rewrite leb64 by (reflexivity || exact Fs); apply Rle_bool_true; exact S).
  pose proof (loop_walks B64Scalar a b s (plog (stop B64Scalar p0) ++ [EvPlay]) Ha Hb Hs) as W.
  destruct (drift_updates _ s Hs Fs W m Hm ds HF 0%nat b64_0 eq_refl eq_refl ltac:(cbn; lra)) as (N & n & y & A & B & C).
  destruct (C eq_refl) as (C1 & C2 & C3).
  eexists. exists (Z.of_nat n). split; [|split; [lia|]].
  - exists N. intros fuel Hf. unfold play_and_update. cbn [run step]. rewrite (loop_start B64Scalar a b s p0 Ha Hb Hs). cbn [lift]. apply A, Hf.
  - cbn [after pf frame nextFrame interpolator c_frame c_next loop_course Nat.add]. split; [reflexivity|]. split; [reflexivity|]. split; [exact C1|]. split; [exact C2|].
    rewrite drift_eq, <- INR_IZR_INZ. cbn [B2R b64_0] in C3. rewrite Rplus_0_l in C3. exact C3.
Qed.
Print Assumptions C88_loop_drift.

Theorem C88_pingpong_drift :
  forall (p0 : playback B64Scalar) (first last : Z) (speed : b64) (ds : list b64) (m : R),
  is_size first -> is_size last -> first <> last -> is_finite speed = true -> (0 <= B2R speed)%R -> (0 <= m <= 2 ^ 50)%R -> Forall (at_most speed m) ds ->
  exists p k, ends_in p0 (@play_and_update B64Scalar first last speed LPingPong ds) p /\ 0 <= k
  /\ frame (pf p) = pingpong_frame first last k /\ nextFrame (pf p) = pingpong_frame first last (k + 1)
  /\ let x : b64 := interpolator (pf p) in
     is_finite x = true /\ (0 <= B2R x < 1)%R
     /\ (Rabs ((IZR k + B2R x) - B2R speed * elapsed (map (fun d : b64 => B2R d) ds)) <= drift (length ds) m)%R.
Proof.
  intros p0 a b s ds m Ha Hb Hab Fs S Hm HF. rewrite <- big_eq in Hm.
  assert (Hs : b64_leb b64_0 s = true) by (rewrite leb64 by (reflexivity || exact Fs); apply Rle_bool_true; exact S).
  pose proof (pingpong_walks B64Scalar a b s (plog (stop B64Scalar p0) ++ [EvPlay]) Ha Hb Hs Hab) as W.
  destruct (drift_updates _ s Hs Fs W m Hm ds HF 0%nat b64_0 eq_refl eq_refl ltac:(cbn; lra)) as (N & n & y & A & B & C).
  destruct (C eq_refl) as (C1 & C2 & C3).
  eexists. exists (Z.of_nat n). split; [|split; [lia|]].
  - exists N. intros fuel Hf. unfold play_and_update. cbn [run step]. rewrite (pingpong_start B64Scalar a b s p0 Ha Hb Hs Hab). cbn [lift]. apply A, Hf.
  - cbn [after pf frame nextFrame interpolator c_frame c_next pingpong_course Nat.add]. split; [reflexivity|]. split; [reflexivity|]. split; [exact C1|]. split; [exact C2|].
    rewrite drift_eq, <- INR_IZR_INZ. cbn [B2R b64_0] in C3. rewrite Rplus_0_l in C3. exact C3.
Qed.
Print Assumptions C88_pingpong_drift.

(** A one-shot playback stops at its last frame, not earlier and not later than the drift allows. *)
Theorem C88_oneshot_drift :
  forall (p0 : playback B64Scalar) (first last : Z) (speed : b64) (ds : list b64) (m : R),
  is_size first -> is_size last -> first <> last -> is_finite speed = true -> (0 <= B2R speed)%R -> (0 <= m <= 2 ^ 50)%R -> Forall (at_most speed m) ds ->
  let t := (B2R speed * elapsed (map (fun d : b64 => B2R d) ds))%R in
  exists p, ends_in p0 (@play_and_update B64Scalar first last speed LOneShot ds) p /\
  let x : b64 := interpolator (pf p) in
  ((pst p = Stopped /\ frame (pf p) = last /\ (IZR (span first last) <= t + drift (length ds) m)%R)
   \/ (exists k, pst p = Playing /\ 0 <= k < span first last /\ frame (pf p) = frame_at first last k /\ nextFrame (pf p) = frame_at first last (k + 1)
       /\ is_finite x = true /\ (0 <= B2R x < 1)%R /\ (Rabs ((IZR k + B2R x) - t) <= drift (length ds) m)%R)).
Proof.
  intros p0 a b s ds m Ha Hb Hab Fs S Hm HF t. rewrite <- big_eq in Hm.
  assert (Hs : b64_leb b64_0 s = true) by (rewrite leb64 by (reflexivity || exact Fs); apply Rle_bool_true; exact S).
  pose proof (oneshot_walks B64Scalar a b s (plog (stop B64Scalar p0) ++ [EvPlay]) Ha Hb Hs Hab) as W.
  assert (L0 : c_live (oneshot_course B64Scalar a b (plog (stop B64Scalar p0) ++ [EvPlay])) 0 = true)
    by (cbn [c_live oneshot_course]; apply Z.ltb_lt; unfold span; lia).
  destruct (drift_updates _ s Hs Fs W m Hm ds HF 0%nat b64_0 L0 eq_refl ltac:(cbn; lra)) as (N & n & y & A & B & C).
  cbn [B2R b64_0] in B, C. rewrite Rplus_0_l in B, C.
  change (B2R s * elapsed (map B2R ds))%R with t in B, C.
  eexists. split.
  - exists N. intros fuel Hf. unfold play_and_update. cbn [run step]. rewrite (oneshot_start B64Scalar a b s p0 Ha Hb Hs Hab). cbn [lift]. apply A, Hf.
  - rewrite drift_eq. cbn [c_live oneshot_course Nat.add] in C. unfold after. cbn [pf pst frame nextFrame interpolator c_live c_frame c_next oneshot_course Nat.add].
    destruct (Z.ltb_spec (Z.of_nat n) (span a b)) as [L|L].
    + right. destruct (C eq_refl) as (C1 & C2 & C3). exists (Z.of_nat n). split; [reflexivity|]. split; [lia|].
      unfold oneshot_frame. rewrite !Z.min_l by lia. split; [reflexivity|]. split; [reflexivity|]. split; [exact C1|]. split; [exact C2|].
      rewrite <- INR_IZR_INZ. exact C3.
    + left. split; [reflexivity|]. split; [unfold oneshot_frame; rewrite Z.min_r by lia; apply frame_at_span|].
      apply IZR_le in L. rewrite <- INR_IZR_INZ in L. lra.
Qed.
Print Assumptions C88_oneshot_drift.

(** The double nearest to one tenth. *)
Definition tenth : b64 := @B754_finite 53 1024 false 7205759403792794 (-56) eq_refl.

(** Hence the frame shown can differ from the exact one: ten updates of a tenth of a second at one frame per second take
    more than one second, yet the first frame is still shown. *)
Theorem C88_same_frame_refuted :
  exists p, ends_in (playback_init B64Scalar) (@play_and_update B64Scalar 3 6 (b64_of_Z 1) LLoop (repeat tenth 10)) p
  /\ frame (pf p) = 3 /\ (1 < elapsed (map (fun d : b64 => B2R d) (repeat tenth 10)))%R.
Proof.
  assert (G : forall fuel, match run B64Scalar (Datatypes.S (Datatypes.S fuel)) (playback_init B64Scalar)
      (@play_and_update B64Scalar 3 6 (b64_of_Z 1) LLoop (repeat tenth 10)) with Done p => frame (pf p) | _ => 0 end = 3)
    by (intros fuel; vm_compute; reflexivity).
  assert (T : B2R tenth = (7205759403792794 / 72057594037927936)%R).
  { unfold tenth, B2R, F2R. cbn [Fnum Fexp cond_Zopp]. change (bpow radix2 (-56)) with (/ IZR 72057594037927936)%R. reflexivity. }
  assert (Hm : (0 <= 1 <= 2 ^ 50)%R) by (rewrite <- big_eq; pose proof (bpow_le radix2 0 50 ltac:(lia)); cbn [bpow] in *; lra).
  assert (HF : Forall (at_most (b64_of_Z 1) 1) (repeat tenth 10)).
  { apply Forall_forall. intros d Hd. apply repeat_spec in Hd. subst d. split; [reflexivity|]. rewrite (proj1 one64), T. lra. }
  destruct (C88_loop_drift (playback_init B64Scalar) 3 6 (b64_of_Z 1) (repeat tenth 10) 1 ltac:(unfold is_size; lia) ltac:(unfold is_size; lia)
    eq_refl ltac:(rewrite (proj1 one64); lra) Hm HF) as (p & k & [N E] & _).
  exists p. split; [exists N; exact E|]. split.
  - specialize (G N). rewrite E in G by lia. exact G.
  - cbn [repeat map elapsed]. rewrite !Rmax_left by (rewrite T; lra). rewrite T. lra.
Qed.
Print Assumptions C88_same_frame_refuted.

(** ** C05 in double precision *)

(** Update keeps the interpolator in [0, 1) going forward, and brings it into (0, 1] going backward, under every
    listener, for every finite time and speed, in double precision. *)
Theorem C05_interpolator_range_float :
  forall (fuel : nat) (dt : b64) (p p' : playback B64Scalar),
  let s : b64 := speed (pf p) in let x : b64 := interpolator (pf p) in let x' : b64 := interpolator (pf p') in
  update B64Scalar fuel dt p = Done p' -> is_finite dt = true -> is_finite s = true -> is_finite x = true ->
  ((0 <= B2R s)%R -> (0 <= B2R x < 1)%R -> is_finite x' = true /\ (0 <= B2R x' < 1)%R)
  /\ ((B2R s < 0)%R -> (B2R x <= 1)%R -> pst p = Playing -> (0 < B2R dt)%R -> is_finite x' = true /\ (0 < B2R x' <= 1)%R).
Proof.
  exact (fun fuel dt p p' H Fd Fs Fx => conj (fun S X => update_range_forward fuel dt p p' Fd Fs S Fx X H)
    (fun S X P D => update_range_backward fuel dt p p' Fd Fs S Fx X P D H)).
Qed.
Print Assumptions C05_interpolator_range_float.

(** ** C08 in double precision *)

(** The loop of Update does not end: the advanced interpolator is so large that taking away one (or adding one) changes
    nothing. *)
Definition too_far (p : playback B64Scalar) (dt : b64) : Prop :=
  let x := b64_add (interpolator (pf p)) (b64_mul dt (speed (pf p))) in
  pst p = Playing /\ b64_leb dt b64_0 = false
  /\ (if b64_leb b64_0 (speed (pf p)) then b64_leb (b64_of_Z (2 ^ 53 + 4)) x else b64_leb x (b64_of_Z (- (2 ^ 53 + 4)))) = true.

(** Update returns exactly if it need not pass more than 2^53 + 2 frames, for every playback, listener and time, infinite
    and NaN included. *)
Theorem C08_update_returns_float :
  forall (p : playback B64Scalar) (dt : b64),
  (too_far p dt -> forall fuel p', update B64Scalar fuel dt p <> Done p')
  /\ (~ too_far p dt -> exists N, forall fuel, (N <= fuel)%nat -> update B64Scalar fuel dt p <> OutOfFuel).
Proof.
  intros p dt. unfold too_far. change (2 ^ 53 + 4)%Z with 9007199254740996%Z. change (- (9007199254740996))%Z with (-9007199254740996)%Z.
  exact (update_returns_iff p dt).
Qed.
Print Assumptions C08_update_returns_float.

(** 2^53 + 2 frames at once are passed, 2^53 + 4 are not. *)
Example C08_example :
  let p := @mkPlayback B64Scalar (@mkFields B64Scalar 3 6 3 4 b64_0 (b64_of_Z 1)) Playing LLoop [] in
  too_far p (b64_of_Z (2 ^ 53 + 4)) /\ ~ too_far p (b64_of_Z (2 ^ 53 + 2)).
Proof. split; [split; [reflexivity|split; vm_compute; reflexivity]|intros (_ & _ & H); vm_compute in H; discriminate]. Qed.

(** A fifth past frame 3, an update by nine tenths of a frame. *)
Example C88_example :
  let p := @mkPlayback B64Scalar (@mkFields B64Scalar 3 6 3 4 (b64_mul tenth (b64_of_Z 2)) (b64_of_Z 9)) Playing LLoop [] in
  match update B64Scalar 3 tenth p with
  | Done p' => (frame (pf p') =? 4) && (nextFrame (pf p') =? 5) && b64_leb b64_0 (interpolator (pf p')) && negb (b64_leb (b64_of_Z 1) (interpolator (pf p')))
  | _ => false
  end = true.
Proof. vm_compute. reflexivity. Qed.
