(** Properties C09-C12: keyframe sequences.  The key types and their interpolation functions are arbitrary. *)
From Coq Require Import ZArith Reals List Bool Lia Lra Permutation.
From Verif Require Import Model.Keyframe Spec.KeyframeSpec Proofs.KeyframeLemmas Proofs.KeyframeSeq.
Import ListNotations.
Open Scope Z_scope.

(** Example interpolation: keys are reals. *)
Definition r_interp : interp R := mkInterp (fun a b t => (a + (b - a) * t)%R) (fun a b => 0%R).
Definition ex_pos : list (keyframe R) := [mkKf 30%R 3; mkKf 10%R 0; mkKf 50%R 5].
Definition ex_rot : list (keyframe R) := [mkKf 1%R 2].
Definition ex_scl : list (keyframe R) := [mkKf 2%R 4; mkKf 1%R 1].
Definition ex_build := build_keys r_interp r_interp 0%R 1%R 0%R.

(** ** C09 *)

(** If the smallest keyframe frame of all tracks is 0, every track has at every frame of the range the value given by
    its keyframes. *)
Theorem C09_tracks_interpolate_from_zero :
  forall (V Q : Type) (ipv : interp V) (ipq : interp Q) (v0 v1 : V) (q1 : Q)
    (ps : list (keyframe V)) (rs : list (keyframe Q)) (ss : list (keyframe V)) (s s' : @kseq V Q),
  valid_frames ps -> valid_frames rs -> valid_frames ss ->
  distinct_frames ps -> distinct_frames rs -> distinct_frames ss ->
  In 0 (map kf_frame ps ++ map kf_frame rs ++ map kf_frame ss) ->
  build_keys ipv ipq v0 v1 q1 ps rs ss s = Some s' ->
  frame_begin s' = 0 /\
  forall f, 0 <= f < frame_end s' ->
    (ps <> [] -> exists v, nth_error (pos_keys s') (Z.to_nat f) = Some v /\ track_value ipv ps f v) /\
    (rs <> [] -> exists v, nth_error (rot_keys s') (Z.to_nat f) = Some v /\ track_value ipq rs f v) /\
    (ss <> [] -> exists v, nth_error (scl_keys s') (Z.to_nat f) = Some v /\ track_value ipv ss f v).
Proof.
  intros V Q ipv ipq v0 v1 q1 ps rs ss s s' Vp Vr Vs Dp Dr Ds H0 E.
  destruct (all_bounds_ok ps rs ss Vp Vr Vs) as (B1 & B2 & B3 & B4).
  destruct (build_total ipv ipq v0 v1 q1 ps rs ss s) as (s2 & E2 & Eb & Ee).
  assert (s2 = s') as -> by congruence.
  assert (U : used ps rs ss 0) by (unfold used; rewrite !in_app_iff in H0; tauto).
  apply B3 in U. assert (Eb0 : frame_begin s' = 0) by lia. split; [exact Eb0|].
  intros f Hf.
  assert (L : lengths_ok s').
  { eapply build_lengths; [| | |exact E].
    - intros k Hk; specialize (Vp k Hk); lia.
    - intros k Hk; specialize (Vr k Hk); lia.
    - intros k Hk; specialize (Vs k Hk); lia. }
  destruct L as (_ & _ & L). destruct (L ltac:(lia)) as (L1 & L2 & L3).
  destruct (build_values ipv ipq v0 v1 q1 ps rs ss s s' Vp Vr Vs Dp Dr Ds E) as (W1 & W2 & W3).
  repeat split; intros Hne.
  - destruct (nth_error (pos_keys s') (Z.to_nat f)) as [v|] eqn:En; [|apply nth_error_None in En; lia].
    exists v. split; [reflexivity|]. specialize (W1 Hne _ _ En). rewrite Z2Nat.id in W1 by lia. exact W1.
  - destruct (nth_error (rot_keys s') (Z.to_nat f)) as [v|] eqn:En; [|apply nth_error_None in En; lia].
    exists v. split; [reflexivity|]. specialize (W2 Hne _ _ En). rewrite Z2Nat.id in W2 by lia. exact W2.
  - destruct (nth_error (scl_keys s') (Z.to_nat f)) as [v|] eqn:En; [|apply nth_error_None in En; lia].
    exists v. split; [reflexivity|]. specialize (W3 Hne _ _ En). rewrite Z2Nat.id in W3 by lia. exact W3.
Qed.
Print Assumptions C09_tracks_interpolate_from_zero.

(** Three tracks starting at frame 0; e.g. the position at frame 4 is half way between 30 and 50. *)
Example C09_example :
  valid_frames ex_pos /\ valid_frames ex_rot /\ valid_frames ex_scl /\
  distinct_frames ex_pos /\ distinct_frames ex_rot /\ distinct_frames ex_scl /\
  (exists s', ex_build ex_pos ex_rot ex_scl kseq_init = Some s' /\ frame_begin s' = 0 /\ frame_end s' = 6 /\
    nth_error (pos_keys s') 4 = Some (30 + (50 - 30) * (1 / 2))%R).
Proof.
  unfold valid_frames, distinct_frames, ex_pos, ex_rot, ex_scl; cbn [In map kf_frame].
  split; [|split; [|split; [|split; [|split; [|split]]]]].
  1-3: intros k H; repeat destruct H as [<-|H]; try contradiction; cbn; lia.
  1-3: repeat constructor; cbn; intuition discriminate.
  eexists. split; [vm_compute; reflexivity|]. cbn. repeat split. 
Qed.

(** The value is determined by the keyframes, so the theorem above says what it is. *)
Theorem C09_track_value_unique :
  forall (A : Type) (ip : interp A) (kfs : list (keyframe A)) (f : Z) (v w : A),
  distinct_frames kfs -> track_value ip kfs f v -> track_value ip kfs f w -> v = w.
Proof. exact @track_value_unique. Qed.
Print Assumptions C09_track_value_unique.

(** The order in which the keyframes are listed does not matter. *)
Theorem C09_listing_order_irrelevant :
  forall (V Q : Type) (ipv : interp V) (ipq : interp Q) (v0 v1 : V) (q1 : Q) ps rs ss ps' rs' ss' (s : @kseq V Q),
  distinct_frames ps -> distinct_frames rs -> distinct_frames ss ->
  Permutation ps ps' -> Permutation rs rs' -> Permutation ss ss' ->
  build_keys ipv ipq v0 v1 q1 ps rs ss s = build_keys ipv ipq v0 v1 q1 ps' rs' ss' s.
Proof. exact @build_order. Qed.
Print Assumptions C09_listing_order_irrelevant.

(** std::sort may be any sorting algorithm: for distinct frames the sorted sequence is unique. *)
Theorem C09_sort_determined :
  forall (A : Type) (l m : list (keyframe A)), distinct_frames l -> Permutation l m ->
  Sorted.StronglySorted (fun a b => kf_frame a < kf_frame b) m -> m = kf_sort l.
Proof.
  exact (fun A l m D P H => strict_sorted_unique m (kf_sort l) H (kf_sort_strict l D)
           (Permutation_trans (Permutation_sym P) (kf_sort_perm l))).
Qed.
Print Assumptions C09_sort_determined.

(** In general (first frame not 0) the i-th key holds the value of the track at frame [i] instead of frame
    [frame_begin + i]. *)
Theorem C09_keys_are_not_offset_partial :
  forall (V Q : Type) (ipv : interp V) (ipq : interp Q) (v0 v1 : V) (q1 : Q) ps rs ss (s s' : @kseq V Q),
  valid_frames ps -> valid_frames rs -> valid_frames ss ->
  distinct_frames ps -> distinct_frames rs -> distinct_frames ss ->
  build_keys ipv ipq v0 v1 q1 ps rs ss s = Some s' ->
  (ps <> [] -> forall i v, nth_error (pos_keys s') i = Some v -> track_value ipv ps (Z.of_nat i) v) /\
  (rs <> [] -> forall i v, nth_error (rot_keys s') i = Some v -> track_value ipq rs (Z.of_nat i) v) /\
  (ss <> [] -> forall i v, nth_error (scl_keys s') i = Some v -> track_value ipv ss (Z.of_nat i) v).
Proof. exact @build_values. Qed.
Print Assumptions C09_keys_are_not_offset_partial.

(** Hence the property fails for sequences that start later: with keyframes at frames 5 and 6 the position sampled at
    frame 6 is the one of frame 5, for any key type with two values and any interpolation. *)
Theorem C09_tracks_interpolate_refuted :
  forall (V Q : Type) (ipv : interp V) (ipq : interp Q) (v0 v1 : V) (q1 : Q) (a b : V), a <> b ->
  exists s', build_keys ipv ipq v0 v1 q1 [mkKf a 5; mkKf b 6] [] [] (@kseq_init V Q) = Some s'
  /\ frame_begin s' = 5 /\ frame_end s' = 7
  /\ nth_error (pos_keys s') (Z.to_nat (6 - frame_begin s')) = Some a.
Proof. intros. eexists. split; [vm_compute; reflexivity|]. repeat split. Qed.
Print Assumptions C09_tracks_interpolate_refuted.

(** Two keyframes at the same frame disable all later keyframes, in whichever order they are sorted: here the key at
    frame 2 is not the keyframe's value [c] but an interpolation with an infinite parameter. *)
Theorem C09_duplicate_frames_refuted :
  forall (A : Type) (ip : interp A) (a b c : A),
  build_track ip [] [mkKf a 0; mkKf b 0; mkKf c 2] 3 a = Some [a; ip_inf ip a b; ip_inf ip a b].
Proof. reflexivity. Qed.
Print Assumptions C09_duplicate_frames_refuted.

(** ** C10 *)

Theorem C10_common_frame_range :
  forall (V Q : Type) (ipv : interp V) (ipq : interp Q) (v0 v1 : V) (q1 : Q) ps rs ss (s : @kseq V Q),
  valid_frames ps -> valid_frames rs -> valid_frames ss ->
  exists s', build_keys ipv ipq v0 v1 q1 ps rs ss s = Some s' /\
  let frames := map kf_frame ps ++ map kf_frame rs ++ map kf_frame ss in
  (frames <> [] ->
   In (frame_begin s') frames /\ In (frame_end s' - 1) frames /\
   (forall f, In f frames -> frame_begin s' <= f < frame_end s') /\
   Z.of_nat (length (pos_keys s')) = frame_end s' - frame_begin s' /\
   Z.of_nat (length (rot_keys s')) = frame_end s' - frame_begin s' /\
   Z.of_nat (length (scl_keys s')) = frame_end s' - frame_begin s') /\
  (frames = [] -> frame_end s' <= frame_begin s').
Proof.
  intros V Q ipv ipq v0 v1 q1 ps rs ss s Vp Vr Vs.
  destruct (all_bounds_ok ps rs ss Vp Vr Vs) as (B1 & B2 & B3 & B4).
  destruct (build_total ipv ipq v0 v1 q1 ps rs ss s) as (s' & E & Eb & Ee).
  exists s'. split; [exact E|]. cbn zeta. split.
  - intros Hne.
    assert (U : forall f, used ps rs ss f <-> In f (map kf_frame ps ++ map kf_frame rs ++ map kf_frame ss))
      by (intros; unfold used; rewrite !in_app_iff; tauto).
    assert (Hex : exists f, used ps rs ss f).
    { destruct (map kf_frame ps ++ map kf_frame rs ++ map kf_frame ss) as [|f l] eqn:El; [congruence|].
      exists f. apply U. left; reflexivity. }
    destruct (B4 Hex) as [M1 M2]. destruct Hex as [f Hf]. pose proof (B3 f Hf) as Hr.
    rewrite Eb, Ee. repeat split.
    + apply U, M1.
    + apply U, M2.
    + apply (B3 f0), U, H.
    + apply (B3 f0), U, H.
    + eapply build_lengths in E; [destruct E as (_ & _ & L)| | |].
      * rewrite <- Eb, <- Ee. apply L. lia.
      * intros k Hk; specialize (Vp k Hk); lia.
      * intros k Hk; specialize (Vr k Hk); lia.
      * intros k Hk; specialize (Vs k Hk); lia.
    + eapply build_lengths in E; [destruct E as (_ & _ & L)| | |].
      * rewrite <- Eb, <- Ee. apply L. lia.
      * intros k Hk; specialize (Vp k Hk); lia.
      * intros k Hk; specialize (Vr k Hk); lia.
      * intros k Hk; specialize (Vs k Hk); lia.
    + eapply build_lengths in E; [destruct E as (_ & _ & L)| | |].
      * rewrite <- Eb, <- Ee. apply L. lia.
      * intros k Hk; specialize (Vp k Hk); lia.
      * intros k Hk; specialize (Vr k Hk); lia.
      * intros k Hk; specialize (Vs k Hk); lia.
  - intros H. destruct ps; [|discriminate]. destruct rs; [|discriminate]. destruct ss; [|discriminate].
    rewrite Eb, Ee. vm_compute. discriminate.
Qed.
Print Assumptions C10_common_frame_range.

Example C10_example : exists s', ex_build ex_pos ex_rot ex_scl kseq_init = Some s' /\ frame_begin s' = 0 /\ frame_end s' = 6
  /\ length (pos_keys s') = 6%nat /\ length (rot_keys s') = 6%nat /\ length (scl_keys s') = 6%nat.
Proof. eexists. split; [vm_compute; reflexivity|]. repeat split. Qed.

(** A keyframe at the greatest representable frame makes the end of the range wrap to 0: nothing is built. *)
Theorem C10_greatest_frame_refuted :
  forall (V Q : Type) (ipv : interp V) (ipq : interp Q) (v0 v1 a : V) (q1 : Q),
  exists s', build_keys ipv ipq v0 v1 q1 [mkKf a (2 ^ 64 - 1)] [] [] (@kseq_init V Q) = Some s'
  /\ frame_end s' = 0 /\ pos_keys s' = [].
Proof. intros. eexists. split; [vm_compute; reflexivity|]. repeat split. Qed.
Print Assumptions C10_greatest_frame_refuted.

(** ** C11 *)

(** After any history of BuildKeys calls sampling is in bounds and clamped: requested frames are replaced by the nearest
    frame of the range, and sampling an empty range has no effect. *)
Theorem C11_sampling_clamped_and_safe :
  forall (V Q : Type) (ipv : interp V) (ipq : interp Q) (v0 v1 : V) (q1 : Q) (os : list (@kop V Q)),
  Forall (fun o => match o with
                   | KBuild ps rs ss => (forall k, In k ps -> 0 <= kf_frame k) /\ (forall k, In k rs -> 0 <= kf_frame k)
                                        /\ (forall k, In k ss -> 0 <= kf_frame k)
                   | KClear => False end) os ->
  exists s, krun ipv ipq v0 v1 q1 kseq_init os = Some s /\
  forall from to t,
    (frame_begin s >= frame_end s -> interpolate ipv ipq s from to t = NoEffect) /\
    (frame_begin s < frame_end s ->
     let nearest f := Z.max (frame_begin s) (Z.min f (frame_end s - 1)) in
     let at_frame (B : Type) (l : list B) (f : Z) := nth_error l (Z.to_nat (nearest f - frame_begin s)) in
     exists p1 r1 s1 p2 r2 s2,
       at_frame V (pos_keys s) from = Some p1 /\ at_frame Q (rot_keys s) from = Some r1 /\ at_frame V (scl_keys s) from = Some s1 /\
       at_frame V (pos_keys s) to = Some p2 /\ at_frame Q (rot_keys s) to = Some r2 /\ at_frame V (scl_keys s) to = Some s2 /\
       interpolate ipv ipq s from to t = Sampled (ip_lerp ipv p1 p2 t) (ip_lerp ipq r1 r2 t) (ip_lerp ipv s1 s2 t)).
Proof.
  intros V Q ipv ipq v0 v1 q1 os Ho.
  destruct (krun_lengths ipv ipq v0 v1 q1 os kseq_init) as (s & E & L).
  - unfold lengths_ok; cbn. repeat split; lia.
  - exact Ho.
  - exists s. split; [exact E|]. intros from to t. split.
    + intros H. unfold interpolate. replace (frame_begin s <? frame_end s) with false by (symmetry; apply Z.ltb_ge; lia). reflexivity.
    + intros H. exact (interpolate_ok ipv ipq s from to t L H).
Qed.
Print Assumptions C11_sampling_clamped_and_safe.

Example C11_example : exists s, krun r_interp r_interp 0%R 1%R 0%R kseq_init
    [KBuild ex_pos [] []; KBuild ex_pos ex_rot ex_scl] = Some s
  /\ interpolate r_interp r_interp s 1000 (2 ^ 64 - 1) (1 / 4)%R
     = Sampled (50 + (50 - 50) * (1 / 4))%R (1 + (1 - 1) * (1 / 4))%R (2 + (2 - 2) * (1 / 4))%R.
Proof. eexists. split; [vm_compute; reflexivity|]. vm_compute. reflexivity. Qed.

(** At the ends the sample is exactly the key, for interpolations that are exact at 0 and 1. *)
Theorem C11_sampling_exact_at_ends :
  forall (V Q : Type) (ipv : interp V) (ipq : interp Q) (s : @kseq V Q) from to t p r c,
  (forall a b, ip_lerp ipv a b 0 = a) -> (forall a b, ip_lerp ipv a b 1 = b) ->
  (forall a b, ip_lerp ipq a b 0 = a) -> (forall a b, ip_lerp ipq a b 1 = b) ->
  interpolate ipv ipq s from to t = Sampled p r c ->
  interpolate ipv ipq s from to 0 = interpolate ipv ipq s from from 0 /\
  interpolate ipv ipq s from to 1 = interpolate ipv ipq s to to 0.
Proof.
  intros V Q ipv ipq s from to t p r c V0 V1 Q0 Q1. unfold interpolate.
  destruct (frame_begin s <? frame_end s); [|discriminate].
  destruct (vec_at (pos_keys s) (size_wrap (clamp_frame s from - frame_begin s))); [|discriminate].
  destruct (vec_at (rot_keys s) (size_wrap (clamp_frame s from - frame_begin s))); [|discriminate].
  destruct (vec_at (scl_keys s) (size_wrap (clamp_frame s from - frame_begin s))); [|discriminate].
  destruct (vec_at (pos_keys s) (size_wrap (clamp_frame s to - frame_begin s))); [|discriminate].
  destruct (vec_at (rot_keys s) (size_wrap (clamp_frame s to - frame_begin s))); [|discriminate].
  destruct (vec_at (scl_keys s) (size_wrap (clamp_frame s to - frame_begin s))); [|discriminate].
  intros _. rewrite !V0, !V1, !Q0, !Q1. auto.
Qed.
Print Assumptions C11_sampling_exact_at_ends.

Example C11_exact_example : forall a b, ip_lerp r_interp a b 0 = a /\ ip_lerp r_interp a b 1 = b.
Proof. intros; cbn; split; lra. Qed.

(** ClearKeys leaves the frame range: sampling afterwards reads outside of the key arrays. *)
Theorem C11_sampling_after_clear_refuted :
  forall (V Q : Type) (ipv : interp V) (ipq : interp Q) (v0 v1 a : V) (q1 : Q),
  exists s, krun ipv ipq v0 v1 q1 (@kseq_init V Q) [KBuild [mkKf a 0] [] []; KClear] = Some s
  /\ forall from to t, interpolate ipv ipq s from to t = OutOfBounds.
Proof.
  intros. eexists. split; [vm_compute; reflexivity|]. intros. unfold interpolate. cbn [frame_begin frame_end pos_keys rot_keys scl_keys].
  change (0 <? 1) with true. cbn iota zeta. unfold vec_at. destruct (_ <? 0); [reflexivity|].
  destruct (Z.to_nat _); reflexivity.
Qed.
Print Assumptions C11_sampling_after_clear_refuted.

(** ** C12 *)

Theorem C12_rebuild_independent_nonempty :
  forall (V Q : Type) (ipv : interp V) (ipq : interp Q) (v0 v1 : V) (q1 : Q) ps rs ss (s t : @kseq V Q),
  ps <> [] -> rs <> [] -> ss <> [] -> valid_frames ps -> valid_frames rs -> valid_frames ss ->
  build_keys ipv ipq v0 v1 q1 ps rs ss s = build_keys ipv ipq v0 v1 q1 ps rs ss t.
Proof. exact @build_independent. Qed.
Print Assumptions C12_rebuild_independent_nonempty.

Example C12_example : ex_pos <> [] /\ ex_rot <> [] /\ ex_scl <> []
  /\ ex_build ex_pos ex_rot ex_scl (mkSeq [7%R; 8%R] [] [3%R] 4 9) = ex_build ex_pos ex_rot ex_scl kseq_init.
Proof. repeat split; try discriminate. Qed.

(** After ClearKeys nothing of the old keys is left, whatever tracks are empty. *)
Theorem C12_clear_then_build :
  forall (V Q : Type) (ipv : interp V) (ipq : interp Q) (v0 v1 : V) (q1 : Q) ps rs ss (s : @kseq V Q),
  build_keys ipv ipq v0 v1 q1 ps rs ss (clear_keys s) = build_keys ipv ipq v0 v1 q1 ps rs ss kseq_init.
Proof. exact @build_after_clear. Qed.
Print Assumptions C12_clear_then_build.

(** With an empty track the keys of the previous build survive: the rotation at frame 0 is still the old [q]. *)
Theorem C12_rebuild_independent_refuted :
  forall (V Q : Type) (ipv : interp V) (ipq : interp Q) (v0 v1 a : V) (q1 q : Q), q <> q1 ->
  exists s1 s2, krun ipv ipq v0 v1 q1 (@kseq_init V Q) [KBuild [mkKf a 0] [mkKf q 0] []; KBuild [mkKf a 0] [] []] = Some s1
  /\ krun ipv ipq v0 v1 q1 (@kseq_init V Q) [KBuild [mkKf a 0] [] []] = Some s2
  /\ rot_keys s1 = [q] /\ rot_keys s2 = [q1].
Proof. intros. do 2 eexists. split; [vm_compute; reflexivity|]. split; [vm_compute; reflexivity|]. split; reflexivity. Qed.
Print Assumptions C12_rebuild_independent_refuted.
