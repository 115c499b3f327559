(** * C94: keyframes in double precision *)
From Coq Require Import ZArith Reals List Bool Lia Lra.
From Flocq Require Import Core IEEE754.BinarySingleNaN.
From Verif Require Import Model.Scalar Model.BoxFloat Model.PlaneFloat Model.ClipFloat Model.Keyframe Model.KeyframeFloat Spec.FloatSpec Spec.ClipFloatSpec Spec.KeyframeSpec Spec.KeyframeFloatSpec
  Proofs.PlaneFloatLemmas Proofs.SplineFloat Proofs.ClipFloatLemmas Proofs.KeyframeLemmas Proofs.KeyframeSeq Proofs.KeyframeFloatLemmas.
Import ListNotations.
Local Open Scope R_scope.

(** The model passes exact quotients to the interpolation, which rounds them first: the code computes the same numbers. *)
Theorem C94_interpolator : forall from to current, (0 <= from <= current)%Z -> (current < to)%Z -> (to <= 2 ^ 53)%Z ->
  is_finite (fframe_interp from to current) = true /\ B2R (fframe_interp from to current) = B2R (b64_of_R (IZR (current - from) / IZR (to - from))).
Proof.
  intros from to current A B C. unfold fframe_interp. rewrite !size_wrap_small by lia.
  destruct (frame_quotient (current - from) (to - from)) as [F V]; [lia|lia|]. destruct (of_quotient (current - from) (to - from)) as (_ & V' & _); [lia|lia|].
  split; [exact F|]. rewrite V, V'. reflexivity.
Qed.
Print Assumptions C94_interpolator.

(** Positions and scalings show the keys exactly at their frames, and between two keys every component goes from the one to the other without turning back and without
    leaving the interval between them; for all orders of the keyframes and all interpolations of rotations. *)
Theorem C94_steady : forall Q (ipq : interp Q) v0 v1 q1 ps rs ss s s',
  valid_frames ps -> valid_frames rs -> valid_frames ss -> distinct_frames ps -> distinct_frames rs -> distinct_frames ss ->
  small_frames ps -> small_frames ss -> tame_keys ps -> tame_keys ss ->
  build_keys float_interp ipq v0 v1 q1 ps rs ss s = Some s' -> steady ps (pos_keys s') /\ steady ss (scl_keys s').
Proof.
  intros Q ipq v0 v1 q1 ps rs ss s s' Vp Vr Vs Dp Dr Ds Bp Bs Tp Ts E. destruct (build_values float_interp ipq v0 v1 q1 ps rs ss s s' Vp Vr Vs Dp Dr Ds E) as (W1 & _ & W3).
  split; intros k1 k2 i v N; [apply (steady_track ps (pos_keys s') Vp Dp Bp Tp)|apply (steady_track ss (scl_keys s') Vs Ds Bs Ts)]; try exact N; [apply W1|apply W3]; destruct N as (I & _); intros ->; exact I.
Qed.
Print Assumptions C94_steady.

(** What is sampled with a parameter from 0 to below 1 is finite and in every box that contains the keys. *)
Theorem C94_sample : forall Q (ipq : interp Q) v0 v1 q1 ps rs ss s s' from to (t : b64) p r c plo phi slo shi,
  valid_frames ps -> valid_frames rs -> valid_frames ss -> distinct_frames ps -> distinct_frames rs -> distinct_frames ss ->
  small_frames ps -> small_frames ss -> tame_keys ps -> tame_keys ss -> ps <> [] -> ss <> [] ->
  build_keys float_interp ipq v0 v1 q1 ps rs ss s = Some s' -> keys_in plo phi ps -> keys_in slo shi ss -> is_finite t = true -> 0 <= B2R t < 1 ->
  interpolate float_interp ipq s' from to (B2R t) = Sampled p r c -> in_bounds plo phi p /\ in_bounds slo shi c.
Proof.
  intros Q ipq v0 v1 q1 ps rs ss s s' from to t p r c plo phi slo shi Vp Vr Vs Dp Dr Ds Bp Bs Tp Ts Np Ns E Kp Ks Ft Rt I.
  destruct (build_values float_interp ipq v0 v1 q1 ps rs ss s s' Vp Vr Vs Dp Dr Ds E) as (W1 & _ & W3). specialize (W1 Np). specialize (W3 Ns).
  destruct (of_float t Ft) as [F2 V2]. unfold interpolate, vec_at in I.
  destruct (frame_begin s' <? frame_end s')%Z; [|discriminate]. cbv zeta in I.
  set (i := size_wrap (clamp_frame s' from - frame_begin s')) in *. set (j := size_wrap (clamp_frame s' to - frame_begin s')) in *.
  destruct (i <? 0)%Z; [discriminate|]. destruct (j <? 0)%Z; [now destruct (nth_error (pos_keys s') (Z.to_nat i)), (nth_error (rot_keys s') (Z.to_nat i)), (nth_error (scl_keys s') (Z.to_nat i))|].
  destruct (nth_error (pos_keys s') (Z.to_nat i)) as [pa|] eqn:E1; [|discriminate]. destruct (nth_error (rot_keys s') (Z.to_nat i)); [|discriminate].
  destruct (nth_error (scl_keys s') (Z.to_nat i)) as [sa|] eqn:E2; [|discriminate].
  destruct (nth_error (pos_keys s') (Z.to_nat j)) as [pb|] eqn:E3; [|discriminate]. destruct (nth_error (rot_keys s') (Z.to_nat j)); [|discriminate].
  destruct (nth_error (scl_keys s') (Z.to_nat j)) as [sb|] eqn:E4; [|discriminate]. injection I as <- _ <-. cbn [float_interp ip_lerp].
  destruct (track_in_bounds ps plo phi _ _ Vp Bp Tp Kp (W1 _ _ E1)) as [L1 T1]. destruct (track_in_bounds ps plo phi _ _ Vp Bp Tp Kp (W1 _ _ E3)) as [L3 T3].
  destruct (track_in_bounds ss slo shi _ _ Vs Bs Ts Ks (W3 _ _ E2)) as [L2 T2]. destruct (track_in_bounds ss slo shi _ _ Vs Bs Ts Ks (W3 _ _ E4)) as [L4 T4].
  rewrite <- V2 in Rt. split; apply lerp_in_bounds; auto.
Qed.
Print Assumptions C94_sample.

(** An object that moves and shrinks, with keyframes in any order *)
Definition spot (x : Z) : fvec := FV (b64_of_Z x) (b64_of_Z 5) (b64_of_Z 0).
Definition moved : list (keyframe fvec) := [mkKf (spot 10) 3; mkKf (spot (-1)) 0; mkKf (spot 7) 7].
Definition far : list (keyframe fvec) := [mkKf (spot (-1)) 0; mkKf (spot (2 ^ 53 + 2)) 1].
Definition shrunk : list (keyframe fvec) := [mkKf (spot 1) 0; mkKf (FV (b64_div (b64_of_Z 1) (b64_of_Z (2 ^ 60))) b64_0 b64_0) 1].
Lemma bounded (l x h : b64) : is_finite l && is_finite x && is_finite h && Bleb l x && Bleb x h = true -> is_finite x = true /\ B2R l <= B2R x <= B2R h.
Proof.
  rewrite !andb_true_iff. intros [[[[Fl Fx] Fh] A] B]. split; [exact Fx|]. rewrite Bleb_correct in A, B by assumption. split.
  - destruct (Rle_bool_spec (B2R l) (B2R x)); [assumption|discriminate].
  - destruct (Rle_bool_spec (B2R x) (B2R h)); [assumption|discriminate].
Qed.
Lemma zero_value (x : b64) : match B2SF x with SpecFloat.S754_zero _ => true | _ => false end = true -> B2R x = 0.
Proof. destruct x; cbn; congruence. Qed.
Ltac tame := (split; [|split]); apply tame_exponent; vm_compute; reflexivity.
Ltac fine_track := lazymatch goal with
  | |- distinct_frames _ => unfold distinct_frames, moved, far, shrunk; cbn [map kf_frame]; repeat (apply NoDup_cons; [cbn [In]; lia|]); apply NoDup_nil
  | |- tame_keys _ => intros k mem; unfold moved, far, shrunk in mem; cbn [In] in mem; repeat destruct mem as [<- | mem]; try destruct mem; cbn [kf_key]; tame
  | |- _ => intros k mem; unfold moved, far, shrunk in mem; cbn [In] in mem; repeat destruct mem as [<- | mem]; cbn [kf_frame]; try lia; destruct mem
  end.
Definition still : interp unit := mkInterp (fun a _ _ => a) (fun a _ => a).
Lemma build_moved (a b c d e z o : fvec) : exists s', build_keys float_interp still z o tt [mkKf a 3; mkKf b 0; mkKf c 7] [] [mkKf d 0; mkKf e 1] kseq_init = Some s' /\ length (pos_keys s') = 8%nat.
Proof. eexists. split; [cbn -[float_interp]; reflexivity|reflexivity]. Qed.
Lemma build_far (a b d e z o : fvec) : exists s', build_keys float_interp still z o tt [mkKf a 0; mkKf b 1] [] [mkKf d 0; mkKf e 1] kseq_init = Some s' /\
  forall t, interpolate float_interp still s' 0 1 t = Sampled (flerp3 a b (b64_of_R t)) tt (flerp3 d e (b64_of_R t)).
Proof. eexists. split; [cbn -[float_interp]; reflexivity|reflexivity]. Qed.
Example C94_example :
  (valid_frames moved /\ distinct_frames moved /\ small_frames moved /\ tame_keys moved /\ valid_frames shrunk /\ distinct_frames shrunk /\ small_frames shrunk /\ tame_keys shrunk) /\
  (exists s', build_keys float_interp still (spot 0) (spot 1) tt moved [] shrunk kseq_init = Some s' /\ length (pos_keys s') = 8%nat) /\
  neighbours moved (mkKf (spot (-1)) 0) (mkKf (spot 10) 3) /\ keys_in (spot (-1)) (spot 10) moved.
Proof.
  split; [|split; [|split]].
  - refine (conj _ (conj _ (conj _ (conj _ (conj _ (conj _ (conj _ _))))))); fine_track.
  - apply build_moved.
  - unfold neighbours, moved. split; [cbn [In]; tauto|]. split; [cbn [In]; tauto|]. cbn [kf_frame]. split; [lia|]. intros k [<- | [<- | [<- | []]]]; cbn [kf_frame]; lia.
  - intros k [<- | [<- | [<- | []]]] c [ -> | [ -> | -> ]]; cbn [kf_key spot fx fy fz]; apply bounded; vm_compute; reflexivity.
Qed.

(** Refuted (finding) for the parameter 1, with which a sample should show the second frame: the position goes beyond it, and a positive scaling becomes zero. *)
Theorem C94_end_refuted : exists (s' : @kseq fvec unit) p c,
  (valid_frames far /\ distinct_frames far /\ small_frames far /\ tame_keys far /\ valid_frames shrunk /\ distinct_frames shrunk /\ small_frames shrunk /\ tame_keys shrunk) /\
  build_keys float_interp still (spot 0) (spot 1) tt far [] shrunk kseq_init = Some s' /\
  interpolate float_interp still s' 0 1 1 = Sampled p tt c /\
  (forall k, In k far -> B2R (fx (kf_key k)) < B2R (fx p)) /\ (forall k, In k shrunk -> 0 < B2R (fx (kf_key k))) /\ B2R (fx c) = 0.
Proof.
  destruct (build_far (spot (-1)) (spot (2 ^ 53 + 2)) (spot 1) (FV (b64_div (b64_of_Z 1) (b64_of_Z (2 ^ 60))) b64_0 b64_0) (spot 0) (spot 1)) as (s' & E' & I).
  exists s', (flerp3 (spot (-1)) (spot (2 ^ 53 + 2)) (b64_of_R 1)), (flerp3 (spot 1) (FV (b64_div (b64_of_Z 1) (b64_of_Z (2 ^ 60))) b64_0 b64_0) (b64_of_R 1)).
  split; [|split; [exact E'|split; [apply I|]]].
  - refine (conj _ (conj _ (conj _ (conj _ (conj _ (conj _ (conj _ _))))))); fine_track.
  - destruct one_value as [V1 F1]. assert (R1 : 0 <= B2R b64_1 <= 1) by lra. destruct (of_float b64_1 F1) as [F2 V2]. rewrite V1 in F2, V2. assert (R2 : 0 <= B2R (b64_of_R 1) <= 1) by lra.
    assert (E : forall a b : b64, tame a -> tame b -> B2R (flerp a b (b64_of_R 1)) = B2R (flerp a b b64_1) /\ is_finite (flerp a b b64_1) = true).
    { intros a b A B. destruct (flerp_value a b _ A B F2 R2) as [_ ->]. destruct (flerp_value a b _ A B F1 R1) as [F ->]. rewrite V2, V1. now split. }
    cbn [flerp3 fx kf_key spot]. split; [|split].
    + destruct (E (b64_of_Z (-1)) (b64_of_Z (2 ^ 53 + 2))) as [-> F]; try (apply tame_exponent; vm_compute; reflexivity).
      intros k [<- | [<- | []]]; cbn [kf_key spot fx]; apply blt; try exact F; vm_compute; reflexivity.
    + change 0 with (B2R b64_0). intros k [<- | [<- | []]]; cbn [kf_key spot fx]; apply blt; vm_compute; reflexivity.
    + destruct (E (b64_of_Z 1) (b64_div (b64_of_Z 1) (b64_of_Z (2 ^ 60)))) as [-> F]; try (apply tame_exponent; vm_compute; reflexivity).
      apply zero_value. vm_compute. reflexivity.
Qed.
Print Assumptions C94_end_refuted.
