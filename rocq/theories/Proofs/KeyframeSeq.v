From Coq Require Import ZArith Reals List Bool Lia Lra Permutation Sorted.
From Verif Require Import Model.Keyframe Spec.KeyframeSpec Proofs.KeyframeLemmas.
Import ListNotations.
Open Scope Z_scope.

Section Seq.
Context {V Q : Type}.
Variables (ipv : interp V) (ipq : interp Q).
Variables (v0 v1 : V) (q1 : Q).
Notation seqT := (@kseq V Q).
Notation build := (build_keys ipv ipq v0 v1 q1).

(** Frames used by any of the tracks. *)
Definition used (ps : list (keyframe V)) (rs : list (keyframe Q)) (ss : list (keyframe V)) (f : Z) : Prop :=
  In f (map kf_frame ps) \/ In f (map kf_frame rs) \/ In f (map kf_frame ss).

Lemma all_bounds_ok (ps : list (keyframe V)) (rs : list (keyframe Q)) (ss : list (keyframe V)) :
  valid_frames ps -> valid_frames rs -> valid_frames ss ->
  let b := all_bounds ps rs ss in
  0 <= fst b <= 2 ^ 64 - 1 /\ 0 <= snd b <= 2 ^ 64 - 1 /\
  (forall f, used ps rs ss f -> fst b <= f < snd b) /\
  ((exists f, used ps rs ss f) -> used ps rs ss (fst b) /\ used ps rs ss (snd b - 1)).
Proof.
  intros Hp Hr Hs. cbn zeta. unfold all_bounds.
  set (b0 := (2 ^ 64 - 1, 0)).
  pose proof (bounds_ok b0 ps Hp) as B1. set (b1 := get_frame_bounds b0 (kf_sort ps)) in *.
  pose proof (bounds_ok b1 rs Hr) as B2. set (b2 := get_frame_bounds b1 (kf_sort rs)) in *.
  pose proof (bounds_ok b2 ss Hs) as B3. set (b3 := get_frame_bounds b2 (kf_sort ss)) in *.
  cbn zeta in *. destruct B1 as (B11 & B12 & B13 & B14 & B15), B2 as (B21 & B22 & B23 & B24 & B25), B3 as (B31 & B32 & B33 & B34 & B35).
  assert (U : forall f, used ps rs ss f -> fst b3 <= f < snd b3 /\ 0 <= f < 2 ^ 64 - 1).
  { intros f [H|[H|H]]; apply in_map_iff in H; destruct H as (k & <- & Hk);
      [specialize (B13 k Hk); specialize (Hp k Hk)|specialize (B23 k Hk); specialize (Hr k Hk)|specialize (B33 k Hk); specialize (Hs k Hk)]; lia. }
  assert (L : fst b3 = fst b0 \/ used ps rs ss (fst b3)).
  { destruct B34 as [E3|(k & Hk & E3)]; [|right; right; right; rewrite <- E3; apply in_map, Hk]. rewrite E3.
    destruct B24 as [E2|(k & Hk & E2)]; [|right; right; left; rewrite <- E2; apply in_map, Hk]. rewrite E2.
    destruct B14 as [E1|(k & Hk & E1)]; [|right; left; rewrite <- E1; apply in_map, Hk]. left. exact E1. }
  assert (H : snd b3 = snd b0 \/ used ps rs ss (snd b3 - 1)).
  { destruct B35 as [E3|(k & Hk & E3)]; [|right; right; right; rewrite <- E3, Z.add_simpl_r; apply in_map, Hk]. rewrite E3.
    destruct B25 as [E2|(k & Hk & E2)]; [|right; right; left; rewrite <- E2, Z.add_simpl_r; apply in_map, Hk]. rewrite E2.
    destruct B15 as [E1|(k & Hk & E1)]; [|right; left; rewrite <- E1, Z.add_simpl_r; apply in_map, Hk]. left. exact E1. }
  change (fst b0) with (2 ^ 64 - 1) in *. change (snd b0) with 0 in *.
  split; [|split; [|split]].
  - destruct L as [L|L]; [lia|]. apply U in L. lia.
  - destruct H as [H|H]; [lia|]. apply U in H. lia.
  - intros f Hf. apply U, Hf.
  - intros (f & Hf). apply U in Hf. split; [destruct L as [L|L]; [lia|exact L]|destruct H as [H|H]; [lia|exact H]].
Qed.

Lemma build_total ps rs ss (s : seqT) : exists s', build ps rs ss s = Some s'
  /\ frame_begin s' = fst (all_bounds ps rs ss) /\ frame_end s' = snd (all_bounds ps rs ss).
Proof.
  unfold build_keys. destruct (_ <? _); [|eexists; split; [reflexivity|auto]].
  destruct (build_track_safe ipv (pos_keys s) (kf_sort ps) (snd (all_bounds ps rs ss) - fst (all_bounds ps rs ss)) v0) as (a & -> & _).
  destruct (build_track_safe ipq (rot_keys s) (kf_sort rs) (snd (all_bounds ps rs ss) - fst (all_bounds ps rs ss)) q1) as (b & -> & _).
  destruct (build_track_safe ipv (scl_keys s) (kf_sort ss) (snd (all_bounds ps rs ss) - fst (all_bounds ps rs ss)) v1) as (c & -> & _).
  eexists; split; [reflexivity|auto].
Qed.

(** Frame range and key counts. *)
Definition lengths_ok (s : seqT) : Prop :=
  0 <= frame_begin s < 2 ^ 64 /\ 0 <= frame_end s < 2 ^ 64 /\
  (frame_begin s < frame_end s ->
   Z.of_nat (length (pos_keys s)) = frame_end s - frame_begin s /\
   Z.of_nat (length (rot_keys s)) = frame_end s - frame_begin s /\
   Z.of_nat (length (scl_keys s)) = frame_end s - frame_begin s).

Lemma bounds_range {A} (b : Z * Z) (l : list (keyframe A)) :
  0 <= fst b < 2 ^ 64 -> 0 <= snd b < 2 ^ 64 -> (forall k, In k l -> 0 <= kf_frame k) ->
  0 <= fst (get_frame_bounds b (kf_sort l)) < 2 ^ 64 /\ 0 <= snd (get_frame_bounds b (kf_sort l)) < 2 ^ 64.
Proof.
  intros H1 H2 H3. unfold get_frame_bounds. pose proof (kf_sort_in l) as Hin. destruct (kf_sort l) as [|k s]; [auto|].
  cbn [fst snd]. pose proof (H3 k (proj1 (Hin k) (or_introl eq_refl))).
  pose proof (Z.mod_pos_bound (kf_frame (last (k :: s) k) + 1) (2 ^ 64) ltac:(lia)). unfold size_wrap. lia.
Qed.

Definition nonneg {A} (l : list (keyframe A)) := forall k, In k l -> 0 <= kf_frame k.

Lemma build_lengths ps rs ss (s s' : seqT) : nonneg ps -> nonneg rs -> nonneg ss ->
  build ps rs ss s = Some s' -> lengths_ok s'.
Proof.
  intros Hp Hr Hs. unfold build_keys.
  assert (HB : 0 <= fst (all_bounds ps rs ss) < 2 ^ 64 /\ 0 <= snd (all_bounds ps rs ss) < 2 ^ 64).
  { unfold all_bounds.
    destruct (bounds_range (2 ^ 64 - 1, 0) ps) as [A1 A2]; [cbn; lia|cbn; lia|exact Hp|].
    destruct (bounds_range _ rs A1 A2 Hr) as [A3 A4]. apply (bounds_range _ ss A3 A4 Hs). }
  destruct (all_bounds ps rs ss) as [b e]; cbn [fst snd] in *.
  destruct (Z.ltb_spec b e) as [L|L].
  - destruct (build_track_safe ipv (pos_keys s) (kf_sort ps) (e - b) v0) as (x & -> & L1).
    destruct (build_track_safe ipq (rot_keys s) (kf_sort rs) (e - b) q1) as (y & -> & L2).
    destruct (build_track_safe ipv (scl_keys s) (kf_sort ss) (e - b) v1) as (z & -> & L3).
    intros [= <-]. unfold lengths_ok; cbn [frame_begin frame_end pos_keys rot_keys scl_keys]. repeat split; lia.
  - intros [= <-]. unfold lengths_ok; cbn [frame_begin frame_end]. repeat split; lia.
Qed.

(** Values of the built tracks: index [i] of the key array holds the track's value at frame [i]. *)
Lemma build_values ps rs ss (s s' : seqT) :
  valid_frames ps -> valid_frames rs -> valid_frames ss ->
  distinct_frames ps -> distinct_frames rs -> distinct_frames ss ->
  build ps rs ss s = Some s' ->
  (ps <> [] -> forall i v, nth_error (pos_keys s') i = Some v -> track_value ipv ps (Z.of_nat i) v) /\
  (rs <> [] -> forall i v, nth_error (rot_keys s') i = Some v -> track_value ipq rs (Z.of_nat i) v) /\
  (ss <> [] -> forall i v, nth_error (scl_keys s') i = Some v -> track_value ipv ss (Z.of_nat i) v).
Proof.
  intros Vp Vr Vs Dp Dr Ds. pose proof (all_bounds_ok ps rs ss Vp Vr Vs) as B. cbn zeta in B. unfold build_keys.
  destruct (all_bounds ps rs ss) as [b e]; cbn [fst snd] in *. destruct B as (B1 & B2 & B3 & B4).
  assert (NE : (ps <> [] \/ rs <> [] \/ ss <> []) -> b < e).
  { intros H. assert (exists f, used ps rs ss f) as (f & Hf).
    { destruct H as [H|[H|H]]; [destruct ps as [|k l]|destruct rs as [|k l]|destruct ss as [|k l]]; try congruence;
        exists (kf_frame k); [left|right; left|right; right]; left; reflexivity. }
    apply B3 in Hf. lia. }
  destruct (Z.ltb_spec b e) as [L|L].
  - destruct (build_track_safe ipv (pos_keys s) (kf_sort ps) (e - b) v0) as (x & Ex & L1).
    destruct (build_track_safe ipq (rot_keys s) (kf_sort rs) (e - b) q1) as (y & Ey & L2).
    destruct (build_track_safe ipv (scl_keys s) (kf_sort ss) (e - b) v1) as (z & Ez & L3).
    rewrite Ex, Ey, Ez. intros [= <-]. cbn [pos_keys rot_keys scl_keys]. repeat split; intros Hne.
    + destruct (build_track_ok ipv (pos_keys s) ps (e - b) v0 Hne Dp Vp ltac:(lia)) as (vs & E & _ & H). replace x with vs by congruence. exact H.
    + destruct (build_track_ok ipq (rot_keys s) rs (e - b) q1 Hne Dr Vr ltac:(lia)) as (vs & E & _ & H). replace y with vs by congruence. exact H.
    + destruct (build_track_ok ipv (scl_keys s) ss (e - b) v1 Hne Ds Vs ltac:(lia)) as (vs & E & _ & H). replace z with vs by congruence. exact H.
  - intros _. repeat split; intros Hne; exfalso; (assert (b < e) by (apply NE; tauto)); lia.
Qed.

Lemma build_order ps rs ss ps' rs' ss' (s : seqT) :
  distinct_frames ps -> distinct_frames rs -> distinct_frames ss ->
  Permutation ps ps' -> Permutation rs rs' -> Permutation ss ss' ->
  build ps rs ss s = build ps' rs' ss' s.
Proof.
  intros Dp Dr Ds Pp Pr Ps.
  assert (G : forall A (l m : list (keyframe A)), distinct_frames l -> Permutation l m -> kf_sort l = kf_sort m).
  { intros A l m D P. assert (D' : distinct_frames m) by (unfold distinct_frames in *; eapply Permutation_NoDup; [apply Permutation_map, P|exact D]).
    apply strict_sorted_unique; [apply kf_sort_strict, D|apply kf_sort_strict, D'|].
    rewrite <- !kf_sort_perm. exact P. }
  unfold build_keys, all_bounds. rewrite (G _ ps ps' Dp Pp), (G _ rs rs' Dr Pr), (G _ ss ss' Ds Ps). reflexivity.
Qed.

Lemma build_independent ps rs ss (s t : seqT) : ps <> [] -> rs <> [] -> ss <> [] -> valid_frames ps -> valid_frames rs -> valid_frames ss ->
  build ps rs ss s = build ps rs ss t.
Proof.
  intros Np Nr Ns Vp Vr Vs. pose proof (all_bounds_ok ps rs ss Vp Vr Vs) as B. cbn zeta in B. unfold build_keys.
  destruct (all_bounds ps rs ss) as [b e]; cbn [fst snd] in *. destruct B as (B1 & B2 & B3 & B4).
  destruct (Z.ltb_spec b e) as [L|L].
  - assert (G : forall A (i : interp A) l o o' n v, l <> [] -> build_track i o (kf_sort l) n v = build_track i o' (kf_sort l) n v).
    { intros A i l o o' n v Hne. unfold build_track. destruct (kf_sort l) eqn:E; [|reflexivity].
      exfalso. apply Hne. apply Permutation_nil. rewrite <- E. symmetry. apply kf_sort_perm. }
    rewrite (G _ ipv ps _ (pos_keys t)), (G _ ipq rs _ (rot_keys t)), (G _ ipv ss _ (scl_keys t)) by assumption. reflexivity.
  - exfalso. destruct ps as [|k l]; [congruence|]. specialize (B3 (kf_frame k) (or_introl (or_introl eq_refl))). lia.
Qed.

Lemma build_after_clear ps rs ss (s : seqT) : build ps rs ss (clear_keys s) = build ps rs ss kseq_init.
Proof. reflexivity. Qed.

(** Sampling *)
Definition nearest (s : seqT) (f : Z) : Z := Z.max (frame_begin s) (Z.min f (frame_end s - 1)).

Lemma clamp_nearest (s : seqT) f : 0 <= frame_begin s -> frame_begin s < frame_end s -> frame_end s < 2 ^ 64 ->
  clamp_frame s f = nearest s f.
Proof.
  intros H0 H1 H2. unfold clamp_frame, nearest.
  destruct (Z.ltb_spec f (frame_begin s)); [destruct (Z.leb_spec (frame_end s) (frame_begin s))|destruct (Z.leb_spec (frame_end s) f)];
    rewrite ?size_wrap_small by lia; lia.
Qed.

Lemma vec_at_ok {B} (l : list B) i : 0 <= i < Z.of_nat (length l) -> exists x, vec_at l i = Some x /\ nth_error l (Z.to_nat i) = Some x.
Proof.
  intros H. unfold vec_at. destruct (Z.ltb_spec i 0); [lia|].
  destruct (nth_error l (Z.to_nat i)) eqn:E; [eauto|]. apply nth_error_None in E. lia.
Qed.

Lemma interpolate_ok (s : seqT) from to t : lengths_ok s -> frame_begin s < frame_end s ->
  exists p1 r1 s1 p2 r2 s2,
    nth_error (pos_keys s) (Z.to_nat (nearest s from - frame_begin s)) = Some p1 /\
    nth_error (rot_keys s) (Z.to_nat (nearest s from - frame_begin s)) = Some r1 /\
    nth_error (scl_keys s) (Z.to_nat (nearest s from - frame_begin s)) = Some s1 /\
    nth_error (pos_keys s) (Z.to_nat (nearest s to - frame_begin s)) = Some p2 /\
    nth_error (rot_keys s) (Z.to_nat (nearest s to - frame_begin s)) = Some r2 /\
    nth_error (scl_keys s) (Z.to_nat (nearest s to - frame_begin s)) = Some s2 /\
    interpolate ipv ipq s from to t = Sampled (ip_lerp ipv p1 p2 t) (ip_lerp ipq r1 r2 t) (ip_lerp ipv s1 s2 t).
Proof.
  intros (H1 & H2 & H3) L. destruct (H3 L) as (L1 & L2 & L3). unfold interpolate.
  replace (frame_begin s <? frame_end s) with true by (symmetry; apply Z.ltb_lt, L).
  rewrite !clamp_nearest by lia.
  assert (N : forall f, 0 <= nearest s f - frame_begin s < frame_end s - frame_begin s) by (intros; unfold nearest; lia).
  rewrite !size_wrap_small by (pose proof (N from); pose proof (N to); lia). cbn zeta.
  pose proof (N from) as Nf. pose proof (N to) as Nt.
  destruct (vec_at_ok (pos_keys s) (nearest s from - frame_begin s) ltac:(lia)) as (p1 & E1 & F1).
  destruct (vec_at_ok (rot_keys s) (nearest s from - frame_begin s) ltac:(lia)) as (r1 & E2 & F2).
  destruct (vec_at_ok (scl_keys s) (nearest s from - frame_begin s) ltac:(lia)) as (c1 & E3 & F3).
  destruct (vec_at_ok (pos_keys s) (nearest s to - frame_begin s) ltac:(lia)) as (p2 & E4 & F4).
  destruct (vec_at_ok (rot_keys s) (nearest s to - frame_begin s) ltac:(lia)) as (r2 & E5 & F5).
  destruct (vec_at_ok (scl_keys s) (nearest s to - frame_begin s) ltac:(lia)) as (c2 & E6 & F6).
  rewrite E1, E2, E3, E4, E5, E6. exists p1, r1, c1, p2, r2, c2. repeat split; assumption.
Qed.

(** Histories without ClearKeys. *)
Definition builds_only (o : @kop V Q) : Prop :=
  match o with KBuild ps rs ss => nonneg ps /\ nonneg rs /\ nonneg ss | KClear => False end.

Lemma krun_lengths os : forall s : seqT, lengths_ok s -> Forall builds_only os ->
  exists s', krun ipv ipq v0 v1 q1 s os = Some s' /\ lengths_ok s'.
Proof.
  induction os as [|o os IH]; intros s Hs Ho; [exists s; auto|].
  inversion_clear Ho as [|? ? H1 H2]. unfold krun. cbn [fold_left kstep].
  destruct o as [ps rs ss|]; [|destruct H1]. destruct H1 as (Np & Nr & Ns).
  destruct (build_total ps rs ss s) as (s1 & E & _). rewrite E.
  apply IH; [|exact H2]. eapply build_lengths; [| | |exact E]; assumption.
Qed.
End Seq.
