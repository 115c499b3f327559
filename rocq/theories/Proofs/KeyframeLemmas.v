From Coq Require Import ZArith Reals List Bool Lia Lra Permutation Sorted.
From Verif Require Import Model.Keyframe Spec.KeyframeSpec.
Import ListNotations.
Open Scope Z_scope.

Lemma size_wrap_small z : 0 <= z < 2 ^ 64 -> size_wrap z = z.
Proof. intros; apply Z.mod_small; assumption. Qed.

Section Track.
Context {A : Type}.
Variable ip : interp A.
Notation kf := (keyframe A).

(** *** Sorting *)
Lemma kf_insert_perm (k : kf) l : Permutation (k :: l) (kf_insert k l).
Proof.
  induction l as [|x l IH]; cbn [kf_insert]; [reflexivity|].
  destruct (kf_frame x <? kf_frame k); [|reflexivity]. rewrite perm_swap. apply perm_skip, IH.
Qed.
Lemma kf_sort_perm (l : list kf) : Permutation l (kf_sort l).
Proof. induction l as [|x l IH]; cbn [kf_sort]; [reflexivity|]. rewrite <- kf_insert_perm. apply perm_skip, IH. Qed.

Definition kle (a b : kf) : Prop := kf_frame a <= kf_frame b.
Definition klt (a b : kf) : Prop := kf_frame a < kf_frame b.

Lemma kf_insert_sorted (k : kf) l : StronglySorted kle l -> StronglySorted kle (kf_insert k l).
Proof.
  induction l as [|x l IH]; intros H; cbn [kf_insert]; [repeat constructor|].
  inversion_clear H as [|? ? H1 H2]. destruct (Z.ltb_spec (kf_frame x) (kf_frame k)) as [L|L].
  - constructor; [apply IH, H1|]. rewrite <- kf_insert_perm. constructor; [unfold kle; lia|exact H2].
  - constructor; [constructor; assumption|]. constructor; [exact L|].
    eapply Forall_impl; [|exact H2]. unfold kle; intros; lia.
Qed.
Lemma kf_sort_sorted (l : list kf) : StronglySorted kle (kf_sort l).
Proof. induction l as [|x l IH]; cbn [kf_sort]; [constructor|apply kf_insert_sorted, IH]. Qed.

Lemma kf_sort_in (l : list kf) k : In k (kf_sort l) <-> In k l.
Proof. split; apply Permutation_in; [symmetry|]; apply kf_sort_perm. Qed.

Lemma kf_sort_strict (l : list kf) : distinct_frames l -> StronglySorted klt (kf_sort l).
Proof.
  intros H. unfold distinct_frames in H.
  assert (Hn : NoDup (map kf_frame (kf_sort l))) by (eapply Permutation_NoDup; [apply Permutation_map, kf_sort_perm|exact H]).
  pose proof (kf_sort_sorted l) as Hs0. revert Hn Hs0. induction (kf_sort l) as [|x s IH]; intros Hn Hs; [constructor|].
  inversion_clear Hs as [|? ? H1 H2]. inversion_clear Hn as [|? ? N1 N2]. constructor; [apply IH; assumption|].
  rewrite Forall_forall in *. intros y Hy. specialize (H2 y Hy). unfold kle, klt in *.
  assert (kf_frame x <> kf_frame y); [|lia]. intros E. apply N1. rewrite E. apply in_map, Hy.
Qed.

(** Strictly sorted permutations are equal, so the result of std::sort is determined. *)
Lemma strict_sorted_unique (l m : list kf) : StronglySorted klt l -> StronglySorted klt m -> Permutation l m -> l = m.
Proof.
  revert m; induction l as [|x l IH]; intros m Hl Hm P.
  - apply Permutation_nil in P. subst; reflexivity.
  - destruct m as [|y m]; [symmetry in P; apply Permutation_nil in P; discriminate|].
    inversion_clear Hl as [|? ? L1 L2]. inversion_clear Hm as [|? ? M1 M2].
    rewrite Forall_forall in *. unfold klt in *.
    assert (E : x = y).
    { assert (Hx : In x (y :: m)) by (eapply Permutation_in; [exact P|left; reflexivity]).
      assert (Hy : In y (x :: l)) by (eapply Permutation_in; [symmetry; exact P|left; reflexivity]).
      destruct Hx as [Hx|Hx]; [auto|]. destruct Hy as [Hy|Hy]; [auto|].
      specialize (L2 _ Hy). specialize (M2 _ Hx). lia. }
    subst y. f_equal. apply IH; auto. eapply Permutation_cons_inv; exact P.
Qed.

Lemma sorted_nth (l : list kf) i j a b : StronglySorted klt l -> nth_error l i = Some a -> nth_error l j = Some b ->
  (i < j)%nat -> kf_frame a < kf_frame b.
Proof.
  revert i j; induction l as [|x l IH]; intros i j Hs Hi Hj Hij; [destruct i; discriminate|].
  inversion_clear Hs as [|? ? H1 H2]. destruct j as [|j]; [lia|]. destruct i as [|i]; cbn in Hi, Hj.
  - injection Hi as <-. rewrite Forall_forall in H2. apply H2. eapply nth_error_In; exact Hj.
  - eapply IH; eauto. lia.
Qed.

Lemma sorted_in_cases (l : list kf) i k : In k l ->
  exists j, nth_error l j = Some k /\ ((j <= i)%nat \/ (i < j)%nat).
Proof. intros H. apply In_nth_error in H. destruct H as [j Hj]. exists j; split; [exact Hj|lia]. Qed.

(** *** The loop *)
Definition cursor (kfs : list kf) (fr : Z) (from to : nat) : Prop :=
  (exists k, nth_error kfs from = Some k /\
    ((to = from /\ from = O /\ fr <= kf_frame k) \/
     (to = S from /\ kf_frame k < fr))) /\
  (forall k, nth_error kfs to = Some k -> fr <= kf_frame k).

Lemma sorted_le_nth l i j a b : StronglySorted klt l -> nth_error l i = Some a -> nth_error l j = Some b ->
  (i <= j)%nat -> kf_frame a <= kf_frame b.
Proof.
  intros Hs Hi Hj Hij. destruct (Nat.eq_dec i j) as [->|]; [assert (a = b) by congruence; subst; lia|].
  assert (kf_frame a < kf_frame b) by (eapply sorted_nth; eauto; lia). lia.
Qed.

Lemma track_step_ok (kfs : list kf) fr from to :
  StronglySorted klt kfs -> (forall k, In k kfs -> 0 <= kf_frame k < 2 ^ 64 - 1) -> 0 <= fr < 2 ^ 64 - 1 ->
  cursor kfs fr from to ->
  exists v from' to', track_step ip kfs fr from to = Some (v, from', to') /\ track_value ip kfs fr v
    /\ cursor kfs (fr + 1) from' to'.
Proof.
  intros Hs Hv Hfr [(kf0 & Hf & Hft) Hto]. unfold track_step.
  assert (Hin : forall i k, nth_error kfs i = Some k -> In k kfs) by (intros; eapply nth_error_In; eauto).
  set (adv := match nth_error kfs to with Some kt => fr =? kf_frame kt | None => false end).
  destruct adv eqn:Eadv; subst adv.
  - (* arrived at keyframe [to] *)
    destruct (nth_error kfs to) as [kt|] eqn:Et; [|discriminate]. apply Z.eqb_eq in Eadv.
    exists (kf_key kt), to, (S to).
    assert (Hnext : cursor kfs (fr + 1) to (S to)).
    { split.
      - exists kt. split; [exact Et|]. right. split; [reflexivity|lia].
      - intros k Hk. pose proof (sorted_nth kfs to (S to) kt k Hs Et Hk ltac:(lia)). lia. }
    split; [|split; [|exact Hnext]].
    + destruct (nth_error kfs (S to)); [|reflexivity].
      replace (fr =? kf_frame kt) with true by (symmetry; apply Z.eqb_eq; lia). reflexivity.
    + apply tv_at; [eapply Hin; eauto|lia].
  - rewrite Hf. destruct Hft as [(-> & -> & Hle)|(-> & Hlt)].
    + (* before the first keyframe *)
      rewrite Hf in *. apply Z.eqb_neq in Eadv.
      exists (kf_key kf0), O, O. split; [|split].
      * replace (0 =? 0)%nat with true by reflexivity. rewrite orb_true_r. reflexivity.
      * apply tv_before; [eapply Hin; eauto|lia|].
        intros k Hk. destruct (In_nth_error _ _ Hk) as [j Hj].
        eapply (sorted_le_nth kfs 0 j); eauto. lia.
      * split.
        -- exists kf0. split; [exact Hf|]. left. repeat split; lia.
        -- intros k Hk. replace k with kf0 by congruence. lia.
    + destruct (nth_error kfs (S from)) as [kt|] eqn:Et.
      * apply Z.eqb_neq in Eadv. specialize (Hto kt eq_refl).
        replace (fr =? kf_frame kf0) with false by (symmetry; apply Z.eqb_neq; lia).
        replace (from =? S from)%nat with false by (symmetry; apply Nat.eqb_neq; lia). cbn [orb].
        pose proof (Hv kf0 (Hin _ _ Hf)). pose proof (Hv kt (Hin _ _ Et)).
        exists (interpolate_keys ip kf0 kt fr), from, (S from). split; [reflexivity|]. split.
        -- unfold interpolate_keys. rewrite !size_wrap_small by lia. cbn zeta.
           replace (kf_frame kt - kf_frame kf0 =? 0) with false by (symmetry; apply Z.eqb_neq; lia).
           apply tv_between; [eapply Hin; eauto|eapply Hin; eauto|lia|].
           intros k Hk. destruct (In_nth_error _ _ Hk) as [j Hj].
           destruct (Nat.le_gt_cases j from); [left; eapply (sorted_le_nth kfs j from)|right; eapply (sorted_le_nth kfs (S from) j)]; eauto.
        -- split; [exists kf0; split; [exact Hf|]; right; split; [reflexivity|lia]|].
           intros k Hk. replace k with kt by congruence. lia.
      * exists (kf_key kf0), from, (S from). split; [reflexivity|]. split.
        -- apply tv_after; [eapply Hin; eauto|lia|].
           intros k Hk. destruct (In_nth_error _ _ Hk) as [j Hj].
           assert (j < S from)%nat.
           { apply nth_error_None in Et. assert (j < length kfs)%nat by (apply nth_error_Some; congruence). lia. }
           eapply (sorted_le_nth kfs j from); eauto. lia.
        -- split; [exists kf0; split; [exact Hf|]; right; split; [reflexivity|lia]|].
           intros k Hk. congruence.
Qed.

Lemma track_loop_ok (kfs : list kf) : StronglySorted klt kfs -> (forall k, In k kfs -> 0 <= kf_frame k < 2 ^ 64 - 1) ->
  forall n fr from to, 0 <= fr -> fr + Z.of_nat n <= 2 ^ 64 - 1 -> cursor kfs fr from to ->
  exists vs, track_loop ip kfs n fr from to = Some vs /\ length vs = n /\
    forall i v, nth_error vs i = Some v -> track_value ip kfs (fr + Z.of_nat i) v.
Proof.
  intros Hs Hv. induction n as [|n IH]; intros fr from to H0 Hn Hc; cbn [track_loop].
  - exists []. split; [reflexivity|]. split; [reflexivity|]. intros [|i]; discriminate.
  - destruct (track_step_ok kfs fr from to Hs Hv ltac:(lia) Hc) as (v & f' & t' & E & Hval & Hc').
    rewrite E. destruct (IH (fr + 1) f' t' ltac:(lia) ltac:(lia) Hc') as (vs & E' & Hl & Hvs).
    rewrite E'. exists (v :: vs). split; [reflexivity|]. split; [cbn; lia|].
    intros [|i] w Hw; cbn in Hw.
    + injection Hw as <-. rewrite Z.add_0_r. exact Hval.
    + replace (fr + Z.of_nat (S i)) with (fr + 1 + Z.of_nat i) by lia. apply Hvs, Hw.
Qed.

Lemma cursor_start (kfs : list kf) : kfs <> [] -> StronglySorted klt kfs -> (forall k, In k kfs -> 0 <= kf_frame k) ->
  cursor kfs 0 0 0.
Proof.
  intros Hne Hs Hv. destruct kfs as [|k kfs]; [congruence|]. split.
  - exists k. split; [reflexivity|]. left. pose proof (Hv k (or_introl eq_refl)). auto.
  - intros k' [= <-]. apply Hv. left; reflexivity.
Qed.

Lemma track_value_perm (l m : list kf) f v : (forall k, In k l <-> In k m) -> track_value ip l f v -> track_value ip m f v.
Proof.
  intros H [k Hk E|k1 k2 H1 H2 H3 H4|k1 H1 H2 H3|k2 H1 H2 H3].
  - apply tv_at; [apply H, Hk|exact E].
  - apply tv_between; [apply H, H1|apply H, H2|exact H3|]. intros k Hk. apply H4, H, Hk.
  - apply tv_before; [apply H, H1|exact H2|]. intros k Hk. apply H3, H, Hk.
  - apply tv_after; [apply H, H1|exact H2|]. intros k Hk. apply H3, H, Hk.
Qed.

(** The value of a track is determined if frames are distinct. *)
Lemma track_value_unique (l : list kf) f v w : distinct_frames l ->
  track_value ip l f v -> track_value ip l f w -> v = w.
Proof.
  intros Hd.
  assert (U : forall k k', In k l -> In k' l -> kf_frame k = kf_frame k' -> k = k').
  { intros k k' Hk Hk' E. unfold distinct_frames in Hd. revert Hd Hk Hk'.
    induction l as [|x l' IH]; cbn; [tauto|]. intros Hd. inversion_clear Hd as [|? ? N1 N2].
    intros [->|Hk] [->|Hk']; auto.
    - exfalso. apply N1. rewrite E. apply in_map, Hk'.
    - exfalso. apply N1. rewrite <- E. apply in_map, Hk. }
  intros V W.
  destruct V as [k Hk E|k1 k2 H1 H2 H3 H4|k1 H1 H2 H3|k2 H1 H2 H3];
  destruct W as [k' Hk' E'|k1' k2' H1' H2' H3' H4'|k1' H1' H2' H3'|k2' H1' H2' H3'].
  - f_equal. apply U; auto; lia.
  - exfalso. destruct (H4' k Hk); lia.
  - exfalso. specialize (H3' k Hk). lia.
  - exfalso. specialize (H3' k Hk). lia.
  - exfalso. destruct (H4 k' Hk'); lia.
  - assert (k1 = k1') as -> by (apply U; auto; destruct (H4 k1' H1'), (H4' k1 H1); lia).
    assert (k2 = k2') as -> by (apply U; auto; destruct (H4 k2' H2'), (H4' k2 H2); lia). reflexivity.
  - exfalso. specialize (H3' k1 H1). lia.
  - exfalso. specialize (H3' k2 H2). lia.
  - exfalso. specialize (H3 k' Hk'). lia.
  - exfalso. specialize (H3 k1' H1'). lia.
  - f_equal. apply U; auto. specialize (H3 k1' H1'). specialize (H3' k1 H1). lia.
  - exfalso. specialize (H3 k2' H1'). lia.
  - exfalso. specialize (H3 k' Hk'). lia.
  - exfalso. specialize (H3 k2' H2'). lia.
  - exfalso. specialize (H3 k1' H1'). lia.
  - f_equal. apply U; auto. specialize (H3 k2' H1'). specialize (H3' k2 H1). lia.
Qed.

Lemma build_track_ok (old : list A) (kfs : list kf) n init :
  kfs <> [] -> distinct_frames kfs -> valid_frames kfs -> 0 <= n <= 2 ^ 64 - 1 ->
  exists vs, build_track ip old (kf_sort kfs) n init = Some vs /\ Z.of_nat (length vs) = n /\
    forall i v, nth_error vs i = Some v -> track_value ip kfs (Z.of_nat i) v.
Proof.
  intros Hne Hd Hv Hn.
  assert (Hs := kf_sort_strict kfs Hd).
  assert (Hv' : forall k, In k (kf_sort kfs) -> 0 <= kf_frame k < 2 ^ 64 - 1) by (intros k Hk; apply Hv, kf_sort_in, Hk).
  assert (Hne' : kf_sort kfs <> []).
  { intros E. apply Hne. apply Permutation_nil. rewrite <- E. symmetry. apply kf_sort_perm. }
  unfold build_track. destruct (kf_sort kfs) as [|k0 l0] eqn:E; [congruence|]. rewrite <- E in *.
  destruct (track_loop_ok (kf_sort kfs) Hs Hv' (Z.to_nat n) 0 0 0) as (vs & E1 & Hl & Hvs); try lia.
  { apply cursor_start; auto. intros k Hk. specialize (Hv' k Hk). lia. }
  exists vs. split; [exact E1|]. split; [lia|]. intros i v Hi.
  eapply track_value_perm; [intros k; apply kf_sort_in|]. apply (Hvs i v Hi).
Qed.

(** Without any assumption on the keyframes: the loop never dereferences the end iterator and writes all keys. *)
Lemma track_step_safe (kfs : list kf) fr from to : (from < length kfs)%nat -> 
  exists v from' to', track_step ip kfs fr from to = Some (v, from', to') /\ (from' < length kfs)%nat.
Proof.
  intros Hf. unfold track_step.
  assert (Hto : forall t k, nth_error kfs t = Some k -> (t < length kfs)%nat) by (intros t k H; apply nth_error_Some; congruence).
  set (adv := match nth_error kfs to with Some kt => fr =? kf_frame kt | None => false end).
  assert (Hf' : ((if adv then to else from) < length kfs)%nat).
  { destruct adv eqn:E; [|exact Hf]. subst adv. destruct (nth_error kfs to) eqn:E'; [eapply Hto; eauto|discriminate]. }
  destruct (nth_error kfs (if adv then to else from)) as [k|] eqn:E; [|apply nth_error_None in E; lia].
  destruct (nth_error kfs (if adv then S to else to)); [destruct (_ || _)|]; do 3 eexists; split; eauto.
Qed.
Lemma track_loop_safe (kfs : list kf) n : forall fr from to, (from < length kfs)%nat ->
  exists vs, track_loop ip kfs n fr from to = Some vs /\ length vs = n.
Proof.
  induction n as [|n IH]; intros fr from to Hf; cbn [track_loop]; [exists []; auto|].
  destruct (track_step_safe kfs fr from to Hf) as (v & f' & t' & E & Hf'). rewrite E.
  destruct (IH (fr + 1) f' t' Hf') as (vs & E' & Hl). rewrite E'. exists (v :: vs). cbn; auto.
Qed.
Lemma vec_resize_length (l : list A) n v : length (vec_resize l n v) = n.
Proof. unfold vec_resize. rewrite app_length, firstn_length, repeat_length. lia. Qed.
Lemma build_track_safe (old : list A) (kfs : list kf) n init :
  exists vs, build_track ip old kfs n init = Some vs /\ length vs = Z.to_nat n.
Proof.
  unfold build_track. destruct kfs as [|k l]; [eexists; split; [reflexivity|apply vec_resize_length]|].
  apply track_loop_safe. cbn; lia.
Qed.

(** *** Bounds *)
Lemma sorted_last (k : kf) l : StronglySorted kle (k :: l) -> forall x, In x (k :: l) -> kf_frame x <= kf_frame (last (k :: l) k).
Proof.
  revert k; induction l as [|y l IH]; intros k Hs x Hx.
  - destruct Hx as [->|[]]; cbn; lia.
  - inversion_clear Hs as [|? ? H1 H2].
    assert (E : last (k :: y :: l) k = last (y :: l) y).
    { cbn [last]. clear. revert y; induction l as [|z l IH]; intros y; [reflexivity|]. cbn [last]. cbn [last] in IH.
      destruct l; [reflexivity|]. apply IH. }
    rewrite E. destruct Hx as [->|Hx]; [|apply IH; assumption].
    rewrite Forall_forall in H2. specialize (H2 y (or_introl eq_refl)). specialize (IH y H1 y (or_introl eq_refl)).
    unfold kle in *. lia.
Qed.
Lemma last_in (k : kf) l : In (last (k :: l) k) (k :: l).
Proof.
  assert (G : forall m x d, In (@last kf (x :: m) d) (x :: m)).
  { induction m as [|y m IH]; intros x d; [left; reflexivity|]. right. exact (IH y d). }
  apply G.
Qed.

Lemma bounds_ok (b : Z * Z) (l : list kf) : valid_frames l ->
  let b' := get_frame_bounds b (kf_sort l) in
  fst b' <= fst b /\ snd b <= snd b' /\
  (forall k, In k l -> fst b' <= kf_frame k < snd b') /\
  (fst b' = fst b \/ exists k, In k l /\ kf_frame k = fst b') /\
  (snd b' = snd b \/ exists k, In k l /\ kf_frame k + 1 = snd b').
Proof.
  intros Hv. cbn zeta. unfold get_frame_bounds. pose proof (kf_sort_sorted l) as Hs.
  pose proof (kf_sort_in l) as Hin.
  destruct (kf_sort l) as [|k s] eqn:E.
  - repeat split; try lia; try (left; reflexivity).
    all: exfalso; apply (proj2 (Hin k)); assumption.
  - assert (Hlast := last_in k s). assert (Hl' := proj1 (Hin _) Hlast). pose proof (Hv _ Hl') as Hvl.
    rewrite size_wrap_small by lia. cbn [fst snd].
    assert (Hk : In k l) by (apply Hin; left; reflexivity). pose proof (Hv _ Hk).
    repeat split; try lia.
    + assert (Hmin : kf_frame k <= kf_frame k0); [|lia].
      apply (proj2 (Hin k0)) in H0. destruct H0 as [->|H0]; [lia|].
      inversion_clear Hs as [|? ? H1 H2]. rewrite Forall_forall in H2. apply H2 in H0. exact H0.
    + apply (proj2 (Hin k0)) in H0. pose proof (sorted_last k s Hs k0 H0). lia.
    + destruct (Z.min_spec (fst b) (kf_frame k)) as [[_ ->]|[_ ->]]; [left; reflexivity|right; eauto].
    + destruct (Z.max_spec (snd b) (kf_frame (last (k :: s) k) + 1)) as [[_ ->]|[_ ->]]; [right; eauto|left; reflexivity].
Qed.
End Track.
