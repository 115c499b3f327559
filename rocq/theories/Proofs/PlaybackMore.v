From Coq Require Import ZArith Reals List Bool Lia Lra.
From Verif Require Import Model.Scalar Model.Playback Spec.PlaybackSpec Proofs.PlaybackLemmas.
Import ListNotations.
Open Scope Z_scope.

(** ** Interpolator and termination for every listener *)

Section InterpPreserved.
Variable S : scalar.
Lemma interp_set_state s (p : playback S) : pf (set_state S s p) = pf p.
Proof. destruct s; reflexivity. Qed.
Lemma interp_stop (p : playback S) : pf (stop S p) = pf p.
Proof. unfold stop; destruct (pst p); rewrite ?interp_set_state; reflexivity. Qed.
Lemma interp_pause b (p : playback S) : pf (pause S b p) = pf p.
Proof. unfold pause; destruct b, (pst p); rewrite ?interp_set_state; reflexivity. Qed.
Lemma interp_snf f : interpolator (set_next_frame S f) = interpolator f.
Proof. unfold set_next_frame; destruct (is_forward _ _); reflexivity. Qed.
Lemma interp_snft i f : interpolator (set_next_frame_to S i f) = interpolator f.
Proof. unfold set_next_frame_to; destruct (is_forward _ _); reflexivity. Qed.

Lemma interp_action a p : interpolator (pf (do_action S p a)) = interpolator (pf p).
Proof.
  destruct a; cbn [do_action]; rewrite ?interp_stop, ?interp_pause; try reflexivity;
    cbn [with_pf pf]; rewrite ?interp_snf, ?interp_snft; reflexivity.
Qed.
Lemma interp_actions l : forall p, interpolator (pf (fold_left (do_action S) l p)) = interpolator (pf p).
Proof. induction l as [|a l IH]; intros p; [reflexivity|]. cbn. rewrite IH. apply interp_action. Qed.

Lemma interp_post_next (p p' : playback S) :
  post_next_frame S p = Some p' -> interpolator (pf p') = interpolator (pf p).
Proof.
  unfold post_next_frame. cbn [plst post]. destruct (plst p).
  - intros [= <-]. destruct (has_end_reached _ _); [rewrite interp_stop|cbn [with_pf pf]; rewrite interp_snf]; reflexivity.
  - intros [= <-]. destruct (has_end_reached _ _); cbn [with_pf pf]; rewrite ?interp_snf, ?interp_snft; reflexivity.
  - intros [= <-]. destruct (has_end_reached _ _); cbn [with_pf pf]; rewrite ?interp_snf; reflexivity.
  - destruct (list_loop_next _ _ _) as [[it' [f|]]|]; intros [= <-]; try reflexivity.
    cbn [with_pf pf with_lst]. rewrite interp_snft. reflexivity.
  - intros [= <-]. rewrite interp_actions. reflexivity.
Qed.
End InterpPreserved.

(** The forward loop ends after as many iterations as the integer part of the interpolator. *)
Lemma forward_loop_ends : forall n p fuel, (interpolator (pf p) < INR n + 1)%R -> (n < fuel)%nat ->
  forward_loop RScalar fuel p = Undef \/
  exists p', forward_loop RScalar fuel p = Done p' /\ (interpolator (pf p') < 1)%R
             /\ (0 <= interpolator (pf p) -> 0 <= interpolator (pf p'))%R.
Proof.
  induction n as [|n IH]; intros p fuel Hn Hf; (destruct fuel as [|fuel]; [lia|]); cbn [forward_loop];
  change (sle RScalar (s1 RScalar) (interpolator (pf p))) with (Rleb 1 (interpolator (pf p))).
  - replace (Rleb 1 (interpolator (pf p))) with false by (symmetry; apply Rleb_false; cbn in Hn; lra).
    right; exists p. repeat split; auto. cbn in Hn; lra.
  - destruct (Rleb 1 (interpolator (pf p))) eqn:E.
    + apply Rleb_true in E. fold (advance p).
      destruct (post_next_frame RScalar (advance p)) as [q|] eqn:Eq; [|left; reflexivity].
      pose proof (interp_post_next _ _ _ Eq) as Ei. cbn [advance with_pf pf set_frame set_interp interpolator] in Ei.
      cbn [ssub RScalar s1] in Ei. rewrite S_INR in Hn.
      destruct (IH q fuel) as [H|(p' & H1 & H2 & H3)]; [rewrite Ei; lra|lia|left; exact H|right].
      exists p'. repeat split; auto. intros _. apply H3. rewrite Ei. lra.
    + apply Rleb_false in E. right; exists p. repeat split; auto.
Qed.

Lemma backward_loop_ends : forall n p fuel, (- INR n < interpolator (pf p))%R -> (n < fuel)%nat ->
  backward_loop RScalar fuel p = Undef \/
  exists p', backward_loop RScalar fuel p = Done p' /\ (0 < interpolator (pf p'))%R
             /\ (interpolator (pf p) <= 1 -> interpolator (pf p') <= 1)%R.
Proof.
  induction n as [|n IH]; intros p fuel Hn Hf; (destruct fuel as [|fuel]; [lia|]); cbn [backward_loop];
  change (sle RScalar (interpolator (pf p)) (s0 RScalar)) with (Rleb (interpolator (pf p)) 0).
  - replace (Rleb (interpolator (pf p)) 0) with false by (symmetry; apply Rleb_false; cbn in Hn; lra).
    right; exists p. repeat split; auto. cbn in Hn; lra.
  - destruct (Rleb (interpolator (pf p)) 0) eqn:E.
    + apply Rleb_true in E.
      match goal with |- context [post_next_frame RScalar ?q] => set (p1 := q) end.
      destruct (post_next_frame RScalar p1) as [q|] eqn:Eq; [|left; reflexivity].
      pose proof (interp_post_next _ _ _ Eq) as Ei. unfold p1 in Ei. cbn [with_pf pf set_next set_interp interpolator] in Ei.
      cbn [sadd RScalar s1] in Ei. rewrite S_INR in Hn.
      destruct (IH q fuel) as [H|(p' & H1 & H2 & H3)]; [rewrite Ei; lra|lia|left; exact H|right].
      exists p'. repeat split; auto. intros _. apply H3. rewrite Ei. lra.
    + apply Rleb_false in E. right; exists p. repeat split; auto.
Qed.

Lemma nat_above (x : R) : exists n : nat, (x < INR n)%R.
Proof.
  destruct (Rle_or_lt 0 x) as [H|H].
  - destruct (nat_floor x H) as [n Hn]. exists (Datatypes.S n). rewrite S_INR. lra.
  - exists 0%nat. cbn. lra.
Qed.

Lemma update_ends (p : pb) dt : exists N, forall fuel, (N <= fuel)%nat ->
  update RScalar fuel dt p = Undef \/
  exists p', update RScalar fuel dt p = Done p'.
Proof.
  unfold update. destruct (pst p); try (exists 0%nat; intros; right; eexists; reflexivity).
  destruct (sle _ _ _); [exists 0%nat; intros; right; eexists; reflexivity|].
  match goal with |- context [forward_loop _ _ ?q] => set (p1 := q) end. cbn zeta. fold p1.
  destruct (is_forward _ _).
  - destruct (nat_above (interpolator (pf p1))) as [n Hn]. exists (Datatypes.S n). intros fuel Hf.
    destruct (forward_loop_ends n p1 fuel) as [H|(q & H & _)]; [lra|lia|left; exact H|right; eauto].
  - destruct (nat_above (- interpolator (pf p1))) as [n Hn]. exists (Datatypes.S n). intros fuel Hf.
    destruct (backward_loop_ends n p1 fuel) as [H|(q & H & _)]; [lra|lia|left; exact H|right; eauto].
Qed.

Lemma update_interp_forward (p p' : pb) fuel dt : (0 <= speed (pf p))%R -> (0 <= interpolator (pf p) < 1)%R ->
  update RScalar fuel dt p = Done p' -> (0 <= interpolator (pf p') < 1)%R.
Proof.
  intros Hs Hi H. destruct (pst p) eqn:Hst.
  2,3: rewrite update_not_playing in H by (rewrite Hst; discriminate); injection H as <-; exact Hi.
  destruct (Rle_or_lt dt 0) as [Hd|Hd].
  - rewrite update_nonpos in H by (apply Rleb_true; exact Hd). injection H as <-; exact Hi.
  - rewrite update_forward in H by assumption.
    destruct (nat_above (interpolator (pf (add_time dt p)))) as [n Hn].
    destruct (forward_loop_ends n (add_time dt p) (Nat.max fuel (Datatypes.S n))) as [E|(q & E & E1 & E2)]; [lra|lia| |].
    + apply (forward_loop_mono _ _ (Nat.max fuel (Datatypes.S n))) in H; [|lia]. congruence.
    + apply (forward_loop_mono _ _ (Nat.max fuel (Datatypes.S n))) in H; [|lia].
      rewrite H in E. injection E as <-. split; [|exact E1]. apply E2.
      unfold add_time; pcbn. pose proof (Rmult_le_pos dt (speed (pf p)) ltac:(lra) Hs). lra.
Qed.

Lemma update_backward fuel d (p : pb) : pst p = Playing -> (0 < d)%R -> (speed (pf p) < 0)%R ->
  update RScalar fuel d p = backward_loop RScalar fuel (add_time d p).
Proof.
  intros Hst Hd Hs. unfold update. rewrite Hst.
  replace (sle RScalar d (s0 RScalar)) with false by (symmetry; apply Rleb_false; exact Hd).
  cbn zeta. rewrite is_forward_false by exact Hs. reflexivity.
Qed.

Lemma update_interp_backward (p p' : pb) fuel dt : (speed (pf p) < 0)%R -> (interpolator (pf p) <= 1)%R ->
  pst p = Playing -> (0 < dt)%R ->
  update RScalar fuel dt p = Done p' -> (0 < interpolator (pf p') <= 1)%R.
Proof.
  intros Hs Hi Hst Hd H.
  rewrite update_backward in H by assumption.
  destruct (nat_above (- interpolator (pf (add_time dt p)))) as [n Hn].
  destruct (backward_loop_ends n (add_time dt p) (Nat.max fuel (Datatypes.S n))) as [E|(q & E & E1 & E2)]; [lra|lia| |].
  - apply (backward_loop_mono _ _ (Nat.max fuel (Datatypes.S n))) in H; [|lia]. congruence.
  - apply (backward_loop_mono _ _ (Nat.max fuel (Datatypes.S n))) in H; [|lia].
    rewrite H in E. injection E as <-. split; [exact E1|]. apply E2.
    unfold add_time; pcbn. pose proof (Rmult_lt_0_compat dt (- speed (pf p)) Hd ltac:(lra)). lra.
Qed.

(** ** Splitting an update *)

Definition builtin (l : listener RScalar) : Prop := match l with LCustom _ => False | _ => True end.
Definition shift (x : R) (p : pb) : pb := with_pf RScalar (fun f => set_interp RScalar (interpolator f + x)%R f) p.

Lemma builtin_post_next (p p' : pb) : builtin (plst p) -> post_next_frame RScalar p = Some p' -> builtin (plst p').
Proof.
  unfold post_next_frame. cbn [plst post]. destruct (plst p) eqn:El; intros HB.
  - intros [= <-]. destruct (has_end_reached _ _); [|cbn; rewrite El; exact I].
    unfold stop, set_state; cbn. destruct (pst p); cbn; rewrite El; exact I.
  - intros [= <-]. destruct (has_end_reached _ _); cbn; rewrite El; exact I.
  - intros [= <-]. destruct (has_end_reached _ _); cbn; rewrite El; exact I.
  - destruct (list_loop_next _ _ _) as [[it' [f|]]|]; intros [= <-]; cbn; exact I.
  - destruct HB.
Qed.

Lemma stop_shift x p : stop RScalar (shift x p) = shift x (stop RScalar p).
Proof. unfold stop; cbn [shift with_pf pst]. destruct (pst p); reflexivity. Qed.

Lemma post_next_shift x p : builtin (plst p) ->
  post_next_frame RScalar (shift x p) = option_map (shift x) (post_next_frame RScalar p).
Proof.
  intros HB. destruct p as [[ff lf fr nf it sp] st l lg].
  destruct l; [| | | |destruct HB];
  cbv [post_next_frame option_map shift with_pf pf set_interp frame post plst plog pst firstFrame lastFrame nextFrame
       interpolator speed has_end_reached is_forward are_frames_chrono set_next_frame set_next_frame_to set_next set_frame
       set_first set_last with_lst];
  destruct (sle RScalar (s0 RScalar) sp); try (destruct (ff <=? lf));
  try (destruct (list_loop_next _ _ _) as [[it' [f|]]|]; reflexivity).
  all: repeat match goal with |- context [if ?c then _ else _] =>
         lazymatch c with context [if _ then _ else _] => fail | _ => destruct c end end; try reflexivity.
  all: unfold stop; cbn [pst]; destruct st; reflexivity.
Qed.

Lemma playback_interp_ext (p q : pb) : pst p = pst q -> plst p = plst q -> plog p = plog q ->
  firstFrame (pf p) = firstFrame (pf q) -> lastFrame (pf p) = lastFrame (pf q) -> frame (pf p) = frame (pf q) ->
  nextFrame (pf p) = nextFrame (pf q) -> interpolator (pf p) = interpolator (pf q) -> speed (pf p) = speed (pf q) -> p = q.
Proof. destruct p as [[? ? ? ? ? ?] ? ? ?], q as [[? ? ? ? ? ?] ? ? ?]; cbn; intros; subst; reflexivity. Qed.

Lemma advance_shift x p : advance (shift x p) = shift x (advance p).
Proof. apply playback_interp_ext; try reflexivity. cbn. lra. Qed.

Lemma shift_shift x y p : shift x (shift y p) = shift (y + x) p.
Proof. apply playback_interp_ext; try reflexivity. cbn. lra. Qed.

Fixpoint iter_next (n : nat) (p : pb) : option pb :=
  match n with
  | O => Some p
  | Datatypes.S m => match post_next_frame RScalar (advance p) with Some q => iter_next m q | None => None end
  end.

Lemma iter_next_shift n : forall x p, builtin (plst p) -> iter_next n (shift x p) = option_map (shift x) (iter_next n p).
Proof.
  induction n as [|n IH]; intros x p HB; cbn [iter_next]; [reflexivity|].
  rewrite advance_shift, post_next_shift by exact HB.
  destruct (post_next_frame RScalar (advance p)) as [q|] eqn:E; cbn [option_map]; [|reflexivity].
  apply IH. eapply builtin_post_next; [|exact E]. exact HB.
Qed.

Lemma iter_next_app n m : forall p, iter_next (n + m) p = match iter_next n p with Some q => iter_next m q | None => None end.
Proof.
  induction n as [|n IH]; intros p; cbn; [reflexivity|].
  destruct (post_next_frame RScalar (advance p)); [apply IH|reflexivity].
Qed.

Lemma iter_next_builtin n : forall p q, builtin (plst p) -> iter_next n p = Some q -> builtin (plst q).
Proof.
  induction n as [|n IH]; intros p q HB; cbn; [intros [= <-]; exact HB|].
  destruct (post_next_frame RScalar (advance p)) as [r|] eqn:E; [|discriminate].
  apply IH. eapply builtin_post_next; [|exact E]. exact HB.
Qed.

Lemma speed_post_next (p p' : pb) : builtin (plst p) -> post_next_frame RScalar p = Some p' -> speed (pf p') = speed (pf p).
Proof.
  unfold post_next_frame. cbn [plst post]. destruct (plst p) eqn:El; intros HB.
  - intros [= <-]. destruct (has_end_reached _ _); [rewrite interp_stop; reflexivity|].
    cbn [with_pf pf]. unfold set_next_frame. destruct (is_forward _ _); reflexivity.
  - intros [= <-]. destruct (has_end_reached _ _); cbn [with_pf pf]; unfold set_next_frame, set_next_frame_to; destruct (is_forward _ _); reflexivity.
  - intros [= <-]. destruct (has_end_reached _ _); cbn [with_pf pf]; unfold set_next_frame, set_next_frame_to; destruct (is_forward _ _); reflexivity.
  - destruct (list_loop_next _ _ _) as [[it' [f|]]|]; intros [= <-]; cbn [with_pf pf with_lst]; unfold set_next_frame_to; try destruct (is_forward _ _); reflexivity.
  - destruct HB.
Qed.

Lemma iter_next_speed n : forall p q, builtin (plst p) -> iter_next n p = Some q ->
  speed (pf q) = speed (pf p) /\ interpolator (pf q) = (interpolator (pf p) - INR n)%R.
Proof.
  induction n as [|n IH]; intros p q HB; cbn [iter_next]; [intros [= <-]; cbn; split; [reflexivity|lra]|].
  destruct (post_next_frame RScalar (advance p)) as [r|] eqn:E; [|discriminate].
  intros H. apply IH in H; [|eapply builtin_post_next; [|exact E]; exact HB].
  destruct H as [H1 H2]. rewrite H1, H2, S_INR, (speed_post_next (advance p) r HB E), (interp_post_next _ _ _ E).
  cbn. split; [reflexivity|lra].
Qed.

Lemma forward_loop_iter : forall n p fuel, (0 <= interpolator (pf p))%R -> (INR n <= interpolator (pf p) < INR n + 1)%R -> (n < fuel)%nat ->
  forward_loop RScalar fuel p = match iter_next n p with Some q => Done q | None => Undef end.
Proof.
  induction n as [|n IH]; intros p fuel H0 Hn Hf; (destruct fuel as [|fuel]; [lia|]); cbn [forward_loop iter_next];
  change (sle RScalar (s1 RScalar) (interpolator (pf p))) with (Rleb 1 (interpolator (pf p))).
  - replace (Rleb 1 (interpolator (pf p))) with false by (symmetry; apply Rleb_false; cbn in Hn; lra). reflexivity.
  - rewrite S_INR in Hn. pose proof (pos_INR n).
    replace (Rleb 1 (interpolator (pf p))) with true by (symmetry; apply Rleb_true; lra).
    fold (advance p). destruct (post_next_frame RScalar (advance p)) as [q|] eqn:E; [|reflexivity].
    apply IH; [| |lia]; rewrite (interp_post_next _ _ _ E); cbn; lra.
Qed.

Lemma split_update (p p1 : pb) a b f0 : builtin (plst p) -> pst p = Playing -> (0 <= speed (pf p))%R ->
  (0 <= interpolator (pf p))%R -> (0 < a)%R -> (0 < b)%R ->
  update RScalar f0 a p = Done p1 -> pst p1 = Playing ->
  exists N, forall fuel, (N <= fuel)%nat -> update RScalar fuel b p1 = update RScalar fuel (a + b)%R p.
Proof.
  intros HB Hst Hs Hi Ha Hb H Hst1.
  pose proof (Rmult_le_pos a _ ltac:(lra) Hs) as Has. pose proof (Rmult_le_pos b _ ltac:(lra) Hs) as Hbs.
  rewrite update_forward in H by assumption.
  assert (Ea : add_time a p = shift (a * speed (pf p)) p) by reflexivity.
  assert (H0 : (0 <= interpolator (pf (add_time a p)))%R) by (rewrite Ea; cbn; lra).
  destruct (nat_floor _ H0) as [n Hn].
  apply (forward_loop_mono _ _ (Nat.max f0 (Datatypes.S n))) in H; [|lia].
  rewrite (forward_loop_iter n _ _ H0 Hn) in H by lia.
  destruct (iter_next n (add_time a p)) as [q|] eqn:E; [|discriminate]. injection H as ->.
  destruct (iter_next_speed n (add_time a p) p1 HB E) as [Es Ei]. cbn [add_time with_pf pf set_interp speed] in Es.
  assert (Hq : (0 <= interpolator (pf p1))%R) by (rewrite Ei; lra).
  assert (H1 : (0 <= interpolator (pf (add_time b p1)))%R) by (cbn; rewrite Es; lra).
  destruct (nat_floor _ H1) as [m Hm].
  exists (Datatypes.S (n + m)). intros fuel Hf.
  rewrite !update_forward by (assumption || lra || (rewrite Es; exact Hs)).
  rewrite (forward_loop_iter m _ _ H1 Hm) by lia.
  assert (Eab : add_time (a + b)%R p = shift (b * speed (pf p)) (add_time a p)).
  { apply playback_interp_ext; try reflexivity. cbn. lra. }
  assert (H2 : (0 <= interpolator (pf (add_time (a + b)%R p)))%R) by (rewrite Eab; cbn; lra).
  assert (Hnm : (INR (n + m) <= interpolator (pf (add_time (a + b)%R p)) < INR (n + m) + 1)%R).
  { rewrite plus_INR. rewrite Eab. cbn [shift with_pf pf set_interp interpolator].
    revert Hm. cbn [add_time with_pf pf set_interp interpolator]. rewrite Es.
    revert Ei. cbn [add_time with_pf pf set_interp interpolator]. intros -> Hm. lra. }
  rewrite (forward_loop_iter (n + m) _ _ H2 Hnm) by lia.
  rewrite iter_next_app, Eab, iter_next_shift, E by exact HB. cbn [option_map].
  replace (add_time b p1) with (shift (b * speed (pf p)) p1); [reflexivity|].
  unfold add_time, shift. rewrite <- Es. reflexivity.
Qed.
