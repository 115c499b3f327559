(** Behaviour does not depend on the notification log; pausing is transparent. *)
From Coq Require Import ZArith Reals List Bool Lia Lra.
From Verif Require Import Model.Scalar Model.Playback Spec.PlaybackSpec Proofs.PlaybackLemmas.
Import ListNotations.
Open Scope Z_scope.

Section Sim.
Variable S : scalar.
Variables la lb : list event.

(** Two playbacks that differ only in an old part of the log. *)
Definition sim (p q : playback S) : Prop :=
  pf p = pf q /\ pst p = pst q /\ plst p = plst q /\ exists s, plog p = la ++ s /\ plog q = lb ++ s.

Lemma sim_with_pf g p q : sim p q -> sim (with_pf S g p) (with_pf S g q).
Proof. intros (H1 & H2 & H3 & s & H4 & H5). repeat split; cbn; auto. - congruence. - exists s; auto. Qed.
Lemma sim_with_lst l p q : sim p q -> sim (with_lst S l p) (with_lst S l q).
Proof. intros (H1 & H2 & H3 & s & H4 & H5). repeat split; cbn; auto. exists s; auto. Qed.
Lemma sim_with_st t p q : sim p q -> sim (with_st S t p) (with_st S t q).
Proof. intros (H1 & H2 & H3 & s & H4 & H5). repeat split; cbn; auto. exists s; auto. Qed.
Lemma sim_post e p q : sim p q -> sim (post S e p) (post S e q).
Proof. intros (H1 & H2 & H3 & s & H4 & H5). repeat split; cbn; auto. exists (s ++ [e]). rewrite H4, H5, !app_assoc. auto. Qed.
Lemma sim_set_state t p q : sim p q -> sim (set_state S t p) (set_state S t q).
Proof.
  intros H. unfold set_state. cbn zeta. destruct t; auto using sim_post, sim_with_st.
  replace (plst (with_st S Stopped q)) with (plst (with_st S Stopped p)) by (cbn; apply H).
  auto using sim_post, sim_with_st, sim_with_lst.
Qed.
Lemma sim_stop p q : sim p q -> sim (stop S p) (stop S q).
Proof.
  intros H. pose proof H as (_ & H2 & _). unfold stop. rewrite <- H2.
  destruct (pst p); auto using sim_set_state.
Qed.
Lemma sim_pause b p q : sim p q -> sim (pause S b p) (pause S b q).
Proof.
  intros H. pose proof H as (_ & H2 & _). unfold pause. rewrite <- H2.
  destruct b, (pst p); auto using sim_set_state.
Qed.
Lemma sim_action a p q : sim p q -> sim (do_action S p a) (do_action S q a).
Proof. intros H; destruct a; cbn [do_action]; auto using sim_with_pf, sim_stop, sim_pause. Qed.
Lemma sim_actions l : forall p q, sim p q -> sim (fold_left (do_action S) l p) (fold_left (do_action S) l q).
Proof. induction l as [|a l IH]; intros p q H; cbn; auto using sim_action. Qed.

Definition simo (p q : option (playback S)) : Prop :=
  match p, q with Some x, Some y => sim x y | None, None => True | _, _ => False end.
Definition simr (p q : result S) : Prop :=
  match p, q with Done x, Done y => sim x y | Undef, Undef => True | OutOfFuel, OutOfFuel => True | _, _ => False end.

Lemma sim_post_next p q : sim p q -> simo (post_next_frame S p) (post_next_frame S q).
Proof.
  intros H. pose proof H as (H1 & H2 & H3 & _). unfold post_next_frame.
  rewrite <- H1. pose proof (sim_post (EvNext (frame (pf p))) _ _ H) as Hp.
  cbn [plst post pst pf]. rewrite <- H2, <- H3, <- H1.
  destruct (plst p) as [| | |fs it|g]; cbn [simo].
  - destruct (has_end_reached _ _); auto using sim_stop, sim_with_pf.
  - destruct (has_end_reached _ _); auto using sim_with_pf.
  - destruct (has_end_reached _ _); auto using sim_with_pf.
  - destruct (list_loop_next _ _ _) as [[it' [f|]]|]; cbn [simo]; auto using sim_with_pf, sim_with_lst.
  - apply sim_actions, Hp.
Qed.

Lemma sim_forward fuel : forall p q, sim p q -> simr (forward_loop S fuel p) (forward_loop S fuel q).
Proof.
  induction fuel as [|n IH]; intros p q H; cbn [forward_loop]; [exact I|].
  pose proof H as (H1 & _). rewrite <- H1. destruct (sle _ _ _); [|exact H].
  match goal with |- simr (match post_next_frame _ ?a with _ => _ end) (match post_next_frame _ ?b with _ => _ end) =>
    assert (Hs : sim a b) by (apply sim_with_pf, H) end.
  apply sim_post_next in Hs. revert Hs.
  destruct (post_next_frame S _), (post_next_frame S _); cbn [simo]; try easy. apply IH.
Qed.

Lemma sim_backward fuel : forall p q, sim p q -> simr (backward_loop S fuel p) (backward_loop S fuel q).
Proof.
  induction fuel as [|n IH]; intros p q H; cbn [backward_loop]; [exact I|].
  pose proof H as (H1 & _). rewrite <- H1. destruct (sle _ _ _); [|exact H].
  match goal with |- simr (match post_next_frame _ ?a with _ => _ end) (match post_next_frame _ ?b with _ => _ end) =>
    assert (Hs : sim a b) by (apply sim_with_pf, H) end.
  apply sim_post_next in Hs. revert Hs.
  destruct (post_next_frame S _), (post_next_frame S _); cbn [simo]; try easy. apply IH.
Qed.

Lemma sim_play a b s l p q : sim p q -> simr (lift S (play S a b s l p)) (lift S (play S a b s l q)).
Proof.
  intros H. assert (Hs : simo (play S a b s l p) (play S a b s l q)).
  { unfold play. apply sim_post_next, sim_set_state, sim_with_pf, sim_with_lst, sim_stop, H. }
  destruct (play S a b s l p), (play S a b s l q); cbn in *; easy.
Qed.

Lemma sim_step fuel o p q : sim p q -> simr (step S fuel p o) (step S fuel q o).
Proof.
  intros H. pose proof H as (H1 & H2 & _). destruct o; cbn [step]; rewrite <- ?H1; auto using sim_play.
  - apply sim_pause, H.
  - apply sim_stop, H.
  - unfold update. rewrite <- H2. destruct (pst p); try exact H. destruct (sle _ _ _); [exact H|]. cbn zeta.
    cbn [with_pf pf]. rewrite <- H1.
    destruct (is_forward _ _); [apply sim_forward|apply sim_backward]; apply sim_with_pf, H.
  - apply sim_with_pf, H.
  - apply sim_with_pf, H.
  - apply sim_with_pf, H.
Qed.

Lemma sim_run fuel os : forall p q, sim p q -> simr (run S fuel p os) (run S fuel q os).
Proof.
  induction os as [|o os IH]; intros p q H; cbn [run]; [exact H|].
  pose proof (sim_step fuel o p q H) as Hs. revert Hs.
  destruct (step S fuel p o), (step S fuel q o); cbn [simr]; try easy. apply IH.
Qed.
End Sim.

Lemma run_app S fuel a b : forall p, run S fuel p (a ++ b) =
  match run S fuel p a with Done q => run S fuel q b | r => r end.
Proof. induction a as [|o a IH]; intros p; cbn; [reflexivity|]. destruct (step S fuel p o); auto. Qed.

(** Pause, updates while paused, resume. *)
Lemma pause_resume_state S fuel (p : playback S) ds : pst p = Playing ->
  run S fuel p (OpPause true :: map (fun d => OpUpdate d) ds ++ [OpPause false]) =
  Done (mkPlayback (pf p) Playing (plst p) (plog p ++ [EvPause; EvPlay])).
Proof.
  intros Hp. destruct p as [f st l lg]. cbn in Hp; subst.
  cbn [run step pause pst]. rewrite run_app, stopped_updates.
  - cbn. unfold post, with_st; cbn [pf pst plst plog]. rewrite <- app_assoc. reflexivity.
  - cbn; discriminate.
  - clear. induction ds; constructor; eauto.
Qed.

Lemma pause_transparent S fuel (p : playback S) ds os : pst p = Playing ->
  match run S fuel p (OpPause true :: map (fun d => OpUpdate d) ds ++ OpPause false :: os), run S fuel p os with
  | Done x, Done y => pf x = pf y /\ pst x = pst y /\ plst x = plst y /\
      exists s, plog x = plog p ++ [EvPause; EvPlay] ++ s /\ plog y = plog p ++ s
  | Undef, Undef => True
  | OutOfFuel, OutOfFuel => True
  | _, _ => False
  end.
Proof.
  intros Hp. pose proof (pause_resume_state S fuel p ds Hp) as E.
  replace (OpPause true :: map (fun d => OpUpdate d) ds ++ OpPause false :: os)
    with ((OpPause true :: map (fun d => OpUpdate d) ds ++ [OpPause false]) ++ os)
    by (cbn; rewrite <- app_assoc; reflexivity).
  rewrite run_app, E.
  pose proof (sim_run S (plog p ++ [EvPause; EvPlay]) (plog p) fuel os
    (mkPlayback (pf p) Playing (plst p) (plog p ++ [EvPause; EvPlay])) p) as H.
  unfold simr in H. 
  assert (Hsim : sim S (plog p ++ [EvPause; EvPlay]) (plog p)
    (mkPlayback (pf p) Playing (plst p) (plog p ++ [EvPause; EvPlay])) p).
  { repeat split; cbn; auto. exists []. rewrite !app_nil_r. auto. }
  specialize (H Hsim). revert H.
  destruct (run S fuel _ os), (run S fuel p os); try easy.
  intros (H1 & H2 & H3 & s & H4 & H5). repeat split; auto. exists s. rewrite H4, <- app_assoc. auto.
Qed.
