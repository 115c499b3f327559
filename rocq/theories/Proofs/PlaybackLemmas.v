From Coq Require Import ZArith Reals List Bool Lia Lra.
From Verif Require Import Model.Scalar Model.Playback Spec.PlaybackSpec.
Import ListNotations.
Open Scope Z_scope.

Notation pb := (playback RScalar).
Notation fl := (fields RScalar).

Lemma Rleb_true x y : Rleb x y = true <-> (x <= y)%R.
Proof. unfold Rleb; destruct (Rle_dec x y); split; intros; try easy; contradiction. Qed.
Lemma Rleb_false x y : Rleb x y = false <-> (y < x)%R.
Proof. unfold Rleb; destruct (Rle_dec x y); split; intros; try easy; lra. Qed.
Lemma Rltb_true x y : Rltb x y = true <-> (x < y)%R.
Proof. unfold Rltb; destruct (Rlt_dec x y); split; intros; try easy; contradiction. Qed.
Lemma Rltb_false x y : Rltb x y = false <-> (y <= x)%R.
Proof. unfold Rltb; destruct (Rlt_dec x y); split; intros; try easy; lra. Qed.

Lemma wrap_small z : 0 <= z < size_max -> wrap z = z.
Proof. intros; unfold wrap; apply Z.mod_small; assumption. Qed.

(** ** Notifications and state *)

Section AnyScalar.
Variable S : scalar.

Lemma announcements_app a b : announcements (a ++ b) = announcements a ++ announcements b.
Proof. induction a as [|e a IH]; cbn; [reflexivity|]. rewrite IH; destruct (announced e); reflexivity. Qed.

Lemma legal_snoc s l t : legal_from s l -> may_follow (last l s) t -> legal_from s (l ++ [t]).
Proof.
  revert s; induction l as [|x l IH]; intros s H Ht; [cbn in *; tauto|].
  cbn [legal_from app] in *. destruct H as [H1 H2]; split; [exact H1|].
  apply IH; [exact H2|]. destruct l as [|y l']; [exact Ht|].
  replace (last (y :: l') x) with (last (x :: y :: l') s); [exact Ht|].
  cbn [last]. clear. revert y; induction l' as [|z l' IH]; intros y; [reflexivity|]. cbn [last]. apply (IH z).
Qed.

Lemma last_snoc {A} (l : list A) x d : last (l ++ [x]) d = x.
Proof. induction l as [|a l IH]; [reflexivity|]. cbn. destruct (l ++ [x]) eqn:E; [destruct l; discriminate|]. exact IH. Qed.

(** The log announces legal transitions, the last of which is the current state. *)
Definition log_ok (p : playback S) : Prop :=
  legal_from Stopped (announcements (plog p)) /\ pst p = last (announcements (plog p)) Stopped.

Lemma log_ok_with_pf g p : log_ok p -> log_ok (with_pf S g p).
Proof. exact (fun H => H). Qed.
Lemma log_ok_with_lst l p : log_ok p -> log_ok (with_lst S l p).
Proof. exact (fun H => H). Qed.
Lemma log_ok_next f p : log_ok p -> log_ok (post S (EvNext f) p).
Proof. unfold log_ok; cbn. rewrite announcements_app; cbn. rewrite app_nil_r. exact (fun H => H). Qed.

Lemma log_ok_set_state s p : log_ok p -> may_follow (pst p) s -> log_ok (set_state S s p).
Proof.
  intros [H1 H2] Hm. rewrite H2 in Hm.
  destruct s; unfold log_ok; cbn; rewrite announcements_app; cbn; rewrite last_snoc;
    (split; [apply legal_snoc; assumption|reflexivity]).
Qed.

Lemma log_ok_stop p : log_ok p -> log_ok (stop S p).
Proof. intros H; unfold stop; destruct (pst p) eqn:E; try exact H; apply log_ok_set_state; try exact H; rewrite E; exact I. Qed.

Lemma log_ok_pause b p : log_ok p -> log_ok (pause S b p).
Proof. intros H; unfold pause; destruct b; destruct (pst p) eqn:E; try exact H; apply log_ok_set_state; try exact H; rewrite E; exact I. Qed.

Lemma stop_stopped p : pst (stop S p) = Stopped.
Proof. unfold stop; destruct (pst p) eqn:E; try reflexivity; exact E. Qed.

Lemma log_ok_action a p : log_ok p -> log_ok (do_action S p a).
Proof. intros H; destruct a; cbn [do_action]; auto using log_ok_stop, log_ok_pause. Qed.

Lemma log_ok_actions l p : log_ok p -> log_ok (fold_left (do_action S) l p).
Proof. revert p; induction l as [|a l IH]; intros p H; [exact H|]. cbn. apply IH, log_ok_action, H. Qed.

Lemma log_ok_post_next p p' : log_ok p -> post_next_frame S p = Some p' -> log_ok p'.
Proof.
  intros H. unfold post_next_frame.
  pose proof (log_ok_next (frame (pf p)) p H) as H1. revert H1.
  generalize (post S (EvNext (frame (pf p))) p) as q. intros q Hq.
  destruct (plst q).
  - intros [= <-]. destruct (has_end_reached _ _); auto using log_ok_stop.
  - intros [= <-]. destruct (has_end_reached _ _); auto.
  - intros [= <-]. destruct (has_end_reached _ _); auto.
  - destruct (list_loop_next _ _ _) as [[it' [f|]]|]; intros [= <-]; auto.
  - intros [= <-]. apply log_ok_actions, Hq.
Qed.

Lemma log_ok_forward fuel p p' : log_ok p -> forward_loop S fuel p = Done p' -> log_ok p'.
Proof.
  revert p; induction fuel as [|n IH]; intros p H; cbn [forward_loop]; [discriminate|].
  destruct (sle _ _ _); [|intros [= <-]; exact H].
  destruct (post_next_frame _ _) as [q|] eqn:E; [|discriminate].
  apply IH. eapply log_ok_post_next; [|exact E]. exact H.
Qed.

Lemma log_ok_backward fuel p p' : log_ok p -> backward_loop S fuel p = Done p' -> log_ok p'.
Proof.
  revert p; induction fuel as [|n IH]; intros p H; cbn [backward_loop]; [discriminate|].
  destruct (sle _ _ _); [|intros [= <-]; exact H].
  destruct (post_next_frame _ _) as [q|] eqn:E; [|discriminate].
  apply IH. eapply log_ok_post_next; [|exact E]. exact H.
Qed.

Lemma log_ok_play a b s l p p' : log_ok p -> play S a b s l p = Some p' -> log_ok p'.
Proof.
  intros H E. unfold play in E. eapply log_ok_post_next; [|exact E].
  apply log_ok_set_state.
  - apply log_ok_with_pf, log_ok_with_lst, log_ok_stop, H.
  - change (may_follow (pst (stop S p)) Playing). rewrite stop_stopped. exact I.
Qed.

Lemma log_ok_step fuel p o p' : log_ok p -> step S fuel p o = Done p' -> log_ok p'.
Proof.
  intros H. destruct o; cbn [step].
  - destruct (play _ _ _ _ _ _) eqn:E; cbn; [|discriminate]. intros [= <-]. eapply log_ok_play; eauto.
  - destruct (play _ _ _ _ _ _) eqn:E; cbn; [|discriminate]. intros [= <-]. eapply log_ok_play; eauto.
  - destruct (play _ _ _ _ _ _) eqn:E; cbn; [|discriminate]. intros [= <-]. eapply log_ok_play; eauto.
  - intros [= <-]. apply log_ok_pause, H.
  - intros [= <-]. apply log_ok_stop, H.
  - unfold update. destruct (pst p); try (intros [= <-]; exact H).
    destruct (sle _ _ _); [intros [= <-]; exact H|].
    cbn zeta. destruct (is_forward _ _); [apply log_ok_forward|apply log_ok_backward]; exact H.
  - intros [= <-]; exact H.
  - intros [= <-]; exact H.
  - intros [= <-]; exact H.
Qed.

Lemma log_ok_run fuel os : forall p p', log_ok p -> run S fuel p os = Done p' -> log_ok p'.
Proof.
  induction os as [|o os IH]; intros p p' H; cbn [run]; [intros [= <-]; exact H|].
  destruct (step _ _ _ _) as [q| |] eqn:E; try discriminate. apply IH. eapply log_ok_step; eauto.
Qed.

Lemma log_ok_init : log_ok (playback_init S).
Proof. split; reflexivity || exact I. Qed.

End AnyScalar.

(** ** Stepping forward over the reals *)

(** One iteration of the forward loop without the notification. *)
Definition advance (p : pb) : pb :=
  with_pf RScalar (fun f => set_frame RScalar (nextFrame f)
            (set_interp RScalar (ssub RScalar (interpolator f) (s1 RScalar)) f)) p.

Section ForwardLoop.
Variable Inv : nat -> pb -> Prop.
Hypothesis Inv_step : forall k p, Inv k p ->
  exists p', post_next_frame RScalar (advance p) = Some p' /\ Inv (Datatypes.S k) p'
             /\ interpolator (pf p') = (interpolator (pf p) - 1)%R /\ speed (pf p') = speed (pf p).

Lemma forward_loop_steps : forall n k p fuel, Inv k p ->
  (INR n <= interpolator (pf p) < INR n + 1)%R -> (n < fuel)%nat ->
  exists p', forward_loop RScalar fuel p = Done p' /\ Inv (k + n) p'
             /\ interpolator (pf p') = (interpolator (pf p) - INR n)%R /\ speed (pf p') = speed (pf p).
Proof.
  induction n as [|n IH]; intros k p fuel HI Hn Hf.
  - destruct fuel as [|fuel]; [lia|]. cbn [forward_loop]. exists p.
    change (sle RScalar) with Rleb. cbn [s1 RScalar].
    replace (Rleb 1 (interpolator (pf p))) with false.
    + rewrite Nat.add_0_r. cbn in *. repeat split; auto. lra.
    + symmetry; apply Rleb_false. cbn in Hn. lra.
  - destruct fuel as [|fuel]; [lia|]. cbn [forward_loop].
    rewrite S_INR in Hn. pose proof (pos_INR n) as Hp.
    replace (sle RScalar (s1 RScalar) (interpolator (pf p))) with true
      by (symmetry; apply Rleb_true; cbn; lra).
    destruct (Inv_step k p HI) as (p1 & E1 & HI1 & Ei & Es).
    fold (advance p). rewrite E1.
    destruct (IH (Datatypes.S k) p1 fuel HI1) as (p2 & E2 & HI2 & Ei2 & Es2).
    + rewrite Ei; lra.
    + lia.
    + exists p2. split; [exact E2|]. split; [replace (k + Datatypes.S n)%nat with (Datatypes.S k + n)%nat by lia; exact HI2|].
      split; [rewrite Ei2, Ei, S_INR; lra|congruence].
Qed.
End ForwardLoop.

(** Every non-negative real has an integer part. *)
Lemma nat_floor (x : R) : (0 <= x)%R -> exists n : nat, (INR n <= x < INR n + 1)%R.
Proof.
  intros Hx. destruct (archimed x) as [H1 H2].
  assert (Hup : 0 <= up x - 1). { assert (0 < up x) by (apply lt_IZR; lra). lia. }
  exists (Z.to_nat (up x - 1)). rewrite INR_IZR_INZ, Z2Nat.id by lia. rewrite minus_IZR. lra.
Qed.

Lemma Zsucc_mod k m : 0 < m -> (k + 1) mod m = if k mod m =? m - 1 then 0 else k mod m + 1.
Proof.
  intros Hm. pose proof (Z.mod_pos_bound k m Hm) as Hb. pose proof (Z.div_mod k m ltac:(lia)) as Hd.
  destruct (Z.eqb_spec (k mod m) (m - 1)) as [E|E].
  - symmetry. apply (Z.mod_unique _ _ (k / m + 1)); [left; lia|lia].
  - symmetry. apply (Z.mod_unique _ _ (k / m)); [left; lia|lia].
Qed.

Ltac zb := repeat match goal with
  | |- context [?a <=? ?b] => destruct (Z.leb_spec a b)
  | H : context [?a <=? ?b] |- _ => destruct (Z.leb_spec a b)
  | |- context [?a =? ?b] => destruct (Z.eqb_spec a b)
  | H : context [?a =? ?b] |- _ => destruct (Z.eqb_spec a b)
  end.

Lemma frame_at_bounds a b i : 0 <= a < size_max -> 0 <= b < size_max -> 0 <= i <= span a b ->
  0 <= frame_at a b i < size_max.
Proof. unfold frame_at, span; intros; zb; lia. Qed.

(** Frames announced by the first [k+1] next-frame notifications, under a frame function. *)
Definition nexts (f : Z -> Z) (k : nat) : list event := map (fun i => EvNext (f (Z.of_nat i))) (seq 0 (Datatypes.S k)).

Lemma nexts_S f k : nexts f (Datatypes.S k) = nexts f k ++ [EvNext (f (Z.of_nat (Datatypes.S k)))].
Proof. unfold nexts. rewrite (seq_S (Datatypes.S k)). rewrite map_app. reflexivity. Qed.

Definition fwd (s : R) := (0 <= s)%R.
Lemma is_forward_true (f : fl) : (0 <= speed f)%R -> is_forward RScalar f = true.
Proof. intros; apply Rleb_true; cbn; assumption. Qed.
Lemma is_forward_false (f : fl) : (speed f < 0)%R -> is_forward RScalar f = false.
Proof. intros; apply Rleb_false; cbn; assumption. Qed.

Definition pre_log (p0 : pb) : list event := plog (stop RScalar p0) ++ [EvPlay].

(** *** Loop *)
Record LoopInv (p0 : pb) (a b : Z) (s : R) (k : nat) (p : pb) : Prop := mkLoopInv {
  li_lst : plst p = LLoop;
  li_st : pst p = Playing;
  li_first : firstFrame (pf p) = a;
  li_last : lastFrame (pf p) = b;
  li_frame : frame (pf p) = loop_frame a b (Z.of_nat k);
  li_next : nextFrame (pf p) = loop_frame a b (Z.of_nat k + 1);
  li_speed : speed (pf p) = s;
  li_log : plog p = pre_log p0 ++ nexts (loop_frame a b) k
}.

Lemma loop_next_ok a b k : 0 <= a < size_max -> 0 <= b < size_max ->
  (let f := loop_frame a b k in
   if (if a <=? b then b <=? f else f <=? b) then a
   else if a <=? b then wrap (f + 1) else wrap (f - 1)) = loop_frame a b (k + 1).
Proof.
  intros Ha Hb. unfold loop_frame. rewrite Zsucc_mod by (unfold span; lia).
  pose proof (Z.mod_pos_bound k (span a b + 1) ltac:(unfold span; lia)) as Hm.
  set (r := k mod (span a b + 1)) in *. unfold frame_at, span in *. cbn zeta.
  unfold size_max in *.
  zb; try lia; rewrite wrap_small; unfold size_max; lia.
Qed.

Lemma loop_frame_bounds a b k : 0 <= a < size_max -> 0 <= b < size_max ->
  0 <= loop_frame a b k < size_max.
Proof.
  intros. apply frame_at_bounds; auto.
  pose proof (Z.mod_pos_bound k (span a b + 1) ltac:(unfold span; lia)). lia.
Qed.

(** Plain form of one forward step for the built-in listeners. *)
Definition end_fwd (a b f : Z) : bool := if a <=? b then b <=? f else f <=? b.
Definition succ_fwd (a b f : Z) : Z := if a <=? b then wrap (f + 1) else wrap (f - 1).

Section Plain.
Variables (a b fr nf : Z) (it sp : R) (st : pstate) (lg : list event).
Hypothesis Hsp : (0 <= sp)%R.
Lemma Hsp_b : Rleb 0 sp = true. Proof. apply Rleb_true, Hsp. Qed.
Let plain l : pb := @mkPlayback RScalar (@mkFields RScalar a b fr nf it sp) st l lg.

Ltac plain_tac :=
  unfold post_next_frame, advance, with_pf, post, has_end_reached, set_next_frame, set_next_frame_to,
    are_frames_chrono, is_forward, set_frame, set_next, set_interp, set_first, set_last, with_lst, end_fwd, succ_fwd;
  cbn [plst pf pst plog firstFrame lastFrame frame nextFrame interpolator speed sle s0 s1 ssub RScalar plain];
  rewrite ?Hsp_b.

Lemma plain_loop : post_next_frame RScalar (advance (plain LLoop)) =
  Some (@mkPlayback RScalar (@mkFields RScalar a b nf (if end_fwd a b nf then a else succ_fwd a b nf) (it - 1)%R sp)
         st LLoop (lg ++ [EvNext nf])).
Proof. plain_tac. destruct (a <=? b); [destruct (b <=? nf)|destruct (nf <=? b)];
  cbn [plst pf pst plog firstFrame lastFrame frame nextFrame interpolator speed]; rewrite ?Hsp_b; reflexivity. Qed.

Lemma plain_oneshot : post_next_frame RScalar (advance (plain LOneShot)) =
  Some (if end_fwd a b nf
        then stop RScalar (@mkPlayback RScalar (@mkFields RScalar a b nf nf (it - 1)%R sp) st LOneShot (lg ++ [EvNext nf]))
        else @mkPlayback RScalar (@mkFields RScalar a b nf (succ_fwd a b nf) (it - 1)%R sp) st LOneShot (lg ++ [EvNext nf])).
Proof. plain_tac. destruct (a <=? b); [destruct (b <=? nf)|destruct (nf <=? b)];
  cbn [plst pf pst plog firstFrame lastFrame frame nextFrame interpolator speed]; rewrite ?Hsp_b; reflexivity. Qed.

Lemma plain_pingpong : post_next_frame RScalar (advance (plain LPingPong)) =
  Some (let a' := if end_fwd a b nf then b else a in
        let b' := if end_fwd a b nf then a else b in
        @mkPlayback RScalar (@mkFields RScalar a' b' nf (succ_fwd a' b' nf) (it - 1)%R sp) st LPingPong (lg ++ [EvNext nf])).
Proof. plain_tac. cbn zeta. destruct (if a <=? b then b <=? nf else nf <=? b);
  cbn [plst pf pst plog firstFrame lastFrame frame nextFrame interpolator speed]; rewrite ?Hsp_b; reflexivity. Qed.
End Plain.

Lemma loop_step p0 a b s : 0 <= a < size_max -> 0 <= b < size_max -> (0 <= s)%R ->
  forall k p, LoopInv p0 a b s k p ->
  exists p', post_next_frame RScalar (advance p) = Some p' /\ LoopInv p0 a b s (Datatypes.S k) p'
             /\ interpolator (pf p') = (interpolator (pf p) - 1)%R /\ speed (pf p') = speed (pf p).
Proof.
  intros Ha Hb Hs k p [Hl Hst Hf Hla Hfr Hn Hsp Hlog].
  destruct p as [[ff lf fr nf it sp] st l lg].
  cbn [plst pf pst plog firstFrame lastFrame frame nextFrame interpolator speed] in *; subst.
  eexists; split; [apply plain_loop, Hs|].
  cbn [plst pf pst plog firstFrame lastFrame frame nextFrame interpolator speed].
  split; [|split; reflexivity].
  constructor; cbn [plst pf pst plog firstFrame lastFrame frame nextFrame interpolator speed]; try reflexivity.
  - f_equal; lia.
  - replace (Z.of_nat (Datatypes.S k) + 1) with (Z.of_nat k + 1 + 1) by lia.
    rewrite <- (loop_next_ok a b (Z.of_nat k + 1) Ha Hb). reflexivity.
  - rewrite nexts_S, app_assoc. do 3 f_equal. f_equal; lia.
Qed.

Ltac pcbn := cbn [plst pf pst plog firstFrame lastFrame frame nextFrame interpolator speed
                  with_pf with_lst with_st post set_interp set_frame set_next set_first set_last set_speed] in *.

Definition updates (ds : list R) : list (op RScalar) := map (fun d => @OpUpdate RScalar d) ds.

(** State before the loop of Update. *)
Definition add_time (d : R) (p : pb) : pb :=
  with_pf RScalar (fun f => set_interp RScalar (interpolator f + d * speed f)%R f) p.

Lemma update_forward fuel d (p : pb) : pst p = Playing -> (0 < d)%R -> (0 <= speed (pf p))%R ->
  update RScalar fuel d p = forward_loop RScalar fuel (add_time d p).
Proof.
  intros Hst Hd Hs. unfold update. rewrite Hst.
  replace (sle RScalar d (s0 RScalar)) with false by (symmetry; apply Rleb_false; exact Hd).
  cbn zeta. rewrite is_forward_true by exact Hs. reflexivity.
Qed.

Lemma update_nonpos (S : scalar) fuel d (p : playback S) : sle S d (s0 S) = true -> update S fuel d p = Done p.
Proof. intros H; unfold update. rewrite H. destruct (pst p); reflexivity. Qed.

Lemma update_not_playing (S : scalar) fuel d (p : playback S) : pst p <> Playing -> update S fuel d p = Done p.
Proof. intros H; unfold update. destruct (pst p); congruence. Qed.

Section Endless.
Variable s : R.
Hypothesis Hs : (0 <= s)%R.
Variable Inv : nat -> pb -> Prop.
Hypothesis Inv_step : forall k p, Inv k p ->
  exists p', post_next_frame RScalar (advance p) = Some p' /\ Inv (Datatypes.S k) p'
             /\ interpolator (pf p') = (interpolator (pf p) - 1)%R /\ speed (pf p') = speed (pf p).
Hypothesis Inv_playing : forall k p, Inv k p -> pst p = Playing.
Hypothesis Inv_speed : forall k p, Inv k p -> speed (pf p) = s.
Hypothesis Inv_interp : forall k p x, Inv k p -> Inv k (with_pf RScalar (set_interp RScalar x) p).

Lemma elapsed_nonneg ds : (0 <= elapsed ds)%R.
Proof. induction ds as [|d ds IH]; cbn; [lra|]. pose proof (Rmax_r d 0). lra. Qed.

Lemma endless_updates : forall ds k p n, Inv k p -> (0 <= interpolator (pf p) < 1)%R ->
  (INR n <= interpolator (pf p) + s * elapsed ds < INR n + 1)%R ->
  exists N p', (forall fuel, (N <= fuel)%nat -> run RScalar fuel p (updates ds) = Done p')
    /\ Inv (k + n) p' /\ interpolator (pf p') = (interpolator (pf p) + s * elapsed ds - INR n)%R.
Proof.
  induction ds as [|d ds IH]; intros k p n HI Hi Hn; cbn [elapsed updates map] in *.
  - exists 0%nat, p. cbn. rewrite Rmult_0_r, Rplus_0_r in *.
    assert (n = 0)%nat. { destruct n; [reflexivity|]. rewrite S_INR in Hn. pose proof (pos_INR n). lra. }
    subst. rewrite Nat.add_0_r. repeat split; auto. cbn. lra.
  - destruct (Rle_or_lt d 0) as [Hd|Hd].
    + rewrite Rmax_right in * by lra. rewrite Rplus_0_l in *.
      destruct (IH k p n HI Hi Hn) as (N & p' & E & R1 & R2). exists N, p'. split; [|auto].
      intros fuel Hf. cbn [run step]. rewrite update_nonpos by (apply Rleb_true; exact Hd). apply E, Hf.
    + rewrite Rmax_left in * by lra.
      set (p1 := add_time d p).
      assert (HI1 : Inv k p1).
      { unfold p1, add_time. pose proof (Inv_interp k p (interpolator (pf p) + d * speed (pf p))%R HI) as H.
        exact H. }
      assert (E1 : interpolator (pf p1) = (interpolator (pf p) + s * d)%R).
      { unfold p1, add_time. pcbn. rewrite (Inv_speed k p HI). lra. }
      assert (Hp1 : (0 <= interpolator (pf p1))%R).
      { rewrite E1. pose proof (Rmult_le_pos s d Hs ltac:(lra)). lra. }
      destruct (nat_floor _ Hp1) as [m Hm].
      destruct (forward_loop_steps Inv Inv_step m k p1 (Datatypes.S m) HI1 Hm ltac:(lia)) as (p2 & E2 & HI2 & Ei2 & Es2).
      assert (Hmn : (m <= n)%nat).
      { destruct (Nat.le_gt_cases m n) as [|Hgt]; [assumption|exfalso].
        apply (le_INR (Datatypes.S n) m) in Hgt. rewrite S_INR in Hgt.
        pose proof (Rmult_le_pos s _ Hs (elapsed_nonneg ds)). rewrite E1 in Hm. lra. }
      destruct (IH (k + m)%nat p2 (n - m)%nat HI2) as (N & p' & E & R1 & R2).
      * rewrite Ei2. lra.
      * rewrite Ei2, E1. rewrite minus_INR by lia. lra.
      * exists (Nat.max (Datatypes.S m) N), p'. split; [|split].
        -- intros fuel Hf. cbn [run step].
           rewrite update_forward; [|exact (Inv_playing k p HI)|exact Hd|rewrite (Inv_speed k p HI); exact Hs].
           destruct (forward_loop_steps Inv Inv_step m k p1 fuel HI1 Hm ltac:(lia)) as (p2' & E2' & _).
           fold p1. rewrite E2'. 
           assert (p2' = p2) as ->; [|apply E; lia].
           clear - E2 E2' Hf.
           assert (Hmono : forall f1 f2 p q, forward_loop RScalar f1 p = Done q -> (f1 <= f2)%nat -> forward_loop RScalar f2 p = Done q).
           { clear. induction f1 as [|f1 IH]; intros f2 p q; [discriminate|].
             destruct f2 as [|f2]; [lia|]. cbn [forward_loop]. destruct (sle _ _ _); [|auto].
             destruct (post_next_frame _ _); [|discriminate]. intros H Hle. apply (IH f2 _ _ H). lia. }
           specialize (Hmono _ fuel _ _ E2 ltac:(lia)). congruence.
        -- replace (k + n)%nat with (k + m + (n - m))%nat by lia. exact R1.
        -- rewrite R2, Ei2, E1, minus_INR by lia. lra.
Qed.
End Endless.

(** State right after Play, for forward speed. *)
Lemma play_plain a b s l (p0 : pb) : 0 <= a < size_max -> 0 <= b < size_max ->
  play RScalar a b s l p0 =
  post_next_frame RScalar (@mkPlayback RScalar (@mkFields RScalar a b a (nextFrame (pf p0)) 0%R s) Playing l (pre_log p0)).
Proof.
  intros Ha Hb. unfold play. rewrite !wrap_small by assumption.
  replace (nextFrame (pf p0)) with (nextFrame (pf (stop RScalar p0))); [reflexivity|].
  unfold stop; destruct (pst p0); reflexivity.
Qed.

Lemma loop_play p0 a b s : 0 <= a < size_max -> 0 <= b < size_max -> (0 <= s)%R ->
  exists p, play RScalar a b s LLoop p0 = Some p /\ LoopInv p0 a b s 0 p /\ interpolator (pf p) = 0%R.
Proof.
  intros Ha Hb Hs. rewrite play_plain by assumption.
  eexists; split; [reflexivity|].
  unfold has_end_reached, set_next_frame, set_next_frame_to, are_frames_chrono. pcbn.
  unfold is_forward; pcbn. cbn [sle RScalar s0]. rewrite (Hsp_b s Hs).
  pose proof (loop_next_ok a b 0 Ha Hb) as Hn. cbn zeta in Hn.
  assert (E0 : loop_frame a b 0 = a).
  { unfold loop_frame, frame_at. rewrite Z.mod_0_l by (unfold span; lia). zb; lia. }
  rewrite E0 in Hn.
  destruct (if a <=? b then b <=? a else a <=? b); pcbn; rewrite ?(Hsp_b s Hs); pcbn;
    (split; [|reflexivity]); constructor; pcbn; rewrite ?(Hsp_b s Hs); pcbn; unfold nexts; cbn [seq map]; change (Z.of_nat 0) with 0;
    rewrite ?E0; auto.
Qed.

Lemma loop_run p0 a b s ds n : 0 <= a < size_max -> 0 <= b < size_max -> (0 <= s)%R ->
  (INR n <= s * elapsed ds < INR n + 1)%R ->
  exists N p', (forall fuel, (N <= fuel)%nat -> run RScalar fuel p0 (OpPlay a b s LLoop :: updates ds) = Done p')
    /\ LoopInv p0 a b s n p' /\ interpolator (pf p') = (s * elapsed ds - INR n)%R.
Proof.
  intros Ha Hb Hs Hn. destruct (loop_play p0 a b s Ha Hb Hs) as (p & E & HI & Hi).
  destruct (endless_updates s Hs (LoopInv p0 a b s) (loop_step p0 a b s Ha Hb Hs)
     (fun k p H => li_st _ _ _ _ _ _ H) (fun k p H => li_speed _ _ _ _ _ _ H)) with (ds := ds) (k := 0%nat) (p := p) (n := n)
     as (N & p' & E' & R1 & R2); auto.
  - intros k q x [H1 H2 H3 H4 H5 H6 H7 H8]. constructor; pcbn; assumption.
  - rewrite Hi; lra.
  - rewrite Hi; lra.
  - exists N, p'. split; [|split; [exact R1|rewrite R2, Hi; lra]].
    intros fuel Hf. cbn [run step]. rewrite E. cbn [lift]. apply E', Hf.
Qed.

(** *** Fuel *)
Lemma forward_loop_mono (S : scalar) : forall f1 f2 p q,
  forward_loop S f1 p = Done q -> (f1 <= f2)%nat -> forward_loop S f2 p = Done q.
Proof.
  induction f1 as [|f1 IH]; intros f2 p q; [discriminate|].
  destruct f2 as [|f2]; [lia|]. cbn [forward_loop]. destruct (sle _ _ _); [|auto].
  destruct (post_next_frame _ _); [|discriminate]. intros H Hle. apply (IH f2 _ _ H). lia.
Qed.

Lemma backward_loop_mono (S : scalar) : forall f1 f2 p q,
  backward_loop S f1 p = Done q -> (f1 <= f2)%nat -> backward_loop S f2 p = Done q.
Proof.
  induction f1 as [|f1 IH]; intros f2 p q; [discriminate|].
  destruct f2 as [|f2]; [lia|]. cbn [backward_loop]. destruct (sle _ _ _); [|auto].
  destruct (post_next_frame _ _); [|discriminate]. intros H Hle. apply (IH f2 _ _ H). lia.
Qed.

(** *** Ping-pong *)
Record PPInv (p0 : pb) (a b : Z) (s : R) (k : nat) (p : pb) : Prop := mkPPInv {
  pi_lst : plst p = LPingPong;
  pi_st : pst p = Playing;
  pi_first : firstFrame (pf p) = if Z.of_nat k mod (2 * span a b) <? span a b then a else b;
  pi_last : lastFrame (pf p) = if Z.of_nat k mod (2 * span a b) <? span a b then b else a;
  pi_frame : frame (pf p) = pingpong_frame a b (Z.of_nat k);
  pi_next : nextFrame (pf p) = pingpong_frame a b (Z.of_nat k + 1);
  pi_speed : speed (pf p) = s;
  pi_log : plog p = pre_log p0 ++ nexts (pingpong_frame a b) k
}.

Lemma pingpong_next_ok a b k : 0 <= a < size_max -> 0 <= b < size_max -> a <> b ->
  let n := span a b in
  let up j := j mod (2 * n) <? n in
  let x := if up k then a else b in
  let y := if up k then b else a in
  let f := pingpong_frame a b (k + 1) in
  let x' := if end_fwd x y f then y else x in
  let y' := if end_fwd x y f then x else y in
  x' = (if up (k + 1) then a else b) /\ y' = (if up (k + 1) then b else a) /\
  succ_fwd x' y' f = pingpong_frame a b (k + 1 + 1).
Proof.
  intros Ha Hb Hab. cbn zeta. unfold pingpong_frame, triangle_wave. cbn zeta.
  rewrite (Zsucc_mod (k + 1)), (Zsucc_mod k) by (unfold span; lia).
  pose proof (Z.mod_pos_bound k (2 * span a b) ltac:(unfold span; lia)) as Hm.
  set (r := k mod (2 * span a b)) in *. clearbody r.
  unfold frame_at, end_fwd, succ_fwd.
  assert (Hsp : span a b = if a <=? b then b - a else a - b) by (unfold span; zb; lia).
  rewrite Hsp in *. clear Hsp.
  destruct (Z.leb_spec a b) as [Lab|Lab].
  - destruct (Z.eqb_spec r (2 * (b - a) - 1)) as [E1|E1].
    + subst r. destruct (Z.ltb_spec (2 * (b - a) - 1) (b - a)); [lia|].
      destruct (Z.leb_spec b a); [lia|]. destruct (Z.leb_spec 0 (b - a)); [|lia].
      destruct (Z.leb_spec (a + 0) a); [|lia]. destruct (Z.leb_spec a b); [|lia].
      destruct (Z.ltb_spec 0 (b - a)); [|lia]. destruct (Z.eqb_spec 0 (2 * (b - a) - 1)); [lia|].
      destruct (Z.leb_spec (0 + 1) (b - a)); [|lia]. repeat split; try reflexivity. rewrite wrap_small; lia.
    + destruct (Z.eqb_spec (r + 1) (2 * (b - a) - 1)) as [E2|E2];
      destruct (Z.ltb_spec r (b - a)); destruct (Z.leb_spec (r + 1) (b - a)); try lia;
      destruct (Z.leb_spec a b); try lia; destruct (Z.leb_spec b a); try lia; zb; try lia;
      destruct (Z.ltb_spec (r + 1) (b - a)); try lia; repeat split; try reflexivity; rewrite wrap_small; lia.
  - destruct (Z.eqb_spec r (2 * (a - b) - 1)) as [E1|E1].
    + subst r. destruct (Z.ltb_spec (2 * (a - b) - 1) (a - b)); [lia|].
      destruct (Z.leb_spec b a); [|lia]. destruct (Z.leb_spec 0 (a - b)); [|lia].
      destruct (Z.leb_spec a (a - 0)); [|lia]. destruct (Z.leb_spec a b); [lia|].
      destruct (Z.ltb_spec 0 (a - b)); [|lia]. destruct (Z.eqb_spec 0 (2 * (a - b) - 1)); [lia|].
      destruct (Z.leb_spec (0 + 1) (a - b)); [|lia]. repeat split; try reflexivity. rewrite wrap_small; lia.
    + destruct (Z.eqb_spec (r + 1) (2 * (a - b) - 1)) as [E2|E2];
      destruct (Z.ltb_spec r (a - b)); destruct (Z.leb_spec (r + 1) (a - b)); try lia;
      destruct (Z.leb_spec a b); try lia; destruct (Z.leb_spec b a); try lia; zb; try lia;
      destruct (Z.ltb_spec (r + 1) (a - b)); try lia; repeat split; try reflexivity; rewrite wrap_small; lia.
Qed.

Lemma pingpong_step p0 a b s : 0 <= a < size_max -> 0 <= b < size_max -> a <> b -> (0 <= s)%R ->
  forall k p, PPInv p0 a b s k p ->
  exists p', post_next_frame RScalar (advance p) = Some p' /\ PPInv p0 a b s (Datatypes.S k) p'
             /\ interpolator (pf p') = (interpolator (pf p) - 1)%R /\ speed (pf p') = speed (pf p).
Proof.
  intros Ha Hb Hab Hs k p [Hl Hst Hf Hla Hfr Hn Hsp Hlog].
  destruct p as [[ff lf fr nf it sp] st l lg]. pcbn; subst.
  eexists; split; [apply plain_pingpong, Hs|]. cbn zeta. pcbn.
  split; [|split; reflexivity].
  destruct (pingpong_next_ok a b (Z.of_nat k) Ha Hb Hab) as (E1 & E2 & E3).
  constructor; pcbn; try reflexivity; rewrite ?Nat2Z.inj_succ; unfold Z.succ; auto.
  rewrite nexts_S, app_assoc. do 3 f_equal. f_equal; lia.
Qed.

Lemma pingpong_play p0 a b s : 0 <= a < size_max -> 0 <= b < size_max -> a <> b -> (0 <= s)%R ->
  exists p, play RScalar a b s LPingPong p0 = Some p /\ PPInv p0 a b s 0 p /\ interpolator (pf p) = 0%R.
Proof.
  intros Ha Hb Hab Hs. rewrite play_plain by assumption.
  eexists; split; [reflexivity|].
  unfold has_end_reached, set_next_frame, set_next_frame_to, are_frames_chrono. pcbn.
  unfold is_forward; pcbn. cbn [sle RScalar s0]. rewrite (Hsp_b s Hs).
  assert (Hnpos : 0 < span a b) by (unfold span; lia).
  assert (E0 : pingpong_frame a b 0 = a).
  { unfold pingpong_frame, triangle_wave, frame_at. cbn zeta. rewrite Z.mod_0_l by lia. zb; lia. }
  assert (E1 : pingpong_frame a b (0 + 1) = if a <=? b then wrap (a + 1) else wrap (a - 1)).
  { unfold pingpong_frame, triangle_wave, frame_at. cbn zeta. rewrite Z.mod_small by lia.
    destruct (Z.leb_spec (0 + 1) (span a b)); [|lia]. destruct (Z.leb_spec a b); rewrite wrap_small; lia. }
  replace (if a <=? b then b <=? a else a <=? b) with false by (zb; lia).
  pcbn. rewrite (Hsp_b s Hs). pcbn. split; [|reflexivity].
  constructor; pcbn; rewrite ?(Hsp_b s Hs); pcbn; unfold nexts; cbn [seq map]; change (Z.of_nat 0) with 0;
    rewrite ?Z.mod_0_l, ?E0 by lia; auto;
    destruct (Z.ltb_spec 0 (span a b)); [reflexivity|lia|reflexivity|lia].
Qed.

Lemma pingpong_run p0 a b s ds n : 0 <= a < size_max -> 0 <= b < size_max -> a <> b -> (0 <= s)%R ->
  (INR n <= s * elapsed ds < INR n + 1)%R ->
  exists N p', (forall fuel, (N <= fuel)%nat -> run RScalar fuel p0 (OpPlay a b s LPingPong :: updates ds) = Done p')
    /\ PPInv p0 a b s n p' /\ interpolator (pf p') = (s * elapsed ds - INR n)%R.
Proof.
  intros Ha Hb Hab Hs Hn. destruct (pingpong_play p0 a b s Ha Hb Hab Hs) as (p & E & HI & Hi).
  destruct (endless_updates s Hs (PPInv p0 a b s) (pingpong_step p0 a b s Ha Hb Hab Hs)
     (fun k p H => pi_st _ _ _ _ _ _ H) (fun k p H => pi_speed _ _ _ _ _ _ H)) with (ds := ds) (k := 0%nat) (p := p) (n := n)
     as (N & p' & E' & R1 & R2); auto.
  - intros k q x [H1 H2 H3 H4 H5 H6 H7 H8]. constructor; pcbn; assumption.
  - rewrite Hi; lra.
  - rewrite Hi; lra.
  - exists N, p'. split; [|split; [exact R1|rewrite R2, Hi; lra]].
    intros fuel Hf. cbn [run step]. rewrite E. cbn [lift]. apply E', Hf.
Qed.

(** *** One-shot *)
Record OSInv (p0 : pb) (a b : Z) (s : R) (k : nat) (p : pb) : Prop := mkOSInv {
  oi_lst : plst p = LOneShot;
  oi_first : firstFrame (pf p) = a;
  oi_last : lastFrame (pf p) = b;
  oi_speed : speed (pf p) = s;
  oi_st : pst p = if Z.of_nat k <? span a b then Playing else Stopped;
  oi_frame : frame (pf p) = oneshot_frame a b (Z.of_nat k);
  oi_next : nextFrame (pf p) = oneshot_frame a b (Z.of_nat k + 1);
  oi_log : plog p = pre_log p0 ++
     (if Z.of_nat k <? span a b then nexts (frame_at a b) k
      else nexts (frame_at a b) (Z.to_nat (span a b)) ++ EvStop :: repeat (EvNext b) (k - Z.to_nat (span a b)))
}.

Lemma frame_at_span a b : frame_at a b (span a b) = b.
Proof. unfold frame_at, span; zb; lia. Qed.

Lemma repeat_snoc {A} (x : A) n : repeat x n ++ [x] = repeat x (Datatypes.S n).
Proof. induction n as [|n IH]; cbn; [reflexivity|]. rewrite IH. reflexivity. Qed.

Lemma oneshot_step p0 a b s : 0 <= a < size_max -> 0 <= b < size_max -> a <> b -> (0 <= s)%R ->
  forall k p, OSInv p0 a b s k p ->
  exists p', post_next_frame RScalar (advance p) = Some p' /\ OSInv p0 a b s (Datatypes.S k) p'
             /\ interpolator (pf p') = (interpolator (pf p) - 1)%R /\ speed (pf p') = speed (pf p).
Proof.
  intros Ha Hb Hab Hs k p [Hl Hf Hla Hsp Hst Hfr Hn Hlog].
  destruct p as [[ff lf fr nf it sp] st l lg]. pcbn; subst.
  eexists; split; [apply plain_oneshot, Hs|].
  assert (Hnpos : 0 < span a b) by (unfold span; lia).
  assert (Hend : end_fwd a b (oneshot_frame a b (Z.of_nat k + 1)) = negb (Z.of_nat k + 1 <? span a b)).
  { unfold end_fwd, oneshot_frame, frame_at.
    assert (Hspan : span a b = if a <=? b then b - a else a - b) by (unfold span; zb; lia).
    rewrite Hspan. destruct (Z.leb_spec a b); cbn;
    match goal with |- context [?x <? ?y] => destruct (Z.ltb_spec x y) end; cbn; zb; try reflexivity; lia. }
  rewrite Hend.
  destruct (Z.ltb_spec (Z.of_nat k + 1) (span a b)) as [Hlt|Hge]; cbn [negb].
  - destruct (Z.ltb_spec (Z.of_nat k) (span a b)); [|lia].
    pcbn. split; [|split; reflexivity].
    assert (Hltb : Z.of_nat (Datatypes.S k) <? span a b = true) by (apply Z.ltb_lt; lia).
    constructor; pcbn; rewrite ?Hltb; try reflexivity.
    + f_equal; lia.
    + unfold succ_fwd, oneshot_frame, frame_at, span in *. rewrite !Z.min_l by lia.
      destruct (Z.leb_spec a b); rewrite wrap_small; lia.
    + replace (oneshot_frame a b (Z.of_nat k + 1)) with (frame_at a b (Z.of_nat (Datatypes.S k)))
        by (unfold oneshot_frame; rewrite Z.min_l by lia; f_equal; lia).
      rewrite nexts_S, app_assoc. reflexivity.
  - assert (Hltb : Z.of_nat (Datatypes.S k) <? span a b = false) by (apply Z.ltb_ge; lia).
    assert (EF : oneshot_frame a b (Z.of_nat k + 1) = b)
      by (unfold oneshot_frame; rewrite Z.min_r by lia; apply frame_at_span).
    assert (EF2 : oneshot_frame a b (Z.of_nat (Datatypes.S k)) = b)
      by (unfold oneshot_frame; rewrite Z.min_r by lia; apply frame_at_span).
    assert (EF3 : oneshot_frame a b (Z.of_nat (Datatypes.S k) + 1) = b)
      by (unfold oneshot_frame; rewrite Z.min_r by lia; apply frame_at_span).
    rewrite EF.
    destruct (Z.ltb_spec (Z.of_nat k) (span a b)) as [Hk|Hk].
    + assert (Ek : Z.to_nat (span a b) = Datatypes.S k) by lia.
      unfold stop, set_state. pcbn. split; [|split; reflexivity].
      constructor; pcbn; rewrite ?Hltb, ?EF2, ?EF3; try reflexivity.
      rewrite Ek, Nat.sub_diag. cbn [repeat]. rewrite nexts_S, <- !app_assoc. cbn [app].
      replace (Z.of_nat (Datatypes.S k)) with (span a b) by lia. rewrite frame_at_span. reflexivity.
    + unfold stop. pcbn. split; [|split; reflexivity].
      constructor; pcbn; rewrite ?Hltb, ?EF2, ?EF3; try reflexivity.
      rewrite <- !app_assoc. cbn [app]. do 3 f_equal. rewrite repeat_snoc. f_equal. lia.
Qed.

Lemma stopped_updates (S : scalar) fuel (p : playback S) os :
  pst p <> Playing -> Forall (fun o => exists d, o = OpUpdate d) os -> run S fuel p os = Done p.
Proof.
  intros Hp; induction os as [|o os IH]; intros H; [reflexivity|].
  inversion H as [|? ? [d ->] H']; subst. cbn [run step]. rewrite update_not_playing by exact Hp. apply IH, H'.
Qed.

Lemma updates_Forall ds : Forall (fun o => exists d, o = @OpUpdate RScalar d) (updates ds).
Proof. induction ds; constructor; eauto. Qed.

Lemma oneshot_updates p0 a b s : 0 <= a < size_max -> 0 <= b < size_max -> a <> b -> (0 <= s)%R ->
  forall ds k p n, OSInv p0 a b s k p -> (Z.of_nat k < span a b) -> (0 <= interpolator (pf p) < 1)%R ->
  (INR n <= interpolator (pf p) + s * elapsed ds < INR n + 1)%R ->
  exists N p' j, (forall fuel, (N <= fuel)%nat -> run RScalar fuel p (updates ds) = Done p')
    /\ OSInv p0 a b s (k + j) p'
    /\ ((Z.of_nat (k + n) < span a b /\ j = n /\ interpolator (pf p') = (interpolator (pf p) + s * elapsed ds - INR n)%R)
        \/ (span a b <= Z.of_nat (k + n) /\ span a b <= Z.of_nat (k + j))).
Proof.
  intros Ha Hb Hab Hs.
  induction ds as [|d ds IH]; intros k p n HI Hk Hi Hn; cbn [elapsed updates map] in *.
  - exists 0%nat, p, 0%nat. cbn. rewrite Rmult_0_r, Rplus_0_r in *.
    assert (n = 0)%nat. { destruct n; [reflexivity|]. rewrite S_INR in Hn. pose proof (pos_INR n). lra. }
    subst. rewrite !Nat.add_0_r. split; [auto|]. split; [exact HI|]. left. cbn. repeat split; auto. lra.
  - destruct (Rle_or_lt d 0) as [Hd|Hd].
    + rewrite Rmax_right in * by lra. rewrite Rplus_0_l in *.
      destruct (IH k p n HI Hk Hi Hn) as (N & p' & j & E & R1 & R2). exists N, p', j. split; [|auto].
      intros fuel Hf. cbn [run step]. rewrite update_nonpos by (apply Rleb_true; exact Hd). apply E, Hf.
    + rewrite Rmax_left in * by lra.
      set (p1 := add_time d p).
      assert (HI1 : OSInv p0 a b s k p1) by (destruct HI; constructor; assumption).
      assert (E1 : interpolator (pf p1) = (interpolator (pf p) + s * d)%R).
      { unfold p1, add_time. pcbn. rewrite (oi_speed _ _ _ _ _ _ HI). lra. }
      assert (Hp1 : (0 <= interpolator (pf p1))%R).
      { rewrite E1. pose proof (Rmult_le_pos s d Hs ltac:(lra)). lra. }
      destruct (nat_floor _ Hp1) as [m Hm].
      destruct (forward_loop_steps _ (oneshot_step p0 a b s Ha Hb Hab Hs) m k p1 (Datatypes.S m) HI1 Hm ltac:(lia))
        as (p2 & E2 & HI2 & Ei2 & Es2).
      assert (Hmn : (m <= n)%nat).
      { destruct (Nat.le_gt_cases m n) as [|Hgt]; [assumption|exfalso].
        apply (le_INR (Datatypes.S n) m) in Hgt. rewrite S_INR in Hgt.
        pose proof (Rmult_le_pos s _ Hs (elapsed_nonneg ds)). rewrite E1 in Hm. lra. }
      assert (Hplay : pst p = Playing).
      { rewrite (oi_st _ _ _ _ _ _ HI). destruct (Z.ltb_spec (Z.of_nat k) (span a b)); [reflexivity|lia]. }
      assert (Hstep : forall fuel, (Datatypes.S m <= fuel)%nat -> update RScalar fuel d p = Done p2).
      { intros fuel Hf. rewrite update_forward; [|exact Hplay|exact Hd|rewrite (oi_speed _ _ _ _ _ _ HI); exact Hs].
        apply (forward_loop_mono _ _ _ _ _ E2 Hf). }
      destruct (Z.lt_ge_cases (Z.of_nat (k + m)) (span a b)) as [Hlt|Hge].
      * destruct (IH (k + m)%nat p2 (n - m)%nat HI2 Hlt) as (N & p' & j & E & R1 & R2).
        -- rewrite Ei2. lra.
        -- rewrite Ei2, E1. rewrite minus_INR by lia. lra.
        -- exists (Nat.max (Datatypes.S m) N), p', (m + j)%nat. split; [|split].
           ++ intros fuel Hf. cbn [run step]. rewrite Hstep by lia. apply E; lia.
           ++ rewrite Nat.add_assoc. exact R1.
           ++ replace (k + m + (n - m))%nat with (k + n)%nat in R2 by lia. rewrite Nat.add_assoc.
              destruct R2 as [(A & B & C)|R2]; [left|right; exact R2].
              repeat split; [exact A|lia|]. rewrite C, Ei2, E1, minus_INR by lia. lra.
      * exists (Datatypes.S m), p2, m. split; [|split; [exact HI2|right; lia]].
        intros fuel Hf. cbn [run step]. rewrite Hstep by lia. apply stopped_updates; [|apply updates_Forall].
        rewrite (oi_st _ _ _ _ _ _ HI2). destruct (Z.ltb_spec (Z.of_nat (k + m)) (span a b)); [lia|discriminate].
Qed.

Lemma oneshot_play p0 a b s : 0 <= a < size_max -> 0 <= b < size_max -> a <> b -> (0 <= s)%R ->
  exists p, play RScalar a b s LOneShot p0 = Some p /\ OSInv p0 a b s 0 p /\ interpolator (pf p) = 0%R.
Proof.
  intros Ha Hb Hab Hs. rewrite play_plain by assumption.
  eexists; split; [reflexivity|].
  unfold has_end_reached, set_next_frame, set_next_frame_to, are_frames_chrono. pcbn.
  unfold is_forward; pcbn. cbn [sle RScalar s0]. rewrite (Hsp_b s Hs).
  assert (Hnpos : 0 < span a b) by (unfold span; lia).
  replace (if a <=? b then b <=? a else a <=? b) with false by (zb; lia).
  pcbn. rewrite (Hsp_b s Hs). pcbn. split; [|reflexivity].
  assert (E0 : frame_at a b 0 = a) by (unfold frame_at; zb; lia).
  constructor; pcbn; rewrite ?(Hsp_b s Hs); pcbn; auto; change (Z.of_nat 0) with 0;
    try (destruct (Z.ltb_spec 0 (span a b)); [|lia]); unfold oneshot_frame; rewrite ?Z.min_l by lia; auto.
  - unfold frame_at; zb; rewrite wrap_small; lia.
  - unfold nexts; cbn [seq map]; change (Z.of_nat 0) with 0. rewrite E0; reflexivity.
Qed.
