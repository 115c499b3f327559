(** Backward playback, list loop, and the refutations. *)
From Coq Require Import ZArith Reals List Bool Lia Lra.
From Verif Require Import Model.Scalar Model.Playback Spec.PlaybackSpec Proofs.PlaybackLemmas Proofs.PlaybackMore.
Import ListNotations.
Open Scope Z_scope.

Definition retreat (p : pb) : pb :=
  with_pf RScalar (fun f => set_next RScalar (frame f)
            (set_interp RScalar (sadd RScalar (interpolator f) (s1 RScalar)) f)) p.

Section BackwardLoop.
Variable Inv : nat -> pb -> Prop.
Hypothesis Inv_step : forall k p, Inv k p ->
  exists p', post_next_frame RScalar (retreat p) = Some p' /\ Inv (Datatypes.S k) p'
             /\ interpolator (pf p') = (interpolator (pf p) + 1)%R /\ speed (pf p') = speed (pf p).

(** [n] steps bring the interpolator into (0, 1]. *)
Lemma backward_loop_steps : forall n k p fuel, Inv k p ->
  (- INR n < interpolator (pf p) <= - INR n + 1)%R -> (n < fuel)%nat ->
  exists p', backward_loop RScalar fuel p = Done p' /\ Inv (k + n) p'
             /\ interpolator (pf p') = (interpolator (pf p) + INR n)%R /\ speed (pf p') = speed (pf p).
Proof.
  induction n as [|n IH]; intros k p fuel HI Hn Hf.
  - destruct fuel as [|fuel]; [lia|]. cbn [backward_loop]. exists p.
    replace (sle RScalar (interpolator (pf p)) (s0 RScalar)) with false.
    + rewrite Nat.add_0_r. cbn in *. repeat split; auto. lra.
    + symmetry; apply Rleb_false. cbn in *. lra.
  - destruct fuel as [|fuel]; [lia|]. cbn [backward_loop].
    rewrite S_INR in Hn. pose proof (pos_INR n) as Hp.
    replace (sle RScalar (interpolator (pf p)) (s0 RScalar)) with true
      by (symmetry; apply Rleb_true; cbn; lra).
    destruct (Inv_step k p HI) as (p1 & E1 & HI1 & Ei & Es).
    fold (retreat p). rewrite E1.
    destruct (IH (Datatypes.S k) p1 fuel HI1) as (p2 & E2 & HI2 & Ei2 & Es2).
    + rewrite Ei; lra.
    + lia.
    + exists p2. split; [exact E2|]. split; [replace (k + Datatypes.S n)%nat with (Datatypes.S k + n)%nat by lia; exact HI2|].
      split; [rewrite Ei2, Ei, S_INR; lra|congruence].
Qed.
End BackwardLoop.

Section EndlessBack.
Variable s : R.
Hypothesis Hs : (s < 0)%R.
Variable Inv : nat -> pb -> Prop.
Hypothesis Inv_step : forall k p, Inv k p ->
  exists p', post_next_frame RScalar (retreat p) = Some p' /\ Inv (Datatypes.S k) p'
             /\ interpolator (pf p') = (interpolator (pf p) + 1)%R /\ speed (pf p') = speed (pf p).
Hypothesis Inv_playing : forall k p, Inv k p -> pst p = Playing.
Hypothesis Inv_speed : forall k p, Inv k p -> speed (pf p) = s.
Hypothesis Inv_interp : forall k p x, Inv k p -> Inv k (with_pf RScalar (set_interp RScalar x) p).

(** The number of steps is the least [n] with interpolator + n > 0. *)
Lemma endless_back_updates : forall ds k p n, Inv k p -> (0 < interpolator (pf p) <= 1)%R ->
  (- INR n < interpolator (pf p) + s * elapsed ds <= - INR n + 1)%R ->
  exists N p', (forall fuel, (N <= fuel)%nat -> run RScalar fuel p (updates ds) = Done p')
    /\ Inv (k + n) p' /\ interpolator (pf p') = (interpolator (pf p) + s * elapsed ds + INR n)%R.
Proof.
  induction ds as [|d ds IH]; intros k p n HI Hi Hn; cbn [elapsed updates map] in *.
  - exists 0%nat, p. cbn. rewrite Rmult_0_r, Rplus_0_r in *.
    assert (n = 0)%nat. { destruct n; [reflexivity|]. rewrite S_INR in Hn. pose proof (pos_INR n). lra. }
    subst. rewrite Nat.add_0_r. repeat split; auto. cbn. lra.
  - destruct (Rle_or_lt d 0) as [Hd|Hd].
    + rewrite Rmax_right in * by lra. rewrite Rplus_0_l in *.
      destruct (IH k p n HI Hi Hn) as (N & p' & E & R1 & R2). exists N, p'. split; [|auto].
      intros fuel Hf. cbn [run step]. rewrite update_nonpos by (apply Rleb_true; exact Hd). apply E, Hf.
    + rewrite Rmax_left in * by lra.
      set (p1 := add_time d p).
      assert (HI1 : Inv k p1) by exact (Inv_interp k p (interpolator (pf p) + d * speed (pf p))%R HI).
      assert (E1 : interpolator (pf p1) = (interpolator (pf p) + s * d)%R).
      { unfold p1, add_time. pcbn. rewrite (Inv_speed k p HI). lra. }
      assert (Hsd : (s * d < 0)%R) by (pose proof (Rmult_lt_0_compat (- s) d ltac:(lra) Hd); lra).
      assert (Hse : (s * elapsed ds <= 0)%R) by (pose proof (Rmult_le_pos (- s) _ ltac:(lra) (elapsed_nonneg ds)); lra).
      destruct (nat_floor (1 - interpolator (pf p1))) as [m Hm]; [rewrite E1; lra|].
      assert (Hm' : (- INR m < interpolator (pf p1) <= - INR m + 1)%R) by lra.
      destruct (backward_loop_steps Inv Inv_step m k p1 (Datatypes.S m) HI1 Hm' ltac:(lia)) as (p2 & E2 & HI2 & Ei2 & Es2).
      assert (Hmn : (m <= n)%nat).
      { destruct (Nat.le_gt_cases m n) as [|Hgt]; [assumption|exfalso].
        apply (le_INR (Datatypes.S n) m) in Hgt. rewrite S_INR in Hgt. rewrite E1 in *. lra. }
      destruct (IH (k + m)%nat p2 (n - m)%nat HI2) as (N & p' & E & R1 & R2).
      * rewrite Ei2. lra.
      * rewrite Ei2, E1. rewrite minus_INR by lia. lra.
      * exists (Nat.max (Datatypes.S m) N), p'. split; [|split].
        -- intros fuel Hf. cbn [run step].
           rewrite update_backward; [|exact (Inv_playing k p HI)|exact Hd|rewrite (Inv_speed k p HI); exact Hs].
           fold p1. rewrite (backward_loop_mono _ _ fuel _ _ E2) by lia. apply E; lia.
        -- replace (k + n)%nat with (k + m + (n - m))%nat by lia. exact R1.
        -- rewrite R2, Ei2, E1, minus_INR by lia. lra.
Qed.
End EndlessBack.

(** *** Loop backward *)
Definition end_bwd (a b f : Z) : bool := if a <=? b then f <=? a else a <=? f.
Definition pred_bwd (a b f : Z) : Z := if a <=? b then wrap (f - 1) else wrap (f + 1).

Section PlainB.
Variables (a b fr nf : Z) (it sp : R) (st : pstate) (lg : list event).
Hypothesis Hsp : (sp < 0)%R.
Lemma Hspb_b : Rleb 0 sp = false. Proof. apply Rleb_false, Hsp. Qed.
Let plain l : pb := @mkPlayback RScalar (@mkFields RScalar a b fr nf it sp) st l lg.

Lemma plainb_loop : post_next_frame RScalar (retreat (plain LLoop)) =
  Some (@mkPlayback RScalar (@mkFields RScalar a b (if end_bwd a b fr then b else pred_bwd a b fr) fr (it + 1)%R sp)
         st LLoop (lg ++ [EvNext fr])).
Proof.
  unfold plain; cbv [post_next_frame retreat with_pf pf set_interp frame post plst plog pst firstFrame lastFrame nextFrame
       interpolator speed has_end_reached is_forward are_frames_chrono set_next_frame set_next_frame_to set_next set_frame
       set_first set_last with_lst end_bwd pred_bwd].
  cbn [sle RScalar s0 sadd s1]. rewrite Hspb_b.
  destruct (a <=? b); [destruct (fr <=? a)|destruct (a <=? fr)];
  cbn [plst pf pst plog firstFrame lastFrame frame nextFrame interpolator speed]; rewrite ?Hspb_b; reflexivity.
Qed.
End PlainB.

(** Going through the range from [last] to [first]. *)
Record LoopBInv (p0 : pb) (a b : Z) (s : R) (k : nat) (p : pb) : Prop := mkLoopBInv {
  lb_lst : plst p = LLoop;
  lb_st : pst p = Playing;
  lb_first : firstFrame (pf p) = a;
  lb_last : lastFrame (pf p) = b;
  lb_frame : frame (pf p) = loop_frame b a (Z.of_nat k);
  lb_next : (k <> 0)%nat -> nextFrame (pf p) = loop_frame b a (Z.of_nat k - 1);
  lb_speed : speed (pf p) = s;
  lb_log : plog p = pre_log p0 ++ [EvNext a] ++ map (fun i => EvNext (loop_frame b a (Z.of_nat i))) (seq 0 k)
}.

Lemma loop_prev_ok a b k : 0 <= a < size_max -> 0 <= b < size_max ->
  (let f := loop_frame b a k in if end_bwd a b f then b else pred_bwd a b f) = loop_frame b a (k + 1).
Proof.
  intros Ha Hb. unfold loop_frame. rewrite Zsucc_mod by (unfold span; lia).
  pose proof (Z.mod_pos_bound k (span b a + 1) ltac:(unfold span; lia)) as Hm.
  set (r := k mod (span b a + 1)) in *. unfold frame_at, span, end_bwd, pred_bwd in *. cbn zeta.
  unfold size_max in *.
  zb; try lia; rewrite wrap_small; unfold size_max; lia.
Qed.

Lemma loopb_step p0 a b s : 0 <= a < size_max -> 0 <= b < size_max -> (s < 0)%R ->
  forall k p, LoopBInv p0 a b s k p ->
  exists p', post_next_frame RScalar (retreat p) = Some p' /\ LoopBInv p0 a b s (Datatypes.S k) p'
             /\ interpolator (pf p') = (interpolator (pf p) + 1)%R /\ speed (pf p') = speed (pf p).
Proof.
  intros Ha Hb Hs k p [Hl Hst Hf Hla Hfr Hn Hsp Hlog].
  destruct p as [[ff lf fr nf it sp] st l lg]. pcbn; subst.
  eexists; split; [apply plainb_loop, Hs|]. pcbn.
  split; [|split; reflexivity].
  constructor; pcbn; try reflexivity.
  - pose proof (loop_prev_ok a b (Z.of_nat k) Ha Hb) as X; cbn zeta in X. rewrite X. f_equal; lia.
  - intros _. f_equal. lia.
  - rewrite seq_S, map_app. cbn [map app Nat.add]. rewrite <- !app_assoc. reflexivity.
Qed.

Lemma loopb_play p0 a b s : 0 <= a < size_max -> 0 <= b < size_max -> (s < 0)%R ->
  exists p, play RScalar a b s LLoop p0 = Some p /\ LoopBInv p0 a b s 0 p /\ interpolator (pf p) = 0%R.
Proof.
  intros Ha Hb Hs. rewrite play_plain by assumption.
  unfold post_next_frame. cbn [plst post pf frame].
  eexists; split; [reflexivity|].
  unfold has_end_reached, set_next_frame, set_next_frame_to, are_frames_chrono. pcbn.
  unfold is_forward; pcbn. cbn [sle RScalar s0]. rewrite (Hspb_b s Hs).
  replace (if a <=? b then a <=? a else a <=? a) with true by (zb; lia).
  pcbn; rewrite ?(Hspb_b s Hs); pcbn. split; [|reflexivity].
  constructor; pcbn; rewrite ?(Hspb_b s Hs); pcbn; auto; try congruence.
  change (Z.of_nat 0) with 0. unfold loop_frame, frame_at. rewrite Z.mod_0_l by (unfold span; lia). zb; lia.
Qed.

(** For positive elapsed time the number of steps is one more than the whole frames passed. *)
Lemma loopb_run p0 a b s ds n : 0 <= a < size_max -> 0 <= b < size_max -> (s < 0)%R ->
  (0 < elapsed ds)%R -> (INR n <= - s * elapsed ds < INR n + 1)%R ->
  exists N p', (forall fuel, (N <= fuel)%nat -> run RScalar fuel p0 (OpPlay a b s LLoop :: updates ds) = Done p')
    /\ LoopBInv p0 a b s (Datatypes.S n) p' /\ interpolator (pf p') = (1 - (- s * elapsed ds - INR n))%R.
Proof.
  intros Ha Hb Hs Hel Hn. destruct (loopb_play p0 a b s Ha Hb Hs) as (p & E & HI & Hi).
  assert (Hstep := loopb_step p0 a b s Ha Hb Hs).
  assert (Hmain : forall ds n, (0 < elapsed ds)%R -> (INR n <= - s * elapsed ds < INR n + 1)%R ->
    exists N p', (forall fuel, (N <= fuel)%nat -> run RScalar fuel p (updates ds) = Done p')
    /\ LoopBInv p0 a b s (Datatypes.S n) p' /\ interpolator (pf p') = (1 - (- s * elapsed ds - INR n))%R).
  { clear ds n Hel Hn. induction ds as [|d ds IH]; intros n Hel Hn; cbn [elapsed] in *; [lra|].
    destruct (Rle_or_lt d 0) as [Hd|Hd].
    - rewrite Rmax_right in * by lra. rewrite Rplus_0_l in *.
      destruct (IH n Hel Hn) as (N & p' & E' & R1 & R2). exists N, p'. split; [|auto].
      intros fuel Hf. cbn [updates map run step]. rewrite update_nonpos by (apply Rleb_true; exact Hd). apply E', Hf.
    - rewrite Rmax_left in * by lra.
      set (p1 := add_time d p).
      assert (HI1 : LoopBInv p0 a b s 0 p1) by (destruct HI; constructor; assumption).
      assert (E1 : interpolator (pf p1) = (s * d)%R).
      { unfold p1, add_time. pcbn. rewrite (lb_speed _ _ _ _ _ _ HI), Hi. lra. }
      assert (Hsd : (s * d < 0)%R) by (pose proof (Rmult_lt_0_compat (- s) d ltac:(lra) Hd); lra).
      assert (Hse : (s * elapsed ds <= 0)%R) by (pose proof (Rmult_le_pos (- s) _ ltac:(lra) (elapsed_nonneg ds)); lra).
      destruct (nat_floor (1 - interpolator (pf p1))) as [m Hm]; [rewrite E1; lra|].
      assert (Hm' : (- INR m < interpolator (pf p1) <= - INR m + 1)%R) by lra.
      destruct (backward_loop_steps _ Hstep m 0 p1 (Datatypes.S m) HI1 Hm' ltac:(lia)) as (p2 & E2 & HI2 & Ei2 & Es2).
      assert (Hmn : (m <= Datatypes.S n)%nat).
      { destruct (Nat.le_gt_cases m (Datatypes.S n)) as [|Hgt]; [assumption|exfalso].
        apply (le_INR (Datatypes.S (Datatypes.S n)) m) in Hgt. rewrite !S_INR in Hgt. rewrite E1 in *. lra. }
      destruct (endless_back_updates s Hs (LoopBInv p0 a b s) Hstep
         (fun k p H => lb_st _ _ _ _ _ _ H) (fun k p H => lb_speed _ _ _ _ _ _ H))
         with (ds := ds) (k := (0 + m)%nat) (p := p2) (n := (Datatypes.S n - m)%nat) as (N & p' & E' & R1 & R2); auto.
      + intros k q x [H1 H2 H3 H4 H5 H6 H7 H8]. constructor; pcbn; assumption.
      + rewrite Ei2. lra.
      + rewrite Ei2, E1, minus_INR, S_INR by lia. lra.
      + exists (Nat.max (Datatypes.S m) N), p'. split; [|split].
        * intros fuel Hf. cbn [updates map run step].
          rewrite update_backward; [|exact (lb_st _ _ _ _ _ _ HI)|exact Hd|rewrite (lb_speed _ _ _ _ _ _ HI); exact Hs].
          fold p1. rewrite (backward_loop_mono _ _ fuel _ _ E2) by lia. apply E'; lia.
        * replace (0 + m + (Datatypes.S n - m))%nat with (Datatypes.S n) in R1 by lia. exact R1.
        * rewrite R2, Ei2, E1, minus_INR, S_INR by lia. lra. }
  destruct (Hmain ds n Hel Hn) as (N & p' & E' & R1 & R2). exists N, p'. split; [|auto].
  intros fuel Hf. cbn [run step]. rewrite E. cbn [lift]. apply E', Hf.
Qed.

(** *** One-shot backward: stops at once *)
Lemma oneshot_backward_stops p0 a b s : 0 <= a < size_max -> 0 <= b < size_max -> (s < 0)%R ->
  exists p, play RScalar a b s LOneShot p0 = Some p /\ pst p = Stopped /\ frame (pf p) = a
    /\ nextFrame (pf p) = nextFrame (pf p0).
Proof.
  intros Ha Hb Hs. rewrite play_plain by assumption.
  eexists; split; [reflexivity|].
  unfold has_end_reached, are_frames_chrono. cbn [post pf firstFrame lastFrame frame].
  rewrite is_forward_false by exact Hs.
  replace (if a <=? b then a <=? a else a <=? a) with true by (zb; lia).
  cbn. auto.
Qed.

(** *** List loop *)
Record ListInv (p0 : pb) (a b : Z) (s : R) (fs : list Z) (k : nat) (p : pb) : Prop := mkListInv {
  ll_lst : plst p = LList fs ((Z.of_nat k + 1) mod Z.of_nat (length fs));
  ll_st : pst p = Playing;
  ll_frame : frame (pf p) = if (k =? 0)%nat then a else nth (k mod length fs) fs 0;
  ll_next : nextFrame (pf p) = nth (Datatypes.S k mod length fs) fs 0;
  ll_speed : speed (pf p) = s;
}.

Lemma list_next_fwd fs k : (2 <= length fs)%nat ->
  list_loop_next true fs (Z.of_nat k mod Z.of_nat (length fs)) =
  Some ((Z.of_nat k + 1) mod Z.of_nat (length fs), Some (nth (Datatypes.S k mod length fs) fs 0)).
Proof.
  intros Hl. unfold list_loop_next.
  destruct (Z.leb_spec 2 (Z.of_nat (length fs))); [|lia].
  assert (E : (if Z.of_nat (length fs) - 1 <=? Z.of_nat k mod Z.of_nat (length fs) then 0
     else Z.of_nat k mod Z.of_nat (length fs) + 1) = (Z.of_nat k + 1) mod Z.of_nat (length fs)).
  { rewrite Zsucc_mod by lia. pose proof (Z.mod_pos_bound (Z.of_nat k) (Z.of_nat (length fs)) ltac:(lia)).
    zb; lia. }
  rewrite E.
  assert (E2 : Z.to_nat ((Z.of_nat k + 1) mod Z.of_nat (length fs)) = (Datatypes.S k mod length fs)%nat).
  { replace (Z.of_nat k + 1) with (Z.of_nat (Datatypes.S k)) by lia. rewrite <- Nat2Z.inj_mod, Nat2Z.id. reflexivity. }
  rewrite E2. pose proof (Nat.mod_upper_bound (Datatypes.S k) (length fs) ltac:(lia)) as Hb.
  rewrite (nth_error_nth' fs 0 Hb). reflexivity.
Qed.

Lemma list_step p0 a b s fs : (2 <= length fs)%nat -> (0 <= s)%R ->
  forall k p, ListInv p0 a b s fs k p ->
  exists p', post_next_frame RScalar (advance p) = Some p' /\ ListInv p0 a b s fs (Datatypes.S k) p'
             /\ interpolator (pf p') = (interpolator (pf p) - 1)%R /\ speed (pf p') = speed (pf p).
Proof.
  intros Hl Hs k p [H1 H2 H3 H4 H5]. destruct p as [[ff lf fr nf it sp] st l lg]. pcbn; subst.
  unfold post_next_frame, advance. cbn [with_pf pf plst post set_frame set_interp nextFrame interpolator frame].
  rewrite is_forward_true by exact Hs.
  replace (Z.of_nat k + 1) with (Z.of_nat (Datatypes.S k)) by lia.
  rewrite list_next_fwd by exact Hl.
  eexists; split; [reflexivity|]. unfold set_next_frame_to. pcbn. rewrite is_forward_true by exact Hs. pcbn.
  split; [|split; reflexivity].
  constructor; pcbn; rewrite ?is_forward_true by exact Hs; reflexivity.
Qed.

Lemma list_play p0 a b s fs : 0 <= a < size_max -> 0 <= b < size_max -> (2 <= length fs)%nat -> (0 <= s)%R ->
  exists p, play RScalar a b s (LList fs 0) p0 = Some p /\ ListInv p0 a b s fs 0 p /\ interpolator (pf p) = 0%R.
Proof.
  intros Ha Hb Hl Hs. rewrite play_plain by assumption.
  unfold post_next_frame. cbn [with_pf pf plst post set_frame set_interp nextFrame interpolator frame].
  rewrite is_forward_true by exact Hs.
  pose proof (list_next_fwd fs 0 Hl) as E. change (Z.of_nat 0) with 0 in E. rewrite Z.mod_0_l in E by lia.
  rewrite E. eexists; split; [reflexivity|].
  unfold set_next_frame_to. pcbn. rewrite is_forward_true by exact Hs. pcbn.
  split; [|reflexivity]. constructor; pcbn; rewrite ?is_forward_true by exact Hs; reflexivity.
Qed.

Lemma list_run p0 a b s fs ds n : 0 <= a < size_max -> 0 <= b < size_max -> (2 <= length fs)%nat -> (0 <= s)%R ->
  (INR n <= s * elapsed ds < INR n + 1)%R ->
  exists N p', (forall fuel, (N <= fuel)%nat -> run RScalar fuel p0 (OpPlay a b s (LList fs 0) :: updates ds) = Done p')
    /\ ListInv p0 a b s fs n p' /\ interpolator (pf p') = (s * elapsed ds - INR n)%R.
Proof.
  intros Ha Hb Hl Hs Hn. destruct (list_play p0 a b s fs Ha Hb Hl Hs) as (p & E & HI & Hi).
  destruct (endless_updates s Hs (ListInv p0 a b s fs) (list_step p0 a b s fs Hl Hs)
     (fun k p H => ll_st _ _ _ _ _ _ _ H) (fun k p H => ll_speed _ _ _ _ _ _ _ H)) with (ds := ds) (k := 0%nat) (p := p) (n := n)
     as (N & p' & E' & R1 & R2); auto.
  - intros k q x [H1 H2 H3 H4 H5]. constructor; pcbn; assumption.
  - rewrite Hi; lra.
  - rewrite Hi; lra.
  - exists N, p'. split; [|split; [exact R1|rewrite R2, Hi; lra]].
    intros fuel Hf. cbn [run step]. rewrite E. cbn [lift]. apply E', Hf.
Qed.

(** *** Ping-pong on a single frame: runs away *)
Record PPRun (p0 : pb) (a : Z) (s : R) (k : nat) (p : pb) : Prop := mkPPRun {
  pr_lst : plst p = LPingPong; pr_st : pst p = Playing;
  pr_first : firstFrame (pf p) = a; pr_last : lastFrame (pf p) = a;
  pr_frame : frame (pf p) = wrap (a + Z.of_nat k);
  pr_next : nextFrame (pf p) = wrap (a + Z.of_nat k + 1);
  pr_speed : speed (pf p) = s }.

Lemma wrap_wrap_add x y : wrap (wrap x + y) = wrap (x + y).
Proof. unfold wrap. rewrite Zplus_mod_idemp_l. reflexivity. Qed.

Lemma pprun_step p0 a s : (0 <= s)%R ->
  forall k p, PPRun p0 a s k p ->
  exists p', post_next_frame RScalar (advance p) = Some p' /\ PPRun p0 a s (Datatypes.S k) p'
             /\ interpolator (pf p') = (interpolator (pf p) - 1)%R /\ speed (pf p') = speed (pf p).
Proof.
  intros Hs k p [H1 H2 H3 H4 H5 H6 H7]. destruct p as [[ff lf fr nf it sp] st l lg]. pcbn; subst.
  eexists; split; [apply plain_pingpong, Hs|]. cbn zeta. pcbn.
  split; [|split; reflexivity].
  replace (if end_fwd a a (wrap (a + Z.of_nat k + 1)) then a else a) with a by (destruct (end_fwd _ _ _); reflexivity).
  constructor; pcbn; try reflexivity.
  - f_equal; lia.
  - unfold succ_fwd. rewrite Z.leb_refl, wrap_wrap_add. f_equal; lia.
Qed.

Lemma pprun_run p0 a s ds n : 0 <= a < size_max -> (0 <= s)%R ->
  (INR n <= s * elapsed ds < INR n + 1)%R ->
  exists N p', (forall fuel, (N <= fuel)%nat -> run RScalar fuel p0 (OpPlay a a s LPingPong :: updates ds) = Done p')
    /\ PPRun p0 a s n p'.
Proof.
  intros Ha Hs Hn.
  assert (exists p, play RScalar a a s LPingPong p0 = Some p /\ PPRun p0 a s 0 p /\ interpolator (pf p) = 0%R) as (p & E & HI & Hi).
  { rewrite play_plain by assumption. eexists; split; [reflexivity|].
    unfold has_end_reached, set_next_frame, set_next_frame_to, are_frames_chrono. pcbn.
    unfold is_forward; pcbn. cbn [sle RScalar s0]. rewrite (Hsp_b s Hs). rewrite Z.leb_refl. pcbn.
    rewrite (Hsp_b s Hs). pcbn. split; [|reflexivity].
    constructor; pcbn; rewrite ?(Hsp_b s Hs); pcbn; auto; rewrite ?Z.leb_refl, ?Z.add_0_r; auto.
    rewrite wrap_small; auto. }
  destruct (endless_updates s Hs (PPRun p0 a s) (pprun_step p0 a s Hs)
     (fun k p H => pr_st _ _ _ _ _ H) (fun k p H => pr_speed _ _ _ _ _ H)) with (ds := ds) (k := 0%nat) (p := p) (n := n)
     as (N & p' & E' & R1 & R2); auto.
  - intros k q x [H1 H2 H3 H4 H5 H6 H7]. constructor; pcbn; assumption.
  - rewrite Hi; lra.
  - rewrite Hi; lra.
  - exists N, p'. split; [|exact R1].
    intros fuel Hf. cbn [run step]. rewrite E. cbn [lift]. apply E', Hf.
Qed.
