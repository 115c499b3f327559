(** Forward playback over any scalar type: the frames do not depend on the arithmetic. *)
From Coq Require Import ZArith Reals List Bool Lia Lra.
From Verif Require Import Model.Scalar Model.Playback Spec.PlaybackSpec Proofs.PlaybackLemmas.
Import ListNotations.
Open Scope Z_scope.

(** The state of a playback that has made [k] steps, up to its interpolator. *)
Record course (S : scalar) := mkCourse {
  c_lst : listener S;
  c_live : nat -> bool;
  c_first : nat -> Z;
  c_last : nat -> Z;
  c_frame : nat -> Z;
  c_next : nat -> Z;
  c_log : nat -> list event
}.
Arguments mkCourse {S}. Arguments c_lst {S}. Arguments c_live {S}. Arguments c_first {S}. Arguments c_last {S}.
Arguments c_frame {S}. Arguments c_next {S}. Arguments c_log {S}.

Section Any.
Variable S : scalar.
Variables (c : course S) (s : car S).

Definition after (k : nat) (x : car S) : playback S :=
  mkPlayback (mkFields (c_first c k) (c_last c k) (c_frame c k) (c_next c k) x s)
    (if c_live c k then Playing else Stopped) (c_lst c) (c_log c k).

Definition adv (p : playback S) : playback S :=
  with_pf S (fun f => set_frame S (nextFrame f) (set_interp S (ssub S (interpolator f) (s1 S)) f)) p.

(** One less, [n] times. *)
Fixpoint less (n : nat) (x : car S) : car S := match n with O => x | Datatypes.S n' => less n' (ssub S x (s1 S)) end.

Definition walks : Prop := forall k x, post_next_frame S (adv (after k x)) = Some (after (Datatypes.S k) (ssub S x (s1 S))).

Hypothesis Hs : sle S (s0 S) s = true.
Hypothesis Hw : walks.

Lemma any_loop : forall fuel k x p, forward_loop S fuel (after k x) = Done p -> exists n, p = after (k + n) (less n x).
Proof.
  induction fuel as [|fuel IH]; intros k x p; cbn [forward_loop]; [discriminate|].
  destruct (sle S (s1 S) _).
  - change (with_pf S _ (after k x)) with (adv (after k x)). rewrite Hw. intros H. destruct (IH _ _ _ H) as [n ->].
    exists (Datatypes.S n). rewrite Nat.add_succ_r. reflexivity.
  - intros H; injection H as <-. exists 0%nat. rewrite Nat.add_0_r. reflexivity.
Qed.

Lemma any_loop_safe : forall fuel k x, forward_loop S fuel (after k x) <> Undef.
Proof.
  induction fuel as [|fuel IH]; intros k x; cbn [forward_loop]; [discriminate|].
  destruct (sle S (s1 S) _); [|discriminate].
  change (with_pf S _ (after k x)) with (adv (after k x)). rewrite Hw. apply IH.
Qed.

Lemma any_update_eq fuel d k x : c_live c k = true -> sle S d (s0 S) = false ->
  update S fuel d (after k x) = forward_loop S fuel (after k (sadd S x (smul S d s))).
Proof.
  intros L D. unfold update, after at 1. cbn [pst]. rewrite L, D. cbn zeta.
  unfold is_forward. cbn [with_pf pf set_interp after speed]. rewrite Hs. reflexivity.
Qed.

Lemma any_update fuel d k x p : update S fuel d (after k x) = Done p -> exists n y, p = after (k + n) y.
Proof.
  intros H. destruct (c_live c k) eqn:L.
  - destruct (sle S d (s0 S)) eqn:D.
    + rewrite update_nonpos in H by exact D. injection H as <-. exists 0%nat, x. rewrite Nat.add_0_r. reflexivity.
    + rewrite any_update_eq in H by assumption. destruct (any_loop _ _ _ _ H) as [n ->]. eauto.
  - rewrite update_not_playing in H by (unfold after; cbn; rewrite L; discriminate).
    injection H as <-. exists 0%nat, x. rewrite Nat.add_0_r. reflexivity.
Qed.

Lemma any_update_safe fuel d k x : update S fuel d (after k x) <> Undef.
Proof.
  destruct (c_live c k) eqn:L.
  - destruct (sle S d (s0 S)) eqn:D.
    + rewrite update_nonpos by exact D. discriminate.
    + rewrite any_update_eq by assumption. apply any_loop_safe.
  - rewrite update_not_playing by (unfold after; cbn; rewrite L; discriminate). discriminate.
Qed.

Lemma any_updates fuel ds : forall k x,
  run S fuel (after k x) (map (fun d => OpUpdate d) ds) <> Undef
  /\ forall p, run S fuel (after k x) (map (fun d => OpUpdate d) ds) = Done p -> exists n y, p = after (k + n) y.
Proof.
  induction ds as [|d ds IH]; intros k x; cbn [map run step].
  - split; [discriminate|]. intros p H. injection H as <-. exists 0%nat, x. rewrite Nat.add_0_r. reflexivity.
  - pose proof (any_update_safe fuel d k x) as U. destruct (update S fuel d (after k x)) as [q| |] eqn:E.
    + destruct (any_update _ _ _ _ _ E) as (n & y & ->). destruct (IH (k + n)%nat y) as [A B]. split; [exact A|].
      intros p H. destruct (B p H) as (m & z & ->). exists (n + m)%nat, z. rewrite Nat.add_assoc. reflexivity.
    + contradiction.
    + split; discriminate.
Qed.
End Any.

(** ** The built-in listeners *)
Section Builtin.
Variable S : scalar.
Variables (a b : Z) (s : car S) (lg : list event).
Hypothesis Ha : 0 <= a < size_max.
Hypothesis Hb : 0 <= b < size_max.
Hypothesis Hs : sle S (s0 S) s = true.

Definition loop_course : course S :=
  mkCourse LLoop (fun _ => true) (fun _ => a) (fun _ => b) (fun k => loop_frame a b (Z.of_nat k))
    (fun k => loop_frame a b (Z.of_nat k + 1)) (fun k => lg ++ nexts (loop_frame a b) k).
Definition pingpong_course : course S :=
  let up k := Z.of_nat k mod (2 * span a b) <? span a b in
  mkCourse LPingPong (fun _ => true) (fun k => if up k then a else b) (fun k => if up k then b else a)
    (fun k => pingpong_frame a b (Z.of_nat k)) (fun k => pingpong_frame a b (Z.of_nat k + 1))
    (fun k => lg ++ nexts (pingpong_frame a b) k).
Definition oneshot_course : course S :=
  mkCourse LOneShot (fun k => Z.of_nat k <? span a b) (fun _ => a) (fun _ => b)
    (fun k => oneshot_frame a b (Z.of_nat k)) (fun k => oneshot_frame a b (Z.of_nat k + 1))
    (fun k => lg ++ (if Z.of_nat k <? span a b then nexts (frame_at a b) k
      else nexts (frame_at a b) (Z.to_nat (span a b)) ++ EvStop :: repeat (EvNext b) (k - Z.to_nat (span a b)))).

Ltac open_step :=
  unfold post_next_frame, adv, with_pf, post, has_end_reached, set_next_frame, set_next_frame_to,
    are_frames_chrono, is_forward, set_frame, set_next, set_interp, set_first, set_last, with_lst, end_fwd, succ_fwd;
  cbn [plst pf pst plog firstFrame lastFrame frame nextFrame interpolator speed];
  rewrite ?Hs.

Lemma step_loop x y fr nf it st : post_next_frame S (adv S (mkPlayback (mkFields x y fr nf it s) st LLoop lg)) =
  Some (mkPlayback (mkFields x y nf (if end_fwd x y nf then x else succ_fwd x y nf) (ssub S it (s1 S)) s)
         st LLoop (lg ++ [EvNext nf])).
Proof. open_step. destruct (x <=? y); [destruct (y <=? nf)|destruct (nf <=? y)];
  cbn [plst pf pst plog firstFrame lastFrame frame nextFrame interpolator speed]; rewrite ?Hs; reflexivity. Qed.
Lemma step_oneshot x y fr nf it st : post_next_frame S (adv S (mkPlayback (mkFields x y fr nf it s) st LOneShot lg)) =
  Some (if end_fwd x y nf
        then stop S (mkPlayback (mkFields x y nf nf (ssub S it (s1 S)) s) st LOneShot (lg ++ [EvNext nf]))
        else mkPlayback (mkFields x y nf (succ_fwd x y nf) (ssub S it (s1 S)) s) st LOneShot (lg ++ [EvNext nf])).
Proof. open_step. destruct (x <=? y); [destruct (y <=? nf)|destruct (nf <=? y)];
  cbn [plst pf pst plog firstFrame lastFrame frame nextFrame interpolator speed]; rewrite ?Hs; reflexivity. Qed.
Lemma step_pingpong x y fr nf it st : post_next_frame S (adv S (mkPlayback (mkFields x y fr nf it s) st LPingPong lg)) =
  Some (let x' := if end_fwd x y nf then y else x in
        let y' := if end_fwd x y nf then x else y in
        mkPlayback (mkFields x' y' nf (succ_fwd x' y' nf) (ssub S it (s1 S)) s) st LPingPong (lg ++ [EvNext nf])).
Proof. open_step. cbn zeta. destruct (if x <=? y then y <=? nf else nf <=? y);
  cbn [plst pf pst plog firstFrame lastFrame frame nextFrame interpolator speed]; rewrite ?Hs; reflexivity. Qed.
End Builtin.

Section Courses.
Variable S : scalar.
Variables (a b : Z) (s : car S) (lg : list event).
Hypothesis Ha : 0 <= a < size_max.
Hypothesis Hb : 0 <= b < size_max.
Hypothesis Hs : sle S (s0 S) s = true.

Lemma loop_walks : walks S (loop_course S a b lg) s.
Proof.
  intros k x. unfold after. cbn [c_lst c_live c_first c_last c_frame c_next c_log loop_course].
  rewrite (step_loop S s _ Hs). f_equal. f_equal.
  - f_equal; [f_equal; lia|]. replace (Z.of_nat (Datatypes.S k) + 1) with (Z.of_nat k + 1 + 1) by lia.
    rewrite <- (loop_next_ok a b (Z.of_nat k + 1) Ha Hb). reflexivity.
  - rewrite nexts_S, app_assoc. do 3 f_equal. f_equal; lia.
Qed.

Lemma pingpong_walks : a <> b -> walks S (pingpong_course S a b lg) s.
Proof.
  intros Hab k x. unfold after. cbn [c_lst c_live c_first c_last c_frame c_next c_log pingpong_course].
  rewrite (step_pingpong S s _ Hs). cbn zeta.
  destruct (pingpong_next_ok a b (Z.of_nat k) Ha Hb Hab) as (E1 & E2 & E3). rewrite E3, E1, E2.
  rewrite ?Nat2Z.inj_succ; unfold Z.succ. do 2 f_equal.
  rewrite nexts_S, app_assoc. do 3 f_equal. f_equal; lia.
Qed.

Lemma oneshot_walks : a <> b -> walks S (oneshot_course S a b lg) s.
Proof.
  intros Hab k x. unfold after. cbn [c_lst c_live c_first c_last c_frame c_next c_log oneshot_course].
  rewrite (step_oneshot S s _ Hs). f_equal.
  assert (Hnpos : 0 < span a b) by (unfold span; lia).
  assert (Hend : end_fwd a b (oneshot_frame a b (Z.of_nat k + 1)) = negb (Z.of_nat k + 1 <? span a b)).
  { unfold end_fwd, oneshot_frame, frame_at.
    assert (Hspan : span a b = if a <=? b then b - a else a - b) by (unfold span; zb; lia).
    rewrite Hspan. destruct (Z.leb_spec a b); cbn;
    match goal with |- context [?x <? ?y] => destruct (Z.ltb_spec x y) end; cbn; zb; try reflexivity; lia. }
  rewrite Hend.
  destruct (Z.ltb_spec (Z.of_nat k + 1) (span a b)) as [Hlt|Hge]; cbn [negb].
  - destruct (Z.ltb_spec (Z.of_nat k) (span a b)); [|lia].
    assert (Hltb : Z.of_nat (Datatypes.S k) <? span a b = true) by (apply Z.ltb_lt; lia).
    rewrite Hltb. f_equal.
    + f_equal; [f_equal; lia|].
      unfold succ_fwd, oneshot_frame, frame_at, span in *. rewrite !Z.min_l by lia.
      destruct (Z.leb_spec a b); rewrite wrap_small; lia.
    + replace (oneshot_frame a b (Z.of_nat k + 1)) with (frame_at a b (Z.of_nat (Datatypes.S k)))
        by (unfold oneshot_frame; rewrite Z.min_l by lia; f_equal; lia).
      rewrite nexts_S, app_assoc. reflexivity.
  - assert (Hltb : Z.of_nat (Datatypes.S k) <? span a b = false) by (apply Z.ltb_ge; lia).
    assert (EF : oneshot_frame a b (Z.of_nat k + 1) = b)
      by (unfold oneshot_frame; rewrite Z.min_r by lia; apply frame_at_span).
    assert (EF2 : oneshot_frame a b (Z.of_nat (Datatypes.S k)) = b)
      by (unfold oneshot_frame; rewrite Z.min_r by lia; apply frame_at_span).
    assert (EF3 : oneshot_frame a b (Z.of_nat (Datatypes.S k) + 1) = b)
      by (unfold oneshot_frame; rewrite Z.min_r by lia; apply frame_at_span).
    rewrite EF, EF2, EF3, Hltb.
    destruct (Z.ltb_spec (Z.of_nat k) (span a b)) as [Hk|Hk].
    + assert (Ek : Z.to_nat (span a b) = Datatypes.S k) by lia.
      unfold stop, set_state, with_lst, post, with_st, on_stop. pcbn. f_equal.
      rewrite Ek, Nat.sub_diag. cbn [repeat]. rewrite nexts_S, <- !app_assoc. cbn [app].
      replace (Z.of_nat (Datatypes.S k)) with (span a b) by lia. rewrite frame_at_span. reflexivity.
    + unfold stop. pcbn. f_equal.
      rewrite <- !app_assoc. cbn [app]. do 3 f_equal. rewrite repeat_snoc. f_equal. lia.
Qed.
End Courses.

(** State right after Play. *)
Section Start.
Variable S : scalar.
Variables (a b : Z) (s : car S) (p0 : playback S).
Hypothesis Ha : 0 <= a < size_max.
Hypothesis Hb : 0 <= b < size_max.
Hypothesis Hs : sle S (s0 S) s = true.
Let lg := plog (stop S p0) ++ [EvPlay].

Lemma any_play l : play S a b s l p0 =
  post_next_frame S (mkPlayback (mkFields a b a (nextFrame (pf p0)) (s0 S) s) Playing l lg).
Proof.
  unfold play. rewrite !wrap_small by assumption.
  replace (nextFrame (pf p0)) with (nextFrame (pf (stop S p0))); [reflexivity|].
  unfold stop; destruct (pst p0); reflexivity.
Qed.

Ltac open_play := unfold post_next_frame, with_pf, post, has_end_reached, set_next_frame, set_next_frame_to,
    are_frames_chrono, is_forward, set_frame, set_next, set_interp, set_first, set_last, with_lst; pcbn; rewrite ?Hs.

Lemma loop_start : play S a b s LLoop p0 = Some (after S (loop_course S a b lg) s 0 (s0 S)).
Proof.
  rewrite any_play. unfold after. cbn [c_lst c_live c_first c_last c_frame c_next c_log loop_course].
  pose proof (loop_next_ok a b 0 Ha Hb) as Hn. cbn zeta in Hn.
  assert (E0 : loop_frame a b 0 = a).
  { unfold loop_frame, frame_at. rewrite Z.mod_0_l by (unfold span; lia). zb; lia. }
  rewrite E0 in Hn. unfold nexts. cbn [seq map]. change (Z.of_nat 0) with 0. rewrite <- Hn, E0.
  open_play. destruct (if a <=? b then b <=? a else a <=? b); pcbn; rewrite ?Hs; reflexivity.
Qed.

Lemma pingpong_start : a <> b -> play S a b s LPingPong p0 = Some (after S (pingpong_course S a b lg) s 0 (s0 S)).
Proof.
  intros Hab. rewrite any_play. unfold after. cbn [c_lst c_live c_first c_last c_frame c_next c_log pingpong_course].
  assert (Hnpos : 0 < span a b) by (unfold span; lia).
  assert (E0 : pingpong_frame a b 0 = a).
  { unfold pingpong_frame, triangle_wave, frame_at. cbn zeta. rewrite Z.mod_0_l by lia. zb; lia. }
  assert (E1 : pingpong_frame a b (0 + 1) = if a <=? b then wrap (a + 1) else wrap (a - 1)).
  { unfold pingpong_frame, triangle_wave, frame_at. cbn zeta. rewrite Z.mod_small by lia.
    destruct (Z.leb_spec (0 + 1) (span a b)); [|lia]. destruct (Z.leb_spec a b); rewrite wrap_small; lia. }
  unfold nexts. cbn [seq map]. change (Z.of_nat 0) with 0. rewrite Z.mod_0_l by lia. rewrite E0, E1.
  destruct (Z.ltb_spec 0 (span a b)); [|lia].
  open_play. replace (if a <=? b then b <=? a else a <=? b) with false by (zb; lia). pcbn. rewrite ?Hs. reflexivity.
Qed.

Lemma oneshot_start : a <> b -> play S a b s LOneShot p0 = Some (after S (oneshot_course S a b lg) s 0 (s0 S)).
Proof.
  intros Hab. rewrite any_play. unfold after. cbn [c_lst c_live c_first c_last c_frame c_next c_log oneshot_course].
  assert (Hnpos : 0 < span a b) by (unfold span; lia).
  assert (E0 : frame_at a b 0 = a) by (unfold frame_at; zb; lia).
  unfold nexts. cbn [seq map]. change (Z.of_nat 0) with 0. unfold oneshot_frame. rewrite !Z.min_l by lia. rewrite E0.
  destruct (Z.ltb_spec 0 (span a b)); [|lia].
  open_play. replace (if a <=? b then b <=? a else a <=? b) with false by (zb; lia). pcbn. rewrite ?Hs.
  do 3 f_equal. unfold frame_at; zb; rewrite wrap_small; lia.
Qed.
End Start.

(** ** Backward *)
Section AnyBack.
Variable S : scalar.
Variables (c : course S) (s : car S).

Definition ret (p : playback S) : playback S :=
  with_pf S (fun f => set_next S (frame f) (set_interp S (sadd S (interpolator f) (s1 S)) f)) p.
Definition walks_back : Prop := forall k x, post_next_frame S (ret (after S c s k x)) = Some (after S c s (Datatypes.S k) (sadd S x (s1 S))).
Hypothesis Hs : sle S (s0 S) s = false.
Hypothesis Hw : walks_back.
Hypothesis Hl : forall k, c_live c k = true.

Lemma back_loop : forall fuel k x, backward_loop S fuel (after S c s k x) <> Undef /\
  forall p, backward_loop S fuel (after S c s k x) = Done p -> exists n y, p = after S c s (k + n) y.
Proof.
  induction fuel as [|fuel IH]; intros k x; cbn [backward_loop]; [split; discriminate|].
  destruct (sle S _ (s0 S)).
  - change (with_pf S _ (after S c s k x)) with (ret (after S c s k x)). rewrite Hw.
    destruct (IH (Datatypes.S k) (sadd S x (s1 S))) as [A B]. split; [exact A|]. intros p H. destruct (B p H) as (n & y & ->).
    exists (Datatypes.S n), y. rewrite Nat.add_succ_r. reflexivity.
  - split; [discriminate|]. intros p H; injection H as <-. exists 0%nat, x. rewrite Nat.add_0_r. reflexivity.
Qed.

Lemma back_updates fuel ds : forall k x,
  run S fuel (after S c s k x) (map (fun d => OpUpdate d) ds) <> Undef
  /\ forall p, run S fuel (after S c s k x) (map (fun d => OpUpdate d) ds) = Done p -> exists n y, p = after S c s (k + n) y.
Proof.
  induction ds as [|d ds IH]; intros k x; cbn [map run step].
  - split; [discriminate|]. intros p H. injection H as <-. exists 0%nat, x. rewrite Nat.add_0_r. reflexivity.
  - assert (U : update S fuel d (after S c s k x) <> Undef /\ forall p, update S fuel d (after S c s k x) = Done p -> exists n y, p = after S c s (k + n) y).
    { destruct (sle S d (s0 S)) eqn:D.
      - rewrite update_nonpos by exact D. split; [discriminate|]. intros p H; injection H as <-. exists 0%nat, x. rewrite Nat.add_0_r. reflexivity.
      - assert (E : update S fuel d (after S c s k x) = backward_loop S fuel (after S c s k (sadd S x (smul S d s)))).
        { unfold update, after at 1. cbn [pst]. rewrite Hl, D. cbn zeta.
          unfold is_forward. cbn [with_pf pf set_interp after speed]. rewrite Hs. reflexivity. }
        rewrite E. apply back_loop. }
    destruct U as [U1 U2]. destruct (update S fuel d (after S c s k x)) as [q| |] eqn:E.
    + destruct (U2 q eq_refl) as (n & y & ->). destruct (IH (k + n)%nat y) as [A B]. split; [exact A|].
      intros p H. destruct (B p H) as (m & z & ->). exists (n + m)%nat, z. rewrite Nat.add_assoc. reflexivity.
    + contradiction.
    + split; discriminate.
Qed.
End AnyBack.

Section LoopBack.
Variable S : scalar.
Variables (a b : Z) (s : car S) (p0 : playback S).
Hypothesis Ha : 0 <= a < size_max.
Hypothesis Hb : 0 <= b < size_max.
Hypothesis Hs : sle S (s0 S) s = false.
Let lg := plog (stop S p0) ++ [EvPlay].

Definition back_course : course S :=
  mkCourse LLoop (fun _ => true) (fun _ => a) (fun _ => b) (fun k => loop_frame b a (Z.of_nat k))
    (fun k => match k with O => nextFrame (pf p0) | Datatypes.S j => loop_frame b a (Z.of_nat j) end)
    (fun k => lg ++ [EvNext a] ++ map (fun i => EvNext (loop_frame b a (Z.of_nat i))) (seq 0 k)).

Definition end_back (f : Z) : bool := if a <=? b then f <=? a else a <=? f.
Definition pred_back (f : Z) : Z := if a <=? b then wrap (f - 1) else wrap (f + 1).

Lemma back_next k : (let f := loop_frame b a k in if end_back f then b else pred_back f) = loop_frame b a (k + 1).
Proof.
  unfold loop_frame. rewrite Zsucc_mod by (unfold span; lia).
  pose proof (Z.mod_pos_bound k (span b a + 1) ltac:(unfold span; lia)) as Hm.
  set (r := k mod (span b a + 1)) in *. unfold frame_at, span, end_back, pred_back in *. cbn zeta.
  unfold size_max in *.
  zb; try lia; rewrite wrap_small; unfold size_max; lia.
Qed.

Lemma step_back fr nf it st l : post_next_frame S (ret S (mkPlayback (mkFields a b fr nf it s) st LLoop l)) =
  Some (mkPlayback (mkFields a b (if end_back fr then b else pred_back fr) fr (sadd S it (s1 S)) s)
         st LLoop (l ++ [EvNext fr])).
Proof.
  unfold post_next_frame, ret, with_pf, post, has_end_reached, set_next_frame, set_next_frame_to,
    are_frames_chrono, is_forward, set_frame, set_next, set_interp, set_first, set_last, with_lst, end_back, pred_back;
  cbn [plst pf pst plog firstFrame lastFrame frame nextFrame interpolator speed]; rewrite ?Hs.
  destruct (a <=? b); [destruct (fr <=? a)|destruct (a <=? fr)];
  cbn [plst pf pst plog firstFrame lastFrame frame nextFrame interpolator speed]; rewrite ?Hs; reflexivity.
Qed.

Lemma back_walks : walks_back S back_course s.
Proof.
  intros k x. unfold after. cbn [c_lst c_live c_first c_last c_frame c_next c_log back_course].
  rewrite step_back. do 2 f_equal.
  - f_equal. pose proof (back_next (Z.of_nat k)) as X; cbn zeta in X. rewrite X. f_equal; lia.
  - rewrite seq_S, map_app. cbn [map app Nat.add]. rewrite <- !app_assoc. reflexivity.
Qed.

Lemma back_start : play S a b s LLoop p0 = Some (after S back_course s 0 (s0 S)).
Proof.
  unfold play. rewrite !wrap_small by assumption.
  assert (E0 : loop_frame b a 0 = b).
  { unfold loop_frame, frame_at. rewrite Z.mod_0_l by (unfold span; lia). zb; lia. }
  assert (EN : nextFrame (pf (stop S p0)) = nextFrame (pf p0)) by (unfold stop; destruct (pst p0); reflexivity).
  unfold after. cbn [c_lst c_live c_first c_last c_frame c_next c_log back_course map seq app]. change (Z.of_nat 0) with 0. rewrite E0.
  unfold post_next_frame, with_pf, set_state, with_st, post, has_end_reached, set_next_frame, set_next_frame_to,
    are_frames_chrono, is_forward, set_frame, set_next, set_interp, set_first, set_last, with_lst;
  cbn [plst pf pst plog firstFrame lastFrame frame nextFrame interpolator speed]; rewrite ?Hs, EN.
  replace (if a <=? b then a <=? a else a <=? a) with true by (zb; lia).
  cbn [plst pf pst plog firstFrame lastFrame frame nextFrame interpolator speed]; rewrite ?Hs. reflexivity.
Qed.
End LoopBack.
