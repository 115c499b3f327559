(** What a playback keeps from call to call. *)
From Coq Require Import ZArith List Bool Lia.
From Verif Require Import Model.Scalar Model.Playback Spec.ReplaySpec.
Import ListNotations.
Local Open Scope Z_scope.

Section Replay.
Variable S : scalar.
Notation playback := (playback S).

(** Range and speed, with the given relation between the asked range and the present one *)
Definition kept (swap : bool) (a : Z * Z * car S) (p : playback) : Prop :=
  let '(f, l, s) := a in
  speed (pf p) = s /\ (firstFrame (pf p) = wrap f /\ lastFrame (pf p) = wrap l \/ swap = true /\ firstFrame (pf p) = wrap l /\ lastFrame (pf p) = wrap f).
Definition allowed (swap : bool) (l : listener S) : Prop := if swap then built_in S l else one_way S l.

Definition fine (swap : bool) (a : Z * Z * car S) (p : playback) : Prop := kept swap a p /\ allowed swap (plst p).

Lemma on_stop_allowed swap l : allowed swap l -> allowed swap (on_stop S l).
Proof. destruct swap, l; exact (fun x => x). Qed.
Lemma set_state_fine swap a s p : fine swap a p -> fine swap a (set_state S s p).
Proof. intros [K A]. destruct s; split; try exact K; try exact A. now apply on_stop_allowed. Qed.
Lemma stop_fine swap a p : fine swap a p -> fine swap a (stop S p).
Proof. intros F. unfold stop. destruct (pst p); [apply set_state_fine, F|apply set_state_fine, F|exact F]. Qed.
Lemma pause_fine swap a b p : fine swap a p -> fine swap a (pause S b p).
Proof. intros F. unfold pause. destruct b, (pst p); first [exact F|apply set_state_fine, F]. Qed.
Lemma with_fine swap a g p : (forall f, speed (g f) = speed f /\ firstFrame (g f) = firstFrame f /\ lastFrame (g f) = lastFrame f) ->
  fine swap a p -> fine swap a (with_pf S g p).
Proof. intros G [K A]. split; [|exact A]. destruct a as [[f l] s]. unfold kept in *. cbn [with_pf pf]. destruct (G (pf p)) as (-> & -> & ->). exact K. Qed.
Lemma next_keeps f : speed (set_next_frame S f) = speed f /\ firstFrame (set_next_frame S f) = firstFrame f /\ lastFrame (set_next_frame S f) = lastFrame f.
Proof. unfold set_next_frame. destruct (is_forward S f); repeat split. Qed.
Lemma next_to_keeps i f : speed (set_next_frame_to S i f) = speed f /\ firstFrame (set_next_frame_to S i f) = firstFrame f /\ lastFrame (set_next_frame_to S i f) = lastFrame f.
Proof. unfold set_next_frame_to. destruct (is_forward S f); repeat split. Qed.
Lemma post_next_fine swap a p p' : fine swap a p -> post_next_frame S p = Some p' -> fine swap a p'.
Proof.
  intros F. unfold post_next_frame. cbv zeta. assert (F' : fine swap a (post S (EvNext (frame (pf p))) p)) by exact F. clear F.
  set (q := post S (EvNext (frame (pf p))) p) in *. clearbody q. clear p. destruct (plst q) eqn:L.
  - intros [= <-]. destruct (has_end_reached S (pf q)); [now apply stop_fine|]. apply with_fine; [apply next_keeps|exact F'].
  - intros [= <-]. destruct (has_end_reached S (pf q)); (apply with_fine; [|exact F']); [intros f; apply next_to_keeps|apply next_keeps].
  - intros [= <-]. apply with_fine; [apply next_keeps|]. destruct (has_end_reached S (pf q)); [|exact F'].
    destruct F' as [K A]. split; [|exact A]. destruct swap; [|rewrite L in A; contradiction].
    destruct a as [[f l] s]. destruct K as [K1 K2]. split; [exact K1|]. cbn. intuition.
  - destruct (list_loop_next _ _ _) as [[it [f|]]|]; [| |discriminate]; intros [= <-].
    + apply with_fine; [apply next_to_keeps|]. destruct F' as [K A]. split; [exact K|]. destruct swap; exact I.
    + destruct F' as [K A]. split; [exact K|]. destruct swap; exact I.
  - destruct F' as [_ A]. rewrite L in A. destruct swap; contradiction.
Qed.
Lemma wrap_wrap z : wrap (wrap z) = wrap z.
Proof. unfold wrap. now rewrite Zmod_mod. Qed.
Lemma play_fine swap f l s ln p p' : allowed swap ln -> play S f l s ln p = Some p' -> fine swap (f, l, s) p'.
Proof.
  intros A. unfold play. apply post_next_fine, set_state_fine. split; [|exact A]. split; [reflexivity|]. now left.
Qed.
Lemma forward_fine swap a fuel : forall p p', fine swap a p -> forward_loop S fuel p = Done p' -> fine swap a p'.
Proof.
  induction fuel as [|n IH]; intros p p' F; [discriminate|]. cbn [forward_loop]. destruct (sle S _ _); [|now intros [= <-]].
  destruct (post_next_frame S _) as [q|] eqn:E; [|discriminate]. apply IH. eapply post_next_fine; [|exact E]. apply with_fine; [|exact F]. intros g. repeat split.
Qed.
Lemma backward_fine swap a fuel : forall p p', fine swap a p -> backward_loop S fuel p = Done p' -> fine swap a p'.
Proof.
  induction fuel as [|n IH]; intros p p' F; [discriminate|]. cbn [backward_loop]. destruct (sle S _ _); [|now intros [= <-]].
  destruct (post_next_frame S _) as [q|] eqn:E; [|discriminate]. apply IH. eapply post_next_fine; [|exact E]. apply with_fine; [|exact F]. intros g. repeat split.
Qed.
Lemma update_fine swap a fuel dt p p' : fine swap a p -> update S fuel dt p = Done p' -> fine swap a p'.
Proof.
  intros F. unfold update. destruct (pst p); [|now intros [= <-]..]. destruct (sle S dt (s0 S)); [now intros [= <-]|].
  set (q := with_pf S _ p). assert (F' : fine swap a q) by (apply with_fine; [|exact F]; intros g; repeat split).
  destruct (is_forward S (pf q)); [now apply forward_fine|now apply backward_fine].
Qed.

(** After a call, when the range in the fields stands for the range that was asked for *)
Lemma play_same f l s ln p f' l' : wrap f = wrap f' -> wrap l = wrap l' -> play S f l s ln p = play S f' l' s ln p.
Proof. intros E1 E2. unfold play. now rewrite E1, E2. Qed.
Lemma step_fine swap fuel a o p p' : 
  call_with S (allowed swap) o -> fine swap a p -> step S fuel p o = Done p' -> fine swap (asked S a [o]) p'.
Proof.
  intros C F. destruct a as [[f l] s]. destruct o as [x y z ln|x y ln|ln|b| |dt|i| |g]; cbn [step asked call_with snd] in *.
  - unfold lift. destruct (play S x y z ln p) as [q|] eqn:E; [|discriminate]. intros [= <-]. now apply (play_fine _ _ _ _ _ _ _ C E).
  - unfold lift. destruct F as [[-> _] _]. destruct (play S x y s ln p) as [q|] eqn:E; [|discriminate]. intros [= <-]. now apply (play_fine _ _ _ _ _ _ _ C E).
  - destruct F as [[-> [[-> ->]|(Q & -> & ->)]] _].
    + rewrite (play_same (wrap f) (wrap l) s ln p f l (wrap_wrap f) (wrap_wrap l)).
      unfold lift. destruct (play S f l s ln p) as [q|] eqn:E; [|discriminate]. intros [= <-]. now apply (play_fine _ _ _ _ _ _ _ C E).
    + rewrite (play_same (wrap l) (wrap f) s ln p l f (wrap_wrap l) (wrap_wrap f)). subst swap.
      unfold lift. destruct (play S l f s ln p) as [q|] eqn:E; [|discriminate]. intros [= <-].
      destruct (play_fine _ _ _ _ _ _ _ C E) as [[K1 K2] A]. split; [|exact A]. split; [exact K1|]. intuition.
  - intros [= <-]. now apply pause_fine.
  - intros [= <-]. now apply stop_fine.
  - now apply update_fine.
  - intros [= <-]. apply with_fine; [apply next_to_keeps|exact F].
  - intros [= <-]. apply with_fine; [apply next_keeps|exact F].
  - contradiction.
Qed.
Lemma asked_cons a o os : asked S a (o :: os) = asked S (asked S a [o]) os.
Proof. destruct o; reflexivity. Qed.
Lemma run_fine swap fuel os : forall a p p', Forall (call_with S (allowed swap)) os -> fine swap a p -> run S fuel p os = Done p' -> fine swap (asked S a os) p'.
Proof.
  induction os as [|o os IH]; intros a p p' C F; cbn [run]; [now intros [= <-]|]. inversion_clear C as [|? ? C1 C2].
  destruct (step S fuel p o) as [q| |] eqn:E; try discriminate. rewrite asked_cons. apply IH; [exact C2|]. eapply step_fine; [exact C1|exact F|exact E].
Qed.
End Replay.
