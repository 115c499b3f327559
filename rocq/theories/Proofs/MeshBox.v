(** Bounding boxes of meshes, computed by one and by several threads. *)
From Coq Require Import List Bool Arith Lia.
From Verif Require Import Model.Aabb Model.Mesh Spec.AabbSpec Proofs.AabbLemmas.
Import ListNotations.

Section Box.
Variable O : order.
Variable ok : ocar O -> Prop.
Hypothesis HL : order_laws O ok.
Hypothesis okdec : forall x, {ok x} + {~ ok x}.
Hypothesis Hnan : forall x y, ~ ok x -> olt O x y = false /\ olt O y x = false.

(** A point as a box; components that compare with nothing become the neutral interval. *)
Definition denan (p : point O) : box O := map (fun x => if okdec x then (x, x) else (omax O, olow O)) p.
Lemma denan_ok n p : length p = n -> ok_box O ok n (denan p).
Proof.
  intros H. split; [unfold denan; rewrite map_length; exact H|]. apply Forall_map, Forall_forall. intros x _.
  destruct (okdec x); cbn; [auto|]. split; [apply (ol_max O ok HL)|apply (ol_low O ok HL)].
Qed.
Lemma insert_denan n b p : within O (reset O n) b -> length p = n -> insert_point O b p = insert_box O b (denan p).
Proof.
  revert b p. induction n as [|n IH]; intros b p W L; unfold reset in W; cbn in W; inversion W as [|? i ? b' [W1 W2] W' E1 E2]; subst; destruct p as [|x p]; try discriminate; [reflexivity|].
  assert (R := IH b' p W' ltac:(cbn in L; lia)). unfold insert_point, insert_box, denan in *. cbn [map map2]. rewrite R. f_equal.
  cbn in W1, W2. destruct (okdec x) as [|N]; cbn [fst snd]; [reflexivity|]. unfold ole in W1, W2. rewrite W1, W2. destruct (Hnan x (fst i) N) as [-> _]. destruct (Hnan x (snd i) N) as [_ ->]. reflexivity.
Qed.

Context {V : Type}.
Variable pos : V -> point O.
Hypothesis Hpos : forall v, length (pos v) = 3.
Definition box_items (l : list V) : list (item O) := map (fun v => IBox (denan (pos v))) l.
Lemma box_items_ok l : Forall (ok_item O ok 3) (box_items l).
Proof. apply Forall_map, Forall_forall. intros v _. cbn. apply denan_ok, Hpos. Qed.

Definition seq_box (b : box O) (l : list V) : box O := fold_left (fun b v => insert_point O b (pos v)) l b.
Lemma seq_box_items l : forall b, ok_box O ok 3 b -> within O (reset O 3) b -> seq_box b l = insert_items O b (box_items l).
Proof.
  unfold seq_box. induction l as [|v l IH]; intros b Hb W; [reflexivity|]. cbn.
  rewrite (insert_denan 3 b (pos v) W (Hpos v)). assert (D := denan_ok 3 (pos v) (Hpos v)). apply IH; [apply (insert_box_ok O ok); assumption|].
  eapply (within_trans O ok HL 3); [apply (reset_ok O ok HL)|exact Hb|apply (insert_box_ok O ok); assumption|exact W|]. apply (insert_box_l O ok HL 3); assumption.
Qed.
Notation F l := (seq_box (reset O 3) l).
Lemma F_items l : F l = insert_items O (reset O 3) (box_items l).
Proof. apply seq_box_items; [apply (reset_ok O ok HL)|apply (within_refl O ok HL 3), (reset_ok O ok HL)]. Qed.
Lemma F_ok l : ok_box O ok 3 (F l).
Proof. rewrite F_items. apply (items_ok O ok); [apply box_items_ok|apply (reset_ok O ok HL)]. Qed.
Lemma F_reset l : within O (reset O 3) (F l).
Proof. rewrite F_items. apply (items_ub O ok HL 3 _ (box_items_ok l)), (reset_ok O ok HL). Qed.
Lemma F_in l v : In v l -> within O (denan (pos v)) (F l).
Proof.
  intros H. rewrite F_items. destruct (items_ub O ok HL 3 _ (box_items_ok l) _ (reset_ok O ok HL 3)) as [_ U].
  rewrite Forall_forall in U. apply (U (IBox (denan (pos v)))). apply in_map with (f := fun v => IBox (denan (pos v))). exact H.
Qed.
Lemma F_lub l d : within O (reset O 3) d -> (forall v, In v l -> within O (denan (pos v)) d) -> within O (F l) d.
Proof.
  intros H1 H2. rewrite F_items. apply (items_lub O ok 3); [apply box_items_ok|apply (reset_ok O ok HL)|exact H1|].
  apply Forall_map, Forall_forall. exact H2.
Qed.

(** The box of the calling thread after joining. *)
Definition join_box (rest : list V) (chunks : list (list V)) : box O :=
  fold_left (fun b c => insert_box O b (F c)) chunks (F rest).
Lemma fold_boxes chunks : forall b, ok_box O ok 3 b ->
  let r := fold_left (fun b c => insert_box O b (F c)) chunks b in
  ok_box O ok 3 r /\ within O b r /\ (forall c, In c chunks -> within O (F c) r) /\
  (forall d, within O b d -> (forall c, In c chunks -> within O (F c) d) -> within O r d).
Proof.
  induction chunks as [|c l IH]; intros b Hb; cbn zeta.
  - cbn. split; [exact Hb|]. split; [apply (within_refl O ok HL 3), Hb|]. split; [intros c []|auto].
  - cbn [fold_left]. assert (Hc := F_ok c). assert (Hi := insert_box_ok O ok 3 b _ Hb Hc). destruct (IH _ Hi) as (R1 & R2 & R3 & R4).
    split; [exact R1|]. split; [|split].
    + eapply (within_trans O ok HL 3); [exact Hb|exact Hi|exact R1|apply (insert_box_l O ok HL 3); assumption|exact R2].
    + intros c' [<-|H]; [|apply R3; exact H]. eapply (within_trans O ok HL 3); [exact Hc|exact Hi|exact R1|apply (insert_box_r O ok HL 3); assumption|exact R2].
    + intros d H1 H2. apply R4; [|intros c' Hc'; apply H2; right; exact Hc']. apply (insert_box_lub O ok 3); auto. apply H2. left; reflexivity.
Qed.
Lemma join_box_eq rest chunks vs : (forall v, In v vs <-> In v rest \/ exists c, In c chunks /\ In v c) ->
  box_eq O (join_box rest chunks) (F vs).
Proof.
  intros M. unfold join_box. destruct (fold_boxes chunks (F rest) (F_ok rest)) as (R1 & R2 & R3 & R4).
  apply (within_antisym O).
  - apply R4.
    + apply F_lub; [apply F_reset|]. intros v H. apply F_in, M. auto.
    + intros c Hc. apply F_lub; [apply F_reset|]. intros v H. apply F_in, M. eauto.
  - apply F_lub.
    + eapply (within_trans O ok HL 3); [apply (reset_ok O ok HL)|apply F_ok|exact R1|apply F_reset|exact R2].
    + intros v H. apply M in H. destruct H as [H|(c & Hc & H)].
      * eapply (within_trans O ok HL 3); [apply denan_ok, Hpos|apply F_ok|exact R1|apply F_in; exact H|exact R2].
      * eapply (within_trans O ok HL 3); [apply denan_ok, Hpos|apply F_ok|exact R1|apply F_in; exact H|apply R3; exact Hc].
Qed.
End Box.

(** ** Interleavings *)
Lemma firstn_plus {A} a b (l : list A) : firstn (a + b) l = firstn a l ++ firstn b (skipn a l).
Proof. revert l; induction a as [|a IH]; intros [|x l]; cbn; rewrite ?firstn_nil; try reflexivity. rewrite IH. reflexivity. Qed.
Lemma nth_set_nth {A} (l : list A) k x i : nth_error (set_nth l k x) i = if (i =? k) && (k <? length l) then Some x else nth_error l i.
Proof.
  revert k i; induction l as [|y l IH]; intros k i; cbn [set_nth].
  - cbn. rewrite andb_false_r. reflexivity.
  - destruct k as [|k], i as [|i]; try reflexivity. cbn [nth_error]. rewrite IH. reflexivity.
Qed.
Lemma set_nth_length {A} (l : list A) k x : length (set_nth l k x) = length l.
Proof. revert k; induction l as [|y l IH]; intros [|k]; cbn; auto. Qed.

Section Threads.
Variable O : order.
Context {V : Type}.
Variable pos : V -> point O.
Variables (vs : list V) (n per : nat).
Hypothesis Hper : per * n <= length vs.

Definition chunk (i : nat) : list V := firstn per (skipn (per * i) vs).
Definition rest : list V := skipn (per * n) vs.
Notation F l := (seq_box O pos (reset O 3) l).
Definition joined (i : nat) : box O := join_box O pos rest (map chunk (seq 0 i)).

Lemma partition_in v : In v vs <-> In v rest \/ exists c, In c (map chunk (seq 0 n)) /\ In v c.
Proof.
  rewrite <- (firstn_skipn (per * n) vs) at 1. fold rest. rewrite in_app_iff.
  assert (E : forall k, In v (firstn (per * k) vs) <-> exists c, In c (map chunk (seq 0 k)) /\ In v c).
  { clear. induction k as [|k IH].
    - rewrite Nat.mul_0_r. cbn. split; [intros []|intros (c & [] & _)].
    - rewrite Nat.mul_succ_r, firstn_plus, in_app_iff, IH. fold (chunk k). rewrite seq_S, map_app. cbn [map plus]. split.
      + intros [(c & H1 & H2)|H]; [exists c|exists (chunk k)]; rewrite in_app_iff; cbn; tauto.
      + intros (c & H1 & H2). apply in_app_iff in H1. destruct H1 as [H1|[<-|[]]]; [left; eauto|right; exact H2]. }
  rewrite E. tauto.
Qed.

Definition worker_ok (i : nat) (w : worker O (V := V)) : Prop :=
  match w with
  | Waiting _ => True
  | Running _ b todo => exists d, d ++ todo = chunk i /\ b = F d
  | Finished _ b => b = F (chunk i)
  end.
Definition all_started (ws : list (worker O (V := V))) (k : nat) : Prop := forall i, i < k -> nth_error ws i <> Some (Waiting O).
Definition pc_ok (ws : list (worker O (V := V))) (p : main_pc O (V := V)) : Prop :=
  match p with
  | Spawn _ k => k <= n /\ all_started ws k /\ forall i, k <= i < n -> nth_error ws i = Some (Waiting O)
  | Rest _ b todo => all_started ws n /\ exists d, d ++ todo = rest /\ b = F d
  | Join _ b i => all_started ws n /\ i <= n /\ b = joined i
  | Done _ b => b = joined n
  end.
Definition inv (s : mt_state O (V := V)) : Prop :=
  length (workers O s) = n /\ (forall i w, nth_error (workers O s) i = Some w -> worker_ok i w) /\ pc_ok (workers O s) (pc O s).

Lemma F_snoc d v : F (d ++ [v]) = insert_point O (F d) (pos v).
Proof. unfold seq_box. rewrite fold_left_app. reflexivity. Qed.
Lemma inv_init : inv (mt_init O n).
Proof.
  split; [apply repeat_length|]. split.
  - intros i w H. apply nth_error_In in H. apply repeat_spec in H. subst w. exact I.
  - cbn. split; [lia|]. split; [intros i Hi; lia|]. intros i Hi. apply nth_error_repeat. lia.
Qed.
(** A worker other than a waiting one is replaced by another. *)
Lemma pc_ok_set ws p i w : nth_error ws i <> Some (Waiting O) -> w <> Waiting O -> pc_ok ws p -> pc_ok (set_nth ws i w) p.
Proof.
  intros Hi Hw. assert (A : forall k, all_started ws k -> all_started (set_nth ws i w) k).
  { intros k H j Hj. rewrite nth_set_nth. destruct ((j =? i) && (i <? length ws)); [congruence|apply H; exact Hj]. }
  destruct p; cbn; try tauto.
  - intros (H1 & H2 & H3). split; [exact H1|]. split; [apply A, H2|]. intros j Hj. rewrite nth_set_nth.
    destruct (Nat.eqb_spec j i) as [->|]; [|cbn [andb]; apply H3; exact Hj]. exfalso. apply Hi, H3, Hj.
  - intros (H1 & H2). split; [apply A, H1|exact H2].
  - intros (H1 & H2). split; [apply A, H1|exact H2].
Qed.
Lemma worker_ok_set (ws : list (worker O (V := V))) i w : (forall j w', nth_error ws j = Some w' -> worker_ok j w') -> worker_ok i w ->
  forall j w', nth_error (set_nth ws i w) j = Some w' -> worker_ok j w'.
Proof.
  intros H Hw j w'. rewrite nth_set_nth. destruct (Nat.eqb_spec j i) as [->|]; cbn [andb].
  - destruct (i <? length ws); [intros E; injection E as <-; exact Hw|apply H].
  - apply H.
Qed.
Lemma inv_step s t : inv s -> mt_step O pos vs n per s t -> inv t.
Proof.
  intros (L & W & P) S. destruct S as [ws i Hi Hr E|ws|ws p i b v todo E|ws p i b E|ws b v todo|ws b|ws b i c Hi E|ws b];
  unfold inv in *; cbn [workers pc] in *; rewrite ?set_nth_length; (split; [exact L|]).
  - split; [apply worker_ok_set; [exact W|]; exists []; auto|]. cbn in P. destruct P as (P1 & P2 & P3). cbn. split; [lia|]. split.
    + intros j Hj. rewrite nth_set_nth. destruct (Nat.eqb_spec j i) as [->|]; cbn [andb].
      * replace (i <? length ws) with true by (symmetry; apply Nat.ltb_lt; lia). congruence.
      * apply P2. lia.
    + intros j Hj. rewrite nth_set_nth. destruct (Nat.eqb_spec j i) as [->|]; [lia|]. cbn [andb]. apply P3. lia.
  - split; [exact W|]. cbn [pc_ok] in P |- *. split; [apply P|]. exists []. auto.
  - destruct (W i _ E) as (d & Ed & Eb). split.
    + apply worker_ok_set; [exact W|]. exists (d ++ [v]). rewrite <- app_assoc. split; [exact Ed|]. rewrite F_snoc, Eb. reflexivity.
    + apply pc_ok_set; [rewrite E; congruence|congruence|exact P].
  - destruct (W i _ E) as (d & Ed & Eb). split.
    + apply worker_ok_set; [exact W|]. unfold worker_ok. rewrite app_nil_r in Ed. rewrite Eb, Ed. reflexivity.
    + apply pc_ok_set; [rewrite E; congruence|congruence|exact P].
  - split; [exact W|]. cbn [pc_ok] in P |- *. destruct P as (P1 & d & Ed & Eb). split; [exact P1|]. exists (d ++ [v]). rewrite <- app_assoc. split; [exact Ed|]. rewrite F_snoc, Eb. reflexivity.
  - split; [exact W|]. cbn [pc_ok] in P |- *. destruct P as (P1 & d & Ed & Eb). split; [exact P1|]. split; [lia|]. unfold joined, join_box. cbn [seq map fold_left]. rewrite app_nil_r in Ed. rewrite Eb, Ed. reflexivity.
  - split; [exact W|]. cbn [pc_ok] in P |- *. destruct P as (P1 & P2 & P3). split; [exact P1|]. split; [lia|].
    assert (Ec := W i _ E). cbn in Ec. unfold joined, join_box in *. rewrite seq_S, map_app, fold_left_app. cbn [map fold_left plus]. rewrite <- P3, Ec. reflexivity.
  - split; [exact W|]. cbn [pc_ok] in P |- *. apply P.
Qed.
Lemma inv_steps s t : inv s -> mt_steps O pos vs n per s t -> inv t.
Proof. intros H S. induction S as [|? ? ? S1 _ IH]; [exact H|]. apply IH. eapply inv_step; eassumption. Qed.

Lemma progress s : inv s -> (exists b, pc O s = Done O b) \/ exists t, mt_step O pos vs n per s t.
Proof.
  destruct s as [ws p]. intros (L & W & P). cbn in *. destruct p as [k|b todo|b i|b]; cbn in P.
  - destruct P as (P1 & P2 & P3). right. destruct (Nat.eq_dec k n) as [->|]; [eexists; apply step_spawned|].
    eexists. apply step_spawn; [lia| |apply P3; lia]. nia.
  - right. destruct todo as [|v todo]; eexists; [apply step_rested|apply step_rest].
  - destruct P as (P1 & P2 & P3). right. destruct (Nat.eq_dec i n) as [->|]; [eexists; apply step_joined|].
    destruct (nth_error ws i) as [w|] eqn:E; [|apply nth_error_None in E; lia]. destruct w as [|c todo|c].
    + exfalso. apply (P1 i); [lia|exact E].
    + destruct todo as [|v todo]; eexists; [eapply step_finish; exact E|eapply step_work; exact E].
    + eexists. eapply step_join; [lia|exact E].
  - left. eauto.
Qed.

(** Executions end. *)
Definition worker_weight (w : worker O (V := V)) : nat :=
  match w with Waiting _ => per + 2 | Running _ _ todo => length todo + 1 | Finished _ _ => 0 end.
Definition pc_weight (p : main_pc O (V := V)) : nat :=
  match p with
  | Spawn _ k => (n - k) + length vs + n + 4
  | Rest _ _ todo => length todo + n + 3
  | Join _ _ i => (n - i) + 1
  | Done _ _ => 0
  end.
Definition weight (s : mt_state O (V := V)) : nat := list_sum (map worker_weight (workers O s)) + pc_weight (pc O s).
Lemma sum_set ws i w w' : nth_error ws i = Some w -> worker_weight w' < worker_weight w ->
  list_sum (map worker_weight (set_nth ws i w')) < list_sum (map worker_weight ws).
Proof.
  unfold list_sum. revert i; induction ws as [|x ws IH]; intros [|i] E H; cbn [set_nth map fold_right nth_error] in *; try discriminate.
  - injection E as ->. lia.
  - specialize (IH i E H). lia.
Qed.
Lemma weight_step s t : inv s -> mt_step O pos vs n per s t -> weight t < weight s.
Proof.
  intros (L & W & P) S. destruct S as [ws i Hi Hr E|ws|ws p i b v todo E|ws p i b E|ws b v todo|ws b|ws b i c Hi E|ws b]; unfold weight; cbn [workers pc pc_weight].
  - assert (K := sum_set ws i _ (Running O (reset O 3) (firstn per (skipn (per * i) vs))) E).
    assert (length (firstn per (skipn (per * i) vs)) <= per) by apply firstn_le_length. cbn [worker_weight] in K. lia.
  - rewrite skipn_length. lia.
  - assert (K := sum_set ws i _ (Running O (insert_point O b (pos v)) todo) E). cbn [worker_weight length] in K. lia.
  - assert (K := sum_set ws i _ (Finished O b) E). cbn [worker_weight length] in K. lia.
  - cbn. lia.
  - cbn. lia.
  - lia.
  - lia.
Qed.
Lemma no_infinite (f : nat -> mt_state O (V := V)) : f 0 = mt_init O n -> (forall k, mt_step O pos vs n per (f k) (f (S k))) -> False.
Proof.
  intros H0 H. assert (A : forall k, inv (f k) /\ weight (f k) + k <= weight (f 0)).
  { induction k as [|k [IH1 IH2]]; [split; [rewrite H0; apply inv_init|lia]|]. split; [eapply inv_step; [exact IH1|apply H]|].
    assert (K := weight_step _ _ IH1 (H k)). lia. }
  destruct (A (S (weight (f 0)))) as [_ B]. lia.
Qed.
End Threads.
