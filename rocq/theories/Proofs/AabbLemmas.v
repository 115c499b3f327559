From Coq Require Import ZArith NArith List Bool Lia Permutation.
From Verif Require Import Model.Aabb Model.VecAabb Spec.AabbSpec.
Import ListNotations.

Section Laws.
Variable O : order.
Variable ok : ocar O -> Prop.
Hypothesis HL : order_laws O ok.
Notation T := (ocar O).
Notation ole := (ole O).

Lemma ole_refl x : ok x -> ole x x.
Proof. intros H. unfold AabbSpec.ole. destruct (olt O x x) eqn:E; [|reflexivity]. rewrite <- E at 1. apply (ol_asym O ok HL); assumption. Qed.
Lemma ole_trans x y z : ok x -> ok y -> ok z -> ole x y -> ole y z -> ole x z.
Proof.
  unfold AabbSpec.ole. intros Hx Hy Hz H1 H2. destruct (olt O z x) eqn:E; [|reflexivity].
  destruct (ol_neg O ok HL z y x Hz Hy Hx E); congruence.
Qed.
Lemma ole_lt x y : ok x -> ok y -> olt O x y = true -> ole x y.
Proof. intros Hx Hy H. apply (ol_asym O ok HL); assumption. Qed.

Definition oki (i : T * T) : Prop := ok (fst i) /\ ok (snd i).
Definition ins (i j : T * T) : T * T :=
  (if olt O (fst j) (fst i) then fst j else fst i, if olt O (snd i) (snd j) then snd j else snd i).
Definition wi (i o : T * T) : Prop := ole (fst o) (fst i) /\ ole (snd i) (snd o).

Lemma ins_ok i j : oki i -> oki j -> oki (ins i j).
Proof. intros [] []. unfold oki, ins; cbn. destruct (olt O _ _), (olt O _ _); auto. Qed.
Lemma ins_l i j : oki i -> oki j -> wi i (ins i j).
Proof.
  intros [A1 A2] [B1 B2]. unfold wi, ins; cbn. split.
  - destruct (olt O (fst j) (fst i)) eqn:E; [apply ole_lt; assumption|apply ole_refl; assumption].
  - destruct (olt O (snd i) (snd j)) eqn:E; [apply ole_lt; assumption|apply ole_refl; assumption].
Qed.
Lemma ins_r i j : oki i -> oki j -> wi j (ins i j).
Proof.
  intros [A1 A2] [B1 B2]. unfold wi, ins; cbn. split.
  - destruct (olt O (fst j) (fst i)) eqn:E; [apply ole_refl; assumption|exact E].
  - destruct (olt O (snd i) (snd j)) eqn:E; [apply ole_refl; assumption|exact E].
Qed.
Lemma ins_lub i j o : wi i o -> wi j o -> wi (ins i j) o.
Proof.
  intros [A1 A2] [B1 B2]. unfold wi, ins; cbn. split; [destruct (olt O (fst j) (fst i))|destruct (olt O (snd i) (snd j))]; assumption.
Qed.
Lemma wi_refl i : oki i -> wi i i.
Proof. intros []. split; apply ole_refl; assumption. Qed.
Lemma wi_trans i j k : oki i -> oki j -> oki k -> wi i j -> wi j k -> wi i k.
Proof. intros [] [] [] [] []. split; eapply ole_trans; [| | |eassumption|eassumption| | | |eassumption|eassumption]; assumption. Qed.

(** Lifting to all components. *)
Lemma map2_length {A B C} (f : A -> B -> C) l m : length l = length m -> length (map2 f l m) = length l.
Proof. revert m; induction l as [|x l IH]; intros [|y m] H; cbn in *; try lia. rewrite IH; lia. Qed.
Notation okb := (ok_box O ok).
Lemma okb_cons n i b : okb (S n) (i :: b) <-> oki i /\ okb n b.
Proof. unfold ok_box. cbn [length]. rewrite Forall_cons_iff. unfold oki. split; intros H; intuition. Qed.
Lemma okb_nil b : okb 0 b <-> b = [].
Proof. unfold ok_box. split; [intros [H _]; destruct b; [reflexivity|discriminate]|intros ->; split; [reflexivity|constructor]]. Qed.

Lemma insert_box_ok n b c : okb n b -> okb n c -> okb n (insert_box O b c).
Proof.
  revert b c; induction n as [|n IH]; intros [|i b] [|j c] Hb Hc; try (apply okb_nil in Hb; discriminate); try (apply okb_nil in Hc; discriminate);
    try (destruct Hb; discriminate); try (destruct Hc; discriminate); [exact Hb|].
  apply okb_cons in Hb, Hc. apply okb_cons. cbn. split; [apply ins_ok; tauto|apply IH; tauto].
Qed.
Ltac two n IH := induction n as [|n IH]; intros [|i b] [|j c] Hb Hc;
    try (apply okb_nil in Hb; discriminate); try (apply okb_nil in Hc; discriminate);
    try (destruct Hb; discriminate); try (destruct Hc; discriminate); [|apply okb_cons in Hb, Hc].
Lemma insert_box_l n : forall b c, okb n b -> okb n c -> within O b (insert_box O b c).
Proof. two n IH; [constructor|]. cbn. constructor; [apply ins_l; tauto|apply IH; tauto]. Qed.
Lemma insert_box_r n : forall b c, okb n b -> okb n c -> within O c (insert_box O b c).
Proof. two n IH; [constructor|]. cbn. constructor; [apply ins_r; tauto|apply IH; tauto]. Qed.
Lemma insert_box_lub n : forall b c, okb n b -> okb n c -> forall d, within O b d -> within O c d -> within O (insert_box O b c) d.
Proof.
  two n IH; intros d H1 H2; [inversion H1; constructor|]. inversion H1; subst. inversion H2; subst. cbn.
  constructor; [apply ins_lub; assumption|apply IH; tauto].
Qed.
Lemma within_refl n b : okb n b -> within O b b.
Proof.
  revert b; induction n as [|n IH]; intros [|i b] Hb; try (apply okb_nil in Hb; discriminate); try (destruct Hb; discriminate); [constructor|].
  apply okb_cons in Hb. constructor; [apply wi_refl; tauto|apply IH; tauto].
Qed.
Lemma within_trans n : forall b c, okb n b -> okb n c -> forall d, okb n d -> within O b c -> within O c d -> within O b d.
Proof.
  two n IH; intros d Hd H1 H2; [inversion H2; constructor|]. destruct d as [|k d]; [inversion H2|].
  apply okb_cons in Hd. destruct Hb as [Hi Hb], Hc as [Hj Hc], Hd as [Hk Hd].
  inversion H1 as [|? ? ? ? P1 P2]; subst. inversion H2 as [|? ? ? ? Q1 Q2]; subst. constructor.
  - exact (wi_trans i j k Hi Hj Hk P1 Q1).
  - exact (IH b c Hb Hc d Hd P2 Q2).
Qed.

(** Points as boxes. *)
Lemma insert_point_box b p : insert_point O b p = insert_box O b (reset_to O p).
Proof.
  unfold insert_point, insert_box, reset_to. revert p; induction b as [|i b IH]; intros [|x p]; try reflexivity.
  cbn [map map2 fst snd]. f_equal. apply IH.
Qed.
Lemma reset_to_ok n p : ok_point O ok n p -> okb n (reset_to O p).
Proof.
  intros [H1 H2]. split; [unfold reset_to; rewrite map_length; exact H1|].
  unfold reset_to. apply Forall_map. eapply Forall_impl; [|exact H2]. cbn. auto.
Qed.
Lemma in_box_within p b : in_box O p b <-> within O (reset_to O p) b.
Proof.
  unfold in_box, within, reset_to. revert b; induction p as [|x p IH]; intros b; split; intros H; inversion H; subst; cbn; constructor; auto;
  apply IH; assumption.
Qed.

Definition as_box (i : item O) : box O := match i with IPoint p => reset_to O p | IBox b => b end.
Lemma insert_item_box b i : insert_item O b i = insert_box O b (as_box i).
Proof. destruct i; cbn; [apply insert_point_box|reflexivity]. Qed.
Lemma as_box_ok n i : ok_item O ok n i -> okb n (as_box i).
Proof. destruct i; cbn; [apply reset_to_ok|auto]. Qed.
Lemma item_in_within i b : item_in O i b <-> within O (as_box i) b.
Proof. destruct i; cbn; [apply in_box_within|reflexivity]. Qed.

Lemma items_ok n l : Forall (ok_item O ok n) l -> forall b, okb n b -> okb n (insert_items O b l).
Proof.
  induction 1 as [|i l Hi Hl IH]; intros b Hb; [exact Hb|]. cbn. apply IH. rewrite insert_item_box.
  apply insert_box_ok; [exact Hb|apply as_box_ok, Hi].
Qed.
Lemma items_ub n l : Forall (ok_item O ok n) l -> forall b, okb n b ->
  within O b (insert_items O b l) /\ Forall (fun i => item_in O i (insert_items O b l)) l.
Proof.
  induction 1 as [|i l Hi Hl IH]; intros b Hb; cbn [insert_items fold_left].
  - split; [apply (within_refl n); exact Hb|constructor].
  - change (fold_left (insert_item O) l (insert_item O b i)) with (insert_items O (insert_item O b i) l).
    assert (Ai := as_box_ok n i Hi). assert (Hb' : okb n (insert_item O b i)) by (rewrite insert_item_box; apply insert_box_ok; assumption).
    destruct (IH _ Hb') as [U1 U2]. assert (Hr := items_ok n l Hl _ Hb').
    split; [|constructor; [|exact U2]].
    + eapply (within_trans n b _ Hb Hb' _ Hr); [|exact U1]. rewrite insert_item_box. apply (insert_box_l n); assumption.
    + apply item_in_within. eapply (within_trans n _ _ Ai Hb' _ Hr); [|exact U1]. rewrite insert_item_box. apply (insert_box_r n); assumption.
Qed.
Lemma items_lub n l : Forall (ok_item O ok n) l -> forall b, okb n b -> forall d,
  within O b d -> Forall (fun i => item_in O i d) l -> within O (insert_items O b l) d.
Proof.
  induction 1 as [|i l Hi Hl IH]; intros b Hb d H1 H2; [exact H1|]. cbn. inversion H2; subst. assert (Ai := as_box_ok n i Hi).
  apply IH; [rewrite insert_item_box; apply insert_box_ok; assumption| |assumption].
  rewrite insert_item_box. apply (insert_box_lub n); try assumption. apply item_in_within; assumption.
Qed.

Lemma reset_ok n : okb n (reset O n).
Proof.
  split; [apply repeat_length|]. apply Forall_forall. intros i Hi. apply repeat_spec in Hi. subst i. split; [apply (ol_max O ok HL)|apply (ol_low O ok HL)].
Qed.
Definition ranged_box (b : box O) : Prop := Forall (fun i => ranged O (fst i) /\ ranged O (snd i)) b.
Lemma insert_reset n : forall b d, okb n b -> okb n d -> ranged_box b -> within O b d -> within O (insert_box O (reset O n) b) d.
Proof.
  induction n as [|n IH]; intros [|i b] [|j c] Hb Hd R W;
    try (apply okb_nil in Hb; discriminate); try (apply okb_nil in Hd; discriminate); try (destruct Hb; discriminate); try (destruct Hd; discriminate); [constructor|].
  apply okb_cons in Hb, Hd. destruct Hb as [[A1 A2] Hb], Hd as [[B1 B2] Hd]. inversion_clear W as [|? ? ? ? [W1 W2] W3]. inversion_clear R as [|? ? [[R1 R2] [R3 R4]] R5]. cbn. constructor; [|apply IH; assumption].
  cbn. assert (M := ol_max O ok HL). assert (L := ol_low O ok HL). split.
  - destruct (olt O (fst i) (omax O)); [exact W1|]. eapply ole_trans; [| | |exact W1|exact R2]; assumption.
  - destruct (olt O (olow O) (snd i)); [exact W2|]. eapply ole_trans; [| | |exact R3|exact W2]; assumption.
Qed.
Lemma ranged_as_box i : ranged_item O i -> ranged_box (as_box i).
Proof. destruct i; cbn; [|auto]. intros H. unfold ranged_box, reset_to. apply Forall_map. eapply Forall_impl; [|exact H]. cbn. auto. Qed.

(** Least box containing all items. *)
Lemma reset_items_least n l d : l <> [] -> Forall (ok_item O ok n) l -> Forall (ranged_item O) l -> okb n d ->
  Forall (fun i => item_in O i d) l -> within O (insert_items O (reset O n) l) d.
Proof.
  destruct l as [|i l]; [congruence|]. intros _ Hl R Hd H. inversion_clear Hl as [|? ? P1 P2]. inversion_clear R as [|? ? Q1 Q2]. inversion_clear H as [|? ? S1 S2]. cbn.
  assert (Ai := as_box_ok n i P1). apply (items_lub n); [assumption| | |assumption]; rewrite insert_item_box.
  - apply insert_box_ok; [apply reset_ok|assumption].
  - apply insert_reset; try assumption; [apply ranged_as_box; assumption|apply item_in_within; assumption].
Qed.

Lemma within_antisym b c : within O b c -> within O c b -> box_eq O b c.
Proof.
  intros H; induction H as [|i j b c [H1 H2] Hbc IH]; intros W; inversion_clear W as [|? ? ? ? [W1 W2] W3]; constructor.
  - unfold oeq. auto.
  - apply IH; assumption.
Qed.

(** Two lists with the same members. *)
Lemma reset_items_same n l l' : Forall (ok_item O ok n) l -> Forall (ok_item O ok n) l' -> (forall i, In i l <-> In i l') ->
  box_eq O (insert_items O (reset O n) l) (insert_items O (reset O n) l').
Proof.
  intros H H' S.
  assert (K : forall l l', Forall (ok_item O ok n) l -> Forall (ok_item O ok n) l' -> (forall i, In i l -> In i l') ->
    within O (insert_items O (reset O n) l) (insert_items O (reset O n) l')).
  { clear -HL. intros l l' H H' S. destruct (items_ub n l' H' (reset O n) (reset_ok n)) as [U1 U2].
    apply (items_lub n); [exact H|apply reset_ok|exact U1|]. rewrite Forall_forall in *. auto. }
  apply within_antisym; apply K; auto; intros i Hi; apply S; exact Hi.
Qed.

(** Predicates *)
Lemma all2_spec {A B} (f : A -> B -> bool) l m : length l = length m -> all2 f l m = true <-> Forall2 (fun x y => f x y = true) l m.
Proof.
  revert m; induction l as [|x l IH]; intros [|y m] H; cbn in *; try lia; [split; constructor|].
  destruct (f x y) eqn:E; split; intros H1.
  - constructor; [exact E|apply IH; [lia|exact H1]].
  - inversion H1; subst. apply IH; [lia|assumption].
  - discriminate.
  - inversion H1; congruence.
Qed.
Lemma forall2_iff {A B} (P Q : A -> B -> Prop) l m : (forall x y, P x y <-> Q x y) -> Forall2 P l m <-> Forall2 Q l m.
Proof. intros H; split; intros F; induction F; constructor; try assumption; apply H; assumption. Qed.
Lemma forall2_swap {A B} (P : A -> B -> Prop) l m : Forall2 P l m <-> Forall2 (fun y x => P x y) m l.
Proof. split; intros H; induction H; constructor; assumption. Qed.
Lemma neg_or a b : negb (a || b) = true <-> a = false /\ b = false.
Proof. destruct a, b; cbn; intuition congruence. Qed.

Lemma contains_iff (b : box O) (p : point O) : length b = length p -> contains_point O b p = true <-> in_box O p b.
Proof.
  intros H. unfold contains_point, in_box. rewrite (all2_spec _ _ _ H). rewrite forall2_swap.
  apply forall2_iff. intros x i. apply neg_or.
Qed.
Lemma inside_iff (b c : box O) : length b = length c -> inside_of O b c = true <-> within O b c.
Proof. intros H. unfold inside_of, within. rewrite (all2_spec _ _ _ H). apply forall2_iff. intros x i. apply neg_or. Qed.
Lemma overlap_iff (b c : box O) : length b = length c ->
  overlap O b c = true <-> Forall2 (fun i j => ole (fst j) (snd i) /\ ole (fst i) (snd j)) b c.
Proof. intros H. unfold overlap. rewrite (all2_spec _ _ _ H). apply forall2_iff. intros x i. apply neg_or. Qed.

Lemma within_subset n b c : okb n b -> okb n c -> valid_box O b ->
  within O b c <-> (forall p, ok_point O ok n p -> in_box O p b -> in_box O p c).
Proof.
  intros Hb Hc V. split.
  - intros W p Hp Hin. apply in_box_within in Hin. apply in_box_within.
    eapply (within_trans n); [apply reset_to_ok; exact Hp|exact Hb|exact Hc|exact Hin|exact W].
  - intros S.
    assert (L : ok_point O ok n (map fst b)) by (destruct Hb as [E F]; split; [rewrite map_length; exact E|apply Forall_map; eapply Forall_impl; [|exact F]; cbn; tauto]).
    assert (U : ok_point O ok n (map snd b)) by (destruct Hb as [E F]; split; [rewrite map_length; exact E|apply Forall_map; eapply Forall_impl; [|exact F]; cbn; tauto]).
    assert (I1 : in_box O (map fst b) b).
    { clear -V Hb HL. destruct Hb as [_ F]. induction b as [|i b IH]; [constructor|]. inversion V; subst. inversion F; subst. constructor; [|apply IH; assumption].
      split; [apply ole_refl; tauto|assumption]. }
    assert (I2 : in_box O (map snd b) b).
    { clear -V Hb HL. destruct Hb as [_ F]. induction b as [|i b IH]; [constructor|]. inversion V; subst. inversion F; subst. constructor; [|apply IH; assumption].
      split; [assumption|apply ole_refl; tauto]. }
    apply S in I1; [|exact L]. apply S in I2; [|exact U]. clear -I1 I2.
    revert c I1 I2. induction b as [|i b IH]; intros c I1 I2; cbn in *; inversion I1; subst; constructor.
    + inversion I2; subst. split; tauto.
    + inversion I2; subst. apply IH; assumption.
Qed.

Lemma overlap_common n b c : okb n b -> okb n c -> valid_box O b -> valid_box O c ->
  overlap O b c = true <-> exists p, ok_point O ok n p /\ in_box O p b /\ in_box O p c.
Proof.
  intros Hb Hc Vb Vc. rewrite overlap_iff by (destruct Hb, Hc; congruence). split.
  - revert b c Hb Hc Vb Vc. two n IH; intros Vb Vc H.
    + exists []. split; [split; [reflexivity|constructor]|split; constructor].
    + inversion_clear Vb as [|? ? V1 V2]. inversion_clear Vc as [|? ? V3 V4]. inversion_clear H as [|? ? ? ? [X1 X2] X3].
      destruct Hb as [[A1 A2] Hb], Hc as [[B1 B2] Hc].
      destruct (IH b c Hb Hc V2 V4 X3) as (p & [Lp Fp] & Pb & Pc).
      exists ((if olt O (fst i) (fst j) then fst j else fst i) :: p). split; [|split].
      * split; [cbn; congruence|]. constructor; [destruct (olt O _ _); assumption|exact Fp].
      * constructor; [|exact Pb]. destruct (olt O (fst i) (fst j)) eqn:E; split; try assumption.
        -- apply ole_lt; assumption.
        -- apply ole_refl; assumption.
      * constructor; [|exact Pc]. destruct (olt O (fst i) (fst j)) eqn:E; split; try assumption.
        apply ole_refl; assumption.
  - intros (p & [Lp Fp] & Pb & Pc). clear Vb Vc.
    revert b c Hb Hc p Lp Fp Pb Pc. two n IH; intros p Lp Fp Pb Pc; [constructor|].
    destruct p as [|x p]; [discriminate|]. inversion_clear Pb as [|? ? ? ? [X1 X2] X3]. inversion_clear Pc as [|? ? ? ? [Y1 Y2] Y3]. inversion_clear Fp.
    destruct Hb as [[A1 A2] Hb], Hc as [[B1 B2] Hc]. constructor.
    + split; (eapply ole_trans; [| | |eassumption|eassumption]; assumption).
    + apply (IH b c Hb Hc p); auto.
Qed.

Lemma repair_valid b : Forall oki b -> valid_box O (repair O b).
Proof.
  intros H. unfold repair, valid_box. apply Forall_map. eapply Forall_impl; [|exact H]. intros i [H1 H2]. cbn.
  destruct (olt O (snd i) (fst i)) eqn:E; cbn; [apply ole_lt; assumption|exact E].
Qed.
Lemma repair_id b : valid_box O b -> repair O b = b.
Proof.
  intros H. unfold repair. rewrite <- (map_id b) at 2. apply map_ext_in. intros i Hi. unfold valid_box in H. rewrite Forall_forall in H.
  specialize (H i Hi). unfold AabbSpec.ole in H. rewrite H. reflexivity.
Qed.
End Laws.

(** *** Vectorised boxes *)
Section Lanes.
Variable lt : N -> N -> bool.
Definition lane (x : N) : Prop := (x <= ones)%N.
Lemma lane_and x : lane x -> N.land ones x = x.
Proof.
  intros H. change ones with (N.ones 32). rewrite N.land_comm, N.land_ones. apply N.mod_small. unfold lane, ones in H.
  change (2 ^ 32)%N with 4294967296%N. lia.
Qed.
Lemma select b x y : lane x -> lane y -> or_ps (and_ps (mask b) x) (andnot_ps (mask b) y) = if b then x else y.
Proof.
  intros Hx Hy. unfold or_ps, and_ps, andnot_ps, mask. destruct b.
  - rewrite lane_and by exact Hx. rewrite N.lxor_nilpotent. cbn. apply N.lor_0_r.
  - rewrite N.lxor_0_l, lane_and by exact Hy. cbn. reflexivity.
Qed.
Lemma and_mask a b : and_ps (mask a) (mask b) = mask (a && b).
Proof. destruct a, b; reflexivity. Qed.
Lemma v_all_map2 {A B} (f : A -> B -> bool) l m : v_all (map2 (fun x y => mask (f x y)) l m) = mask (all2 f l m).
Proof.
  revert m; induction l as [|x l IH]; intros [|y m]; try reflexivity. cbn. unfold v_all in IH. rewrite IH, and_mask. destruct (f x y); reflexivity.
Qed.
End Lanes.
