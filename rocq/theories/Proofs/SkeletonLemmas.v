From Coq Require Import ZArith List Bool Arith Lia Sorted FinFun.
From Verif Require Import Model.Skeleton Spec.SkeletonSpec.
Import ListNotations.

Section Skel.
Context {G : mat_ops} {X : Type}.
Notation joint := (joint G X).
Notation M := (mat G).

Lemma joint_ind' (P : joint -> Prop) : (forall d l, Forall P l -> P (Joint d l)) -> forall j, P j.
Proof.
  intros H. fix IH 1. intros [d l]. apply H. induction l as [|s r IHr]; constructor; [apply IH|exact IHr].
Qed.

(** *** Enumeration *)
Lemma list_joints_eq d (l : list joint) : list_joints G X (Joint d l) = Joint d l :: joint_list G X l.
Proof. reflexivity. Qed.

Fixpoint jpaths (j : joint) : list path :=
  match j with Joint d l =>
    [] :: (fix go l i := match l with [] => [] | s :: r => map (cons i) (jpaths s) ++ go r (S i) end) l 0 end.
Fixpoint fpaths (l : list joint) (i : nat) : list path :=
  match l with [] => [] | s :: r => map (cons i) (jpaths s) ++ fpaths r (S i) end.
Lemma jpaths_eq d l : jpaths (Joint d l) = [] :: fpaths l 0.
Proof. reflexivity. Qed.

Definition lookupj (j : joint) (q : path) : option joint := match q with [] => Some j | _ => lookup (jsubs j) q end.
Lemma lookup_cons (f : list joint) i q : lookup f (i :: q) = match nth_error f i with Some j => lookupj j q | None => None end.
Proof. reflexivity. Qed.
Definition wayj (j : joint) (q : path) : list joint := j :: way (jsubs j) q.

Lemma fpaths_head (l : list joint) : forall i p, In p (fpaths l i) -> exists k q, p = k :: q /\ (i <= k < i + length l)%nat.
Proof.
  induction l as [|s r IH]; intros i p H; cbn [fpaths] in H; [destruct H|].
  apply in_app_iff in H. destruct H as [H|H].
  - apply in_map_iff in H. destruct H as (q & <- & _). exists i, q. cbn. split; [reflexivity|lia].
  - destruct (IH (S i) p H) as (k & q & E & B). exists k, q. cbn. split; [exact E|lia].
Qed.

Lemma lookup_paths_forest (l : list joint) : Forall (fun j => map (lookupj j) (jpaths j) = map Some (list_joints G X j)) l ->
  forall pre, map (lookup (pre ++ l)) (fpaths l (length pre)) = map Some (joint_list G X l).
Proof.
  induction 1 as [|s r Hs Hr IH]; intros pre; [reflexivity|].
  cbn [fpaths joint_list flat_map]. rewrite !map_app. f_equal.
  - rewrite map_map. rewrite <- Hs. apply map_ext. intros q. rewrite lookup_cons.
    rewrite nth_error_app2, Nat.sub_diag by lia. reflexivity.
  - specialize (IH (pre ++ [s])). rewrite app_length, <- app_assoc in IH. cbn [length app] in IH.
    rewrite Nat.add_1_r in IH. exact IH.
Qed.

Lemma lookup_jpaths (j : joint) : map (lookupj j) (jpaths j) = map Some (list_joints G X j).
Proof.
  induction j as [d l IH] using joint_ind'. rewrite jpaths_eq, list_joints_eq. cbn [map]. f_equal.
  rewrite <- (lookup_paths_forest l IH []). apply map_ext_in. intros q Hq. cbn [app].
  destruct (fpaths_head l _ q Hq) as (k & r & -> & _). reflexivity.
Qed.

Lemma lookup_fpaths (f : list joint) : map (lookup f) (fpaths f 0) = map Some (joint_list G X f).
Proof.
  apply (lookup_paths_forest f (proj2 (Forall_forall _ _) (fun j _ => lookup_jpaths j)) []).
Qed.

Lemma sorted_app {A} (R : A -> A -> Prop) l m : StronglySorted R l -> StronglySorted R m ->
  (forall x y, In x l -> In y m -> R x y) -> StronglySorted R (l ++ m).
Proof.
  induction 1 as [|x l H1 IH H2]; intros Hm Hlm; [exact Hm|]. cbn [app]. constructor.
  - apply IH; [exact Hm|]. intros a b Ha Hb. apply Hlm; [right; exact Ha|exact Hb].
  - apply Forall_app. split; [exact H2|]. apply Forall_forall. intros y Hy. apply Hlm; [left; reflexivity|exact Hy].
Qed.

Lemma sorted_map_cons i (l : list path) : StronglySorted before l -> StronglySorted before (map (cons i) l).
Proof.
  induction 1 as [|x l H1 IH H2]; cbn; constructor; [exact IH|].
  apply Forall_map. eapply Forall_impl; [|exact H2]. intros q Hq. apply before_same, Hq.
Qed.

Lemma fpaths_sorted (l : list joint) : Forall (fun j => StronglySorted before (jpaths j)) l ->
  forall i, StronglySorted before (fpaths l i).
Proof.
  induction 1 as [|s r Hs Hr IH]; intros i; cbn [fpaths]; [constructor|].
  apply sorted_app; [apply sorted_map_cons, Hs|apply IH|].
  intros x y Hx Hy. apply in_map_iff in Hx. destruct Hx as (q & <- & _).
  destruct (fpaths_head r (S i) y Hy) as (k & q' & -> & B). apply before_sibling. lia.
Qed.

Lemma jpaths_sorted (j : joint) : StronglySorted before (jpaths j).
Proof.
  induction j as [d l IH] using joint_ind'. rewrite jpaths_eq. constructor; [apply fpaths_sorted, IH|].
  apply Forall_forall. intros p Hp. destruct (fpaths_head l 0 p Hp) as (k & q & -> & _).
  apply before_ancestor. discriminate.
Qed.

Lemma fpaths_all (l : list joint) : Forall (fun j => forall q, lookupj j q <> None -> In q (jpaths j)) l ->
  forall i k q j, nth_error l k = Some j -> lookupj j q <> None -> In ((i + k) :: q) (fpaths l i).
Proof.
  induction 1 as [|s r Hs Hr IH]; intros i k q j Hk Hq; [destruct k; discriminate|].
  cbn [fpaths]. apply in_app_iff. destruct k as [|k]; cbn in Hk.
  - injection Hk as ->. left. rewrite Nat.add_0_r. apply in_map, Hs, Hq.
  - right. rewrite Nat.add_succ_r. apply (IH (S i) k q j Hk Hq).
Qed.
Lemma jpaths_all (j : joint) : forall q, lookupj j q <> None -> In q (jpaths j).
Proof.
  induction j as [d l IH] using joint_ind'. intros [|k q] Hq; [left; reflexivity|].
  rewrite jpaths_eq. right. cbn [lookupj jsubs] in Hq. rewrite lookup_cons in Hq.
  destruct (nth_error l k) as [s|] eqn:E; [|congruence]. apply (fpaths_all l IH 0 k q s E Hq).
Qed.

Lemma fpaths_preorder (f : list joint) : preorder f (fpaths f 0).
Proof.
  split; [apply fpaths_sorted, Forall_forall; intros; apply jpaths_sorted|].
  intros p; split.
  - intros Hp. assert (In (lookup f p) (map (lookup f) (fpaths f 0))) as H by (apply in_map, Hp).
    rewrite lookup_fpaths in H. apply in_map_iff in H. destruct H as (x & <- & _). discriminate.
  - intros Hp. destruct p as [|k q]; [cbn in Hp; congruence|]. rewrite lookup_cons in Hp.
    destruct (nth_error f k) as [j|] eqn:E; [|congruence].
    apply (fpaths_all f (proj2 (Forall_forall _ _) (fun j _ => jpaths_all j)) 0 k q j E Hp).
Qed.

(** Preorder enumerations are unique. *)
Lemma before_irrefl p : ~ before p p.
Proof. induction p as [|i p IH]; intros H; inversion H; subst; auto; lia. Qed.
Lemma before_trans p q r : before p q -> before q r -> before p r.
Proof.
  intros H; revert r; induction H; intros r H1; inversion H1; subst; try (constructor; (auto || lia || discriminate)).
  all: try congruence. 
Qed.
Lemma preorder_unique (f : list joint) ps qs : preorder f ps -> preorder f qs -> ps = qs.
Proof.
  intros [S1 I1] [S2 I2].
  assert (I : forall p, In p ps <-> In p qs) by (intros p; rewrite I1, I2; tauto). clear I1 I2.
  revert qs S2 I. induction S1 as [|x l H1 IH H2]; intros qs S2 I.
  - destruct qs as [|y qs]; [reflexivity|]. exfalso. apply (I y). left; reflexivity.
  - destruct qs as [|y qs]; [exfalso; apply (I x); left; reflexivity|].
    inversion_clear S2 as [|? ? S3 S4]. rewrite Forall_forall in *.
    assert (E : x = y).
    { destruct (proj1 (I x) (or_introl eq_refl)) as [|Hx]; [auto|].
      destruct (proj2 (I y) (or_introl eq_refl)) as [|Hy]; [auto|].
      exfalso. apply (before_irrefl x). eapply before_trans; [apply H2, Hy|apply S4, Hx]. }
    subst y. f_equal. apply IH; [exact S3|]. intros p. split; intros Hp.
    + destruct (proj1 (I p) (or_intror Hp)) as [<-|Hq]; [|exact Hq]. exfalso. apply (before_irrefl x), H2, Hp.
    + destruct (proj2 (I p) (or_intror Hp)) as [<-|Hq]; [|exact Hq]. exfalso. apply (before_irrefl x), S4, Hp.
Qed.

(** Counting *)
Lemma num_sub_eq d (l : list joint) : num_sub_joints G X (Joint d l) = num_joints G X l.
Proof.
  cbn [num_sub_joints]. unfold num_joints. generalize (length l). 
  induction l as [|s r IH]; intros n; [reflexivity|]. cbn [fold_left]. apply IH.
Qed.
Lemma num_joints_forest (l : list joint) : Forall (fun j => S (num_sub_joints G X j) = length (list_joints G X j)) l ->
  forall n, fold_left (fun n j => n + num_sub_joints G X j) l (n + length l) = n + length (joint_list G X l).
Proof.
  induction 1 as [|s r Hs Hr IH]; intros n; [reflexivity|].
  cbn [fold_left length joint_list flat_map]. rewrite app_length, <- Hs.
  replace (n + S (length r) + num_sub_joints G X s) with ((n + S (num_sub_joints G X s)) + length r) by lia.
  rewrite IH. unfold joint_list. lia.
Qed.
Lemma num_sub_joints_ok (j : joint) : S (num_sub_joints G X j) = length (list_joints G X j).
Proof.
  induction j as [d l IH] using joint_ind'. rewrite num_sub_eq, list_joints_eq. cbn [length]. f_equal.
  apply (num_joints_forest l IH 0).
Qed.
Lemma num_joints_ok (f : list joint) : num_joints G X f = length (joint_list G X f).
Proof. apply (num_joints_forest f (proj2 (Forall_forall _ _) (fun j _ => num_sub_joints_ok j)) 0). Qed.

(** ForEachJoint *)
Lemma iterate_joint_eq d (l : list joint) i :
  iterate_joint G X (Joint d l) i = ((Joint d l, i) :: fst (iterate_list G X l (S i)), snd (iterate_list G X l (S i))).
Proof.
  cbn [iterate_joint].
  assert (E : forall (l : list joint) n, (fix go l i := match l with
              | [] => ([], i)
              | s :: r => let a := iterate_joint G X s i in let b := go r (snd a) in (fst a ++ fst b, snd b)
              end) l n = iterate_list G X l n).
  { clear. induction l as [|s r IH]; intros n; [reflexivity|]. cbn [iterate_list]. rewrite IH. reflexivity. }
  rewrite E. reflexivity.
Qed.
Definition numbered (l : list joint) (i : nat) : list (joint * nat) := combine l (seq i (length l)).
Lemma numbered_app l m i : numbered (l ++ m) i = numbered l i ++ numbered m (i + length l).
Proof.
  unfold numbered. revert i; induction l as [|x l IH]; intros i; cbn; [rewrite Nat.add_0_r; reflexivity|].
  f_equal. rewrite IH. do 3 f_equal. lia.
Qed.
Lemma iterate_forest (l : list joint) :
  Forall (fun j => forall i, iterate_joint G X j i = (numbered (list_joints G X j) i, i + length (list_joints G X j))) l ->
  forall i, iterate_list G X l i = (numbered (joint_list G X l) i, i + length (joint_list G X l)).
Proof.
  induction 1 as [|s r Hs Hr IH]; intros i; cbn [iterate_list joint_list flat_map].
  - rewrite Nat.add_0_r. reflexivity.
  - rewrite Hs. cbn [fst snd]. rewrite IH. cbn [fst snd]. rewrite numbered_app, app_length. f_equal. unfold joint_list. lia.
Qed.
Lemma iterate_joint_ok (j : joint) : forall i, iterate_joint G X j i = (numbered (list_joints G X j) i, i + length (list_joints G X j)).
Proof.
  induction j as [d l IH] using joint_ind'. intros i. rewrite iterate_joint_eq, list_joints_eq, (iterate_forest l IH).
  cbn [fst snd length]. f_equal. lia.
Qed.
Lemma for_each_ok (f : list joint) : for_each_joint G X f = numbered (joint_list G X f) 0.
Proof.
  unfold for_each_joint. rewrite iterate_forest; [reflexivity|]. apply Forall_forall. intros; apply iterate_joint_ok.
Qed.

(** *** Buffers *)
Fixpoint emits (b : bufst G) (ms : list M) : option (bufst G) :=
  match ms with [] => Some b | m :: r => match emit G b m with Some b' => emits b' r | None => None end end.
Lemma emits_app b l m : emits b (l ++ m) = match emits b l with Some b' => emits b' m | None => None end.
Proof. revert b; induction l as [|x l IH]; intros b; [reflexivity|]. cbn [app emits]. destruct (emit G b x); [apply IH|reflexivity]. Qed.
Lemma emits_written b ms b' : emits b ms = Some b' -> written b' = written b + length ms.
Proof.
  revert b; induction ms as [|m r IH]; intros b H; cbn [emits] in H; [injection H as <-; cbn; lia|].
  destruct (emit G b m) as [b1|] eqn:E; [|discriminate]. rewrite (IH b1 H). unfold emit in E.
  destruct (_ <? _)%nat; [|discriminate]. injection E as <-. cbn. lia.
Qed.
Lemma set_nth_length {A} (l : list A) i v : length (set_nth l i v) = length l.
Proof. revert i; induction l as [|x l IH]; intros [|i]; cbn; auto. Qed.
Lemma set_nth_firstn {A} (l : list A) i v : (i < length l)%nat -> firstn (S i) (set_nth l i v) = firstn i l ++ [v].
Proof.
  revert i; induction l as [|x l IH]; intros i H; [cbn in H; lia|]. destruct i as [|i]; [reflexivity|].
  cbn [length] in H. cbn [set_nth firstn app]. f_equal. apply IH. lia.
Qed.
Lemma set_nth_skipn {A} (l : list A) i v : skipn (S i) (set_nth l i v) = skipn (S i) l.
Proof. revert i; induction l as [|x l IH]; intros [|i]; cbn; auto. apply IH. Qed.

Lemma emits_ok ms : forall b, (ptr b + length ms <= length (mem b))%nat ->
  exists b', emits b ms = Some b' /\ ptr b' = ptr b + length ms /\ written b' = written b + length ms
    /\ mem b' = firstn (ptr b) (mem b) ++ ms ++ skipn (ptr b + length ms) (mem b).
Proof.
  induction ms as [|m r IH]; intros b H; cbn [emits length] in *.
  - exists b. rewrite !Nat.add_0_r. cbn [app]. rewrite firstn_skipn. auto.
  - unfold emit. destruct (Nat.ltb_spec (ptr b) (length (mem b))); [|lia].
    destruct (IH (mkBuf (set_nth (mem b) (ptr b) m) (S (ptr b)) (S (written b)))) as (b' & E & P & W & Mm).
    { cbn [ptr mem]. rewrite set_nth_length. lia. }
    exists b'. split; [exact E|]. cbn [ptr written mem] in *. split; [lia|]. split; [lia|].
    rewrite Mm, set_nth_firstn by lia. rewrite <- app_assoc. cbn [app]. do 2 f_equal. f_equal.
    replace (ptr b + S (length r)) with (S (ptr b) + length r) by lia.
    rewrite <- !(skipn_skipn (length r) (S (ptr b))) || idtac.
    assert (SK : forall A (l : list A) a c, skipn (a + c) l = skipn c (skipn a l)).
    { clear. intros A l a c; revert l; induction a as [|a IH]; intros l; [reflexivity|]. destruct l; cbn; [destruct c; reflexivity|apply IH]. }
    rewrite !SK, set_nth_skipn. reflexivity.
Qed.

(** The matrices written for a joint, in order. *)
Fixpoint gmats (rel : bool) (parent : M) (j : joint) : list M :=
  match j with Joint d l =>
    let pm := mmul G parent (jtrans d) in
    (if rel then mmul G pm (jspace d) else pm) :: flat_map (gmats rel pm) l end.
Definition lmats (j : joint) : list M := map (fun j => jtrans (jd j)) (list_joints G X j).

Lemma firstn_none {A} (l : list A) n : (n <= 0)%nat -> firstn n l = [].
Proof. intros; replace n with 0%nat by lia; reflexivity. Qed.

Lemma fill_global_forest rel (l : list joint) max :
  Forall (fun j => forall pm b, (written b < max)%nat -> fill_global G X j pm b max rel = emits b (firstn (max - written b) (gmats rel pm j))) l ->
  forall pm b, fill_global_list G X l pm b max rel = emits b (firstn (max - written b) (flat_map (gmats rel pm) l)).
Proof.
  induction 1 as [|s r Hs Hr IH]; intros pm b; cbn [fill_global_list flat_map]; [rewrite firstn_nil; reflexivity|].
  destruct (Nat.ltb_spec (written b) max) as [L|L]; [|rewrite firstn_none by lia; reflexivity].
  rewrite Hs by exact L. rewrite firstn_app, emits_app.
  destruct (emits b (firstn (max - written b) (gmats rel pm s))) as [b'|] eqn:E; [|reflexivity].
  rewrite IH. apply emits_written in E. rewrite E. f_equal. f_equal. rewrite firstn_length. lia.
Qed.
Lemma fill_global_eq d (l : list joint) pm b max rel : fill_global G X (Joint d l) pm b max rel =
  let q := mmul G pm (jtrans d) in
  match emit G b (if rel then mmul G q (jspace d) else q) with
  | None => None | Some b1 => fill_global_list G X l q b1 max rel end.
Proof.
  cbn [fill_global]. cbn zeta. destruct (emit _ _ _) as [b1|]; [|reflexivity].
  revert b1. induction l as [|s r IH]; intros b1; [reflexivity|]. cbn [fill_global_list].
  destruct (_ <? _)%nat; [|reflexivity]. destruct (fill_global G X s _ b1 max rel); [apply IH|reflexivity].
Qed.
Lemma fill_global_ok rel max (j : joint) : forall pm b, (written b < max)%nat ->
  fill_global G X j pm b max rel = emits b (firstn (max - written b) (gmats rel pm j)).
Proof.
  induction j as [d l IH] using joint_ind'. intros pm b L. rewrite fill_global_eq. cbn zeta. cbn [gmats].
  destruct (max - written b) as [|n] eqn:En; [lia|]. cbn [firstn emits].
  destruct (emit G b _) as [b1|] eqn:E; [|reflexivity]. rewrite (fill_global_forest rel l max IH).
  f_equal. f_equal. unfold emit in E. destruct (_ <? _)%nat; [|discriminate]. injection E as <-. cbn [written]. lia.
Qed.

Lemma fill_local_forest (l : list joint) max :
  Forall (fun j => forall b, (written b < max)%nat -> fill_local G X j b max = emits b (firstn (max - written b) (lmats j))) l ->
  forall b, fill_local_list G X l b max = emits b (firstn (max - written b) (flat_map lmats l)).
Proof.
  induction 1 as [|s r Hs Hr IH]; intros b; cbn [fill_local_list flat_map]; [rewrite firstn_nil; reflexivity|].
  destruct (Nat.ltb_spec (written b) max) as [L|L]; [|rewrite firstn_none by lia; reflexivity].
  rewrite Hs by exact L. rewrite firstn_app, emits_app.
  destruct (emits b (firstn (max - written b) (lmats s))) as [b'|] eqn:E; [|reflexivity].
  rewrite IH. apply emits_written in E. rewrite E. f_equal. f_equal. rewrite firstn_length. lia.
Qed.
Lemma fill_local_eq d (l : list joint) b max : fill_local G X (Joint d l) b max =
  match emit G b (jtrans d) with None => None | Some b1 => fill_local_list G X l b1 max end.
Proof.
  cbn [fill_local]. destruct (emit _ _ _) as [b1|]; [|reflexivity].
  revert b1. induction l as [|s r IH]; intros b1; [reflexivity|]. cbn [fill_local_list].
  destruct (_ <? _)%nat; [|reflexivity]. destruct (fill_local G X s b1 max); [apply IH|reflexivity].
Qed.
Lemma lmats_flat (l : list joint) : flat_map lmats l = map (fun j => jtrans (jd j)) (joint_list G X l).
Proof. unfold lmats, joint_list. induction l as [|s r IH]; [reflexivity|]. cbn [flat_map]. rewrite map_app, IH. reflexivity. Qed.
Lemma fill_local_ok max (j : joint) : forall b, (written b < max)%nat ->
  fill_local G X j b max = emits b (firstn (max - written b) (lmats j)).
Proof.
  induction j as [d l IH] using joint_ind'. intros b L. rewrite fill_local_eq. unfold lmats at 1. rewrite list_joints_eq. cbn [map].
  destruct (max - written b) as [|n] eqn:En; [lia|]. cbn [firstn emits jd].
  destruct (emit G b _) as [b1|] eqn:E; [|reflexivity]. rewrite (fill_local_forest l max IH), lmats_flat.
  f_equal. f_equal. unfold emit in E. destruct (_ <? _)%nat; [|discriminate]. injection E as <-. cbn [written]. lia.
Qed.

(** Matrices by position *)
Definition prod_from (sel : joint -> M) (m : M) (w : list joint) : M := fold_left (fun m j => mmul G m (sel j)) w m.
Definition trans_of (j : joint) : M := jtrans (jd j).
Definition entry (rel : bool) (m : M) (o : option joint) : M :=
  match o with Some j => if rel then mmul G m (jspace (jd j)) else m | None => m end.

Lemma gmats_forest rel (l : list joint) :
  Forall (fun j => forall m, gmats rel m j = map (fun q => entry rel (prod_from trans_of m (wayj j q)) (lookupj j q)) (jpaths j)) l ->
  forall pre m, flat_map (gmats rel m) l =
    map (fun p => entry rel (prod_from trans_of m (way (pre ++ l) p)) (lookup (pre ++ l) p)) (fpaths l (length pre)).
Proof.
  induction 1 as [|s r Hs Hr IH]; intros pre m; [reflexivity|].
  cbn [flat_map fpaths]. rewrite map_app, map_map. f_equal.
  - rewrite Hs. apply map_ext. intros q. rewrite lookup_cons. cbn [way].
    rewrite nth_error_app2, Nat.sub_diag by lia. reflexivity.
  - specialize (IH (pre ++ [s]) m). rewrite app_length, <- app_assoc in IH. cbn [length app] in IH.
    rewrite Nat.add_1_r in IH. exact IH.
Qed.
Lemma gmats_paths rel (j : joint) : forall m, gmats rel m j = map (fun q => entry rel (prod_from trans_of m (wayj j q)) (lookupj j q)) (jpaths j).
Proof.
  induction j as [d l IH] using joint_ind'. intros m. rewrite jpaths_eq. cbn [gmats map]. f_equal.
  rewrite (gmats_forest rel l IH []). apply map_ext_in. intros p Hp. cbn [app].
  destruct (fpaths_head l 0 p Hp) as (k & q & -> & _). reflexivity.
Qed.
Lemma gmats_fpaths rel (f : list joint) m : flat_map (gmats rel m) f =
  map (fun p => entry rel (prod_from trans_of m (way f p)) (lookup f p)) (fpaths f 0).
Proof. apply (gmats_forest rel f (proj2 (Forall_forall _ _) (fun j _ => gmats_paths rel j)) []). Qed.

Lemma fill_global_buffer_ok (f : list joint) (memory : list M) size rel :
  Nat.modulo size 16 = 0 -> (Nat.div size 16 <= length memory)%nat ->
  let mats := flat_map (gmats rel (m1 G)) f in
  fill_global_buffer G X f (Some memory) size rel =
    Filled (firstn (Nat.div size 16) mats ++ skipn (min (Nat.div size 16) (length mats)) memory) (min (Nat.div size 16) (length mats) * 16).
Proof.
  intros Hm Hl. cbn zeta. unfold fill_global_buffer, fill_buffer. rewrite Hm. cbn [Nat.eqb].
  rewrite (fill_global_forest rel f) by (apply Forall_forall; intros; apply fill_global_ok; assumption).
  cbn [written]. rewrite Nat.sub_0_r.
  destruct (emits_ok (firstn (Nat.div size 16) (flat_map (gmats rel (m1 G)) f)) (mkBuf memory 0 0)) as (b' & E & P & W & Mm).
  { cbn [ptr mem]. rewrite firstn_length. lia. }
  rewrite E, W, Mm. cbn [ptr mem written firstn app]. rewrite firstn_length. reflexivity.
Qed.
Lemma fill_local_buffer_ok (f : list joint) (memory : list M) size :
  Nat.modulo size 16 = 0 -> (Nat.div size 16 <= length memory)%nat ->
  let mats := map trans_of (joint_list G X f) in
  fill_local_buffer G X f (Some memory) size =
    Filled (firstn (Nat.div size 16) mats ++ skipn (min (Nat.div size 16) (length mats)) memory) (min (Nat.div size 16) (length mats) * 16).
Proof.
  intros Hm Hl. cbn zeta. unfold fill_local_buffer, fill_buffer. rewrite Hm. cbn [Nat.eqb].
  rewrite (fill_local_forest f) by (apply Forall_forall; intros; apply fill_local_ok; assumption).
  rewrite lmats_flat. change (fun j : joint => jtrans (jd j)) with trans_of. cbn [written]. rewrite Nat.sub_0_r.
  destruct (emits_ok (firstn (Nat.div size 16) (map trans_of (joint_list G X f))) (mkBuf memory 0 0)) as (b' & E & P & W & Mm).
  { cbn [ptr mem]. rewrite firstn_length. lia. }
  rewrite E, W, Mm. cbn [ptr mem written firstn app]. rewrite firstn_length. reflexivity.
Qed.

Lemma gmats_length rel (f : list joint) m : length (flat_map (gmats rel m) f) = num_joints G X f.
Proof.
  rewrite gmats_fpaths, map_length, num_joints_ok.
  rewrite <- (map_length (lookup f) (fpaths f 0)), lookup_fpaths, map_length. reflexivity.
Qed.

Lemma global_transform_rev (w : list joint) : global_transform G X (rev w) = product trans_of w.
Proof.
  unfold global_transform, product. induction w as [|j w IH] using rev_ind; [reflexivity|].
  rewrite rev_unit, fold_left_app. cbn [global_transform_onto fold_left]. rewrite IH. reflexivity.
Qed.

(** *** Joint space *)
Section Laws.
Hypothesis HL : mat_laws G.
Let assoc := ml_assoc G HL.
Let idl := ml_1l G HL.
Let idr := ml_1r G HL.

Lemma inv_1 : invertible G (m1 G).
Proof. exists (m1 G). split; apply idl. Qed.
Lemma inv_mul a b : invertible G a -> invertible G b -> invertible G (mmul G a b).
Proof.
  intros (a' & A1 & A2) (b' & B1 & B2). exists (mmul G b' a'). split.
  - rewrite <- assoc, (assoc b), B1, idl. exact A1.
  - rewrite <- assoc, (assoc a'), A2, idl. exact B2.
Qed.
Lemma inv_inv_ok a : invertible G a -> invertible G (minv G a).
Proof. intros H. destruct (ml_inv G HL a H). exists a; auto. Qed.
Lemma minv_unique a b : mmul G a b = m1 G -> mmul G b a = m1 G -> minv G a = b.
Proof.
  intros H1 H2. destruct (ml_inv G HL a (ex_intro _ b (conj H1 H2))) as [I1 I2].
  rewrite <- (idr (minv G a)), <- H1, assoc, I2, idl. reflexivity.
Qed.
Lemma minv_minv a : invertible G a -> minv G (minv G a) = a.
Proof. intros H. destruct (ml_inv G HL a H). apply minv_unique; assumption. Qed.

(** All joints of a tree satisfy a predicate. *)
Definition everywhere (P : jdata G X -> Prop) (j : joint) : Prop := Forall (fun k => P (jd k)) (list_joints G X j).
Lemma everywhere_eq P d l : everywhere P (Joint d l) <-> P d /\ Forall (everywhere P) l.
Proof.
  unfold everywhere. rewrite list_joints_eq, Forall_cons_iff. cbn [jd].
  assert (E : Forall (fun k => P (jd k)) (joint_list G X l) <-> Forall (fun j => Forall (fun k => P (jd k)) (list_joints G X j)) l).
  { unfold joint_list. induction l as [|s r IH]; cbn [flat_map]; [split; constructor|].
    rewrite Forall_app, Forall_cons_iff, IH. tauto. }
  tauto.
Qed.

Lemma bind_pose_neutral (j : joint) : forall m, invertible G m ->
  everywhere (fun d => invertible G (jpose d) /\ jtrans d = jpose d) j ->
  Forall (fun x => x = m1 G) (gmats true m (build_joint_space G X m j)).
Proof.
  induction j as [d l IH] using joint_ind'. intros m Hm H. apply everywhere_eq in H. destruct H as [[H1 H2] H3].
  cbn [build_joint_space gmats jtrans jspace]. assert (Hi := inv_mul _ _ Hm H1). constructor.
  - rewrite H2. apply (ml_inv G HL). exact Hi.
  - rewrite H2. rewrite Forall_forall in *. intros x Hx. apply in_flat_map in Hx. destruct Hx as (k & Hk & Hx).
    apply in_map_iff in Hk. destruct Hk as (s & <- & Hs).
    specialize (IH s Hs _ Hi (H3 s Hs)). rewrite Forall_forall in IH. apply IH, Hx.
Qed.

Lemma rebuild_build (j : joint) : forall m, invertible G m -> everywhere (fun d => invertible G (jpose d)) j ->
  rebuild_pose G X m (build_joint_space G X m j) = build_joint_space G X m j.
Proof.
  induction j as [d l IH] using joint_ind'. intros m Hm H. apply everywhere_eq in H. destruct H as [H1 H3].
  cbn [build_joint_space rebuild_pose jspace jid jparent jtrans jextra]. assert (Hi := inv_mul _ _ Hm H1).
  rewrite minv_minv by exact Hi. destruct (ml_inv G HL m Hm) as [I1 I2].
  rewrite assoc, I2, idl. f_equal. rewrite map_map. apply map_ext_in. intros s Hs.
  rewrite Forall_forall in *. apply IH; auto.
Qed.

Lemma build_rebuild (j : joint) : forall m, invertible G m -> everywhere (fun d => invertible G (jspace d)) j ->
  build_joint_space G X m (rebuild_pose G X m j) = rebuild_pose G X m j.
Proof.
  induction j as [d l IH] using joint_ind'. intros m Hm H. apply everywhere_eq in H. destruct H as [H1 H3].
  cbn [build_joint_space rebuild_pose jspace jpose jid jparent jtrans jextra].
  destruct (ml_inv G HL m Hm) as [I1 I2].
  assert (E : mmul G m (mmul G (minv G m) (minv G (jspace d))) = minv G (jspace d)) by (rewrite assoc, I1, idl; reflexivity).
  rewrite E, minv_minv by exact H1. f_equal. rewrite map_map. apply map_ext_in. intros s Hs.
  rewrite Forall_forall in *. apply IH; [exact Hs| |apply H3, Hs]. apply inv_inv_ok, H1.
Qed.
End Laws.

(** Poses are not changed by BuildJointSpace. *)
Lemma build_keeps (j : joint) : forall m,
  map (fun k => (jid (jd k), jparent (jd k), jtrans (jd k), jpose (jd k), jextra (jd k))) (list_joints G X (build_joint_space G X m j))
  = map (fun k => (jid (jd k), jparent (jd k), jtrans (jd k), jpose (jd k), jextra (jd k))) (list_joints G X j).
Proof.
  induction j as [d l IH] using joint_ind'. intros m. cbn [build_joint_space]. rewrite !list_joints_eq. cbn [map jd jid jparent jtrans jpose jextra].
  f_equal. unfold joint_list. induction IH as [|s r Hs Hr IHr]; [reflexivity|]. cbn [map flat_map]. rewrite !map_app, IHr, Hs. reflexivity.
Qed.

(** *** Removal *)
Lemma erase_nth {A} (l : list A) i : nth_error (erase l i) i = nth_error l (S i).
Proof. revert i; induction l as [|x l IH]; intros [|i]; try reflexivity. apply IH. Qed.

Lemma find_slot_spec (v : list (option joint)) a i : find_slot G X v a = Some i ->
  exists j, nth_error v i = Some (Some j) /\ jid (jd j) = a.
Proof.
  revert i; induction v as [|s r IH]; intros i; [discriminate|]. cbn [find_slot].
  destruct s as [j|].
  - destruct (Z.eqb_spec (jid (jd j)) a) as [E|E]; [intros [= <-]; exists j; auto|].
    destruct (find_slot G X r a) as [k|]; [|discriminate]. intros [= <-]. apply (IH k eq_refl).
  - destruct (find_slot G X r a) as [k|]; [|discriminate]. intros [= <-]. apply (IH k eq_refl).
Qed.

Lemma find_slot_complete (v : list (option joint)) a : (exists j, In (Some j) v /\ jid (jd j) = a) -> find_slot G X v a <> None.
Proof.
  intros (j & Hj & E). induction v as [|s r IH]; [destruct Hj|]. cbn [find_slot].
  destruct Hj as [->|Hj].
  - destruct (Z.eqb_spec (jid (jd j)) a); [discriminate|congruence].
  - destruct s as [k|]; [destruct (jid (jd k) =? a)%Z; [discriminate|]|]; specialize (IH Hj); destruct (find_slot G X r a); (discriminate || congruence).
Qed.

Lemma slots_null (v : list (option joint)) i : nth_error v i = Some None -> joint_list_slots G X v = None.
Proof.
  revert i; induction v as [|s r IH]; intros [|i] H; cbn in H; try discriminate.
  - injection H as ->. reflexivity.
  - cbn [joint_list_slots]. destruct s; [|reflexivity]. rewrite (IH i H). reflexivity.
Qed.
Lemma set_nth_at {A} (l : list A) i v : (i < length l)%nat -> nth_error (set_nth l i v) i = Some v.
Proof. revert i; induction l as [|x l IH]; intros [|i] H; cbn in *; try lia; [reflexivity|]. apply IH. lia. Qed.

(** *** Copies *)
Fixpoint copy_subs (self : Z) (l : list joint) (a : Z) : list joint * Z :=
  match l with
  | [] => ([], a)
  | s :: r => let x := copy_joint G X a (Some self) s (a + 1)%Z in let y := copy_subs self r (snd x) in (fst x :: fst y, snd y)
  end.
Lemma copy_joint_eq self par d (l : list joint) a : copy_joint G X self par (Joint d l) a =
  (Joint (mkJ self par (jtrans d) (jpose d) (jspace d) (jextra d)) (fst (copy_subs self l a)), snd (copy_subs self l a)).
Proof.
  cbn [copy_joint].
  assert (E : forall l a, (fix go l a := match l with
              | [] => ([], a)
              | s :: r => let x := copy_joint G X a (Some self) s (a + 1)%Z in let y := go r (snd x) in (fst x :: fst y, snd y)
              end) l a = copy_subs self l a).
  { clear. induction l as [|s r IH]; intros a; [reflexivity|]. cbn [copy_subs]. rewrite IH. reflexivity. }
  rewrite E. reflexivity.
Qed.
Definition ids (l : list joint) : list Z := map (fun j => jid (jd j)) l.
Definition from (a : Z) (n : nat) : list Z := map (fun k => (a + Z.of_nat k)%Z) (seq 0 n).
Lemma from_S a n : from a (S n) = a :: from (a + 1) n.
Proof. unfold from. cbn [seq map]. f_equal; [lia|]. rewrite <- seq_shift, map_map. apply map_ext. intros. lia. Qed.
Lemma from_app a n m : from a (n + m) = from a n ++ from (a + Z.of_nat n) m.
Proof.
  revert a; induction n as [|n IH]; intros a; cbn [Nat.add]; [cbn [from seq map app]; rewrite Z.add_0_r; reflexivity|]. rewrite !from_S, IH. cbn [app]. do 3 f_equal. lia.
Qed.

Definition copied (par : option Z) (j c : joint) : Prop :=
  same_shape c j /\ parents_ok par c.
Definition copy_good (j : joint) : Prop := forall self par a,
  copied par j (fst (copy_joint G X self par j a)) /\
  ids (list_joints G X (fst (copy_joint G X self par j a))) = self :: from a (length (list_joints G X j) - 1) /\
  snd (copy_joint G X self par j a) = (a + Z.of_nat (length (list_joints G X j) - 1))%Z.

Lemma list_joints_pos (j : joint) : (1 <= length (list_joints G X j))%nat.
Proof. destruct j; rewrite list_joints_eq; cbn; lia. Qed.

Lemma copy_subs_ok (l : list joint) : Forall copy_good l -> forall self a,
  Forall2 same_shape (fst (copy_subs self l a)) l /\ Forall (parents_ok (Some self)) (fst (copy_subs self l a)) /\
  ids (joint_list G X (fst (copy_subs self l a))) = from a (length (joint_list G X l)) /\
  snd (copy_subs self l a) = (a + Z.of_nat (length (joint_list G X l)))%Z.
Proof.
  induction 1 as [|s r Hs Hr IH]; intros self a; cbn [copy_subs fst snd].
  - repeat split; try constructor. cbn. lia.
  - destruct (Hs a (Some self) (a + 1)%Z) as ((S1 & P1) & I1 & E1).
    destruct (IH self (snd (copy_joint G X a (Some self) s (a + 1)%Z))) as (S2 & P2 & I2 & E2).
    assert (L := list_joints_pos s).
    split; [constructor; assumption|]. split; [constructor; assumption|]. 
    unfold joint_list in *. cbn [flat_map]. rewrite app_length. split.
    + unfold ids in *. rewrite map_app, I1, I2, E1. rewrite from_app. 
      replace (length (list_joints G X s)) with (S (length (list_joints G X s) - 1)) at 3 by lia. rewrite from_S.
      cbn [app]. do 3 f_equal. lia.
    + rewrite E2, E1. lia.
Qed.
Lemma copy_joint_ok (j : joint) : copy_good j.
Proof.
  induction j as [d l IH] using joint_ind'. intros self par a. rewrite copy_joint_eq.
  destruct (copy_subs_ok l IH self a) as (S & P & I & E). cbn [fst snd].
  rewrite !list_joints_eq. cbn [length]. rewrite Nat.sub_succ, Nat.sub_0_r.
  split; [split; constructor; try reflexivity; assumption|]. split; [|exact E].
  unfold ids. cbn [map jd jid]. f_equal. exact I.
Qed.
Lemma copy_list_ok (l : list joint) : forall a,
  Forall2 same_shape (fst (copy_list G X l a)) l /\ Forall (parents_ok None) (fst (copy_list G X l a)) /\
  ids (joint_list G X (fst (copy_list G X l a))) = from a (length (joint_list G X l)) /\
  snd (copy_list G X l a) = (a + Z.of_nat (length (joint_list G X l)))%Z.
Proof.
  induction l as [|s r IH]; intros a; cbn [copy_list fst snd].
  - repeat split; try constructor. cbn. lia.
  - destruct (copy_joint_ok s a None (a + 1)%Z) as ((S1 & P1) & I1 & E1).
    destruct (IH (snd (copy_joint G X a None s (a + 1)%Z))) as (S2 & P2 & I2 & E2).
    assert (L := list_joints_pos s).
    split; [constructor; assumption|]. split; [constructor; assumption|]. 
    unfold joint_list in *. cbn [flat_map]. rewrite app_length. split.
    + unfold ids in *. rewrite map_app, I1, I2, E1. rewrite from_app. 
      replace (length (list_joints G X s)) with (S (length (list_joints G X s) - 1)) at 3 by lia. rewrite from_S.
      cbn [app]. do 3 f_equal. lia.
    + rewrite E2, E1. lia.
Qed.
Lemma from_in a n x : In x (from a n) <-> (a <= x < a + Z.of_nat n)%Z.
Proof.
  unfold from. rewrite in_map_iff. split.
  - intros (k & <- & Hk). apply in_seq in Hk. lia.
  - intros H. exists (Z.to_nat (x - a)). rewrite in_seq. lia.
Qed.
Lemma from_nodup a n : NoDup (from a n).
Proof. apply FinFun.Injective_map_NoDup; [|apply seq_NoDup]. intros x y. lia. Qed.
End Skel.
