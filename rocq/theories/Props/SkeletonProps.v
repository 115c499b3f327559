(** Properties C13-C18: skeletons.  Matrices, vertex weights and keyframes are arbitrary. *)
From Coq Require Import ZArith List Bool Arith Lia Sorted Reals Lra.
From Verif Require Import Model.Skeleton Spec.SkeletonSpec Proofs.SkeletonLemmas.
Import ListNotations.

(** Example matrices: invertible maps x -> a*x + b of the line, written (a, b). *)
Definition line_map : mat_ops := mkMat (R * R) (1, 0)%R
  (fun p q => (fst p * fst q, fst p * snd q + snd p)%R)
  (fun p => (/ fst p, - snd p / fst p)%R).
(** Example matrices for computed examples: translations by integers. *)
Definition shift_map : mat_ops := mkMat Z 0%Z Z.add Z.opp.
Definition exj (i : Z) (par : option Z) (t : Z) (subs : list (joint shift_map unit)) : joint shift_map unit :=
  Joint (mkJ (G := shift_map) i par t t 0%Z tt) subs.
(** Two roots; the first with a child that has two children. *)
Definition ex_forest : list (joint shift_map unit) :=
  [ exj 1 None 10 [ exj 2 (Some 1%Z) 20 [ exj 3 (Some 2%Z) 30 []; exj 4 (Some 2%Z) 40 [] ]; exj 5 (Some 1%Z) 50 [] ]; exj 6 None 60 [] ].

(** ** C13 *)

(** There is exactly one enumeration of the positions of the forest in preorder, and the joint list, the iteration with its
    indices and the number of joints agree with it. *)
Theorem C13_enumeration_is_preorder :
  forall (G : mat_ops) (X : Type) (f : list (joint G X)),
  exists ps : list path,
    preorder f ps /\ (forall qs, preorder f qs -> qs = ps) /\
    map Some (joint_list G X f) = map (lookup f) ps /\
    map (fun c => Some (fst c)) (for_each_joint G X f) = map (lookup f) ps /\
    map snd (for_each_joint G X f) = seq 0 (length ps) /\
    num_joints G X f = length ps.
Proof.
  intros G X f. exists (fpaths f 0). split; [apply fpaths_preorder|].
  split; [intros qs H; eapply preorder_unique; [exact H|apply fpaths_preorder]|].
  assert (L : length (joint_list G X f) = length (fpaths f 0)).
  { rewrite <- (map_length (lookup f)), lookup_fpaths, map_length. reflexivity. }
  split; [rewrite lookup_fpaths; reflexivity|].
  rewrite for_each_ok. unfold numbered. split; [|split].
  - rewrite lookup_fpaths, <- (map_map fst Some). f_equal.
    generalize (joint_list G X f), 0%nat. induction l as [|x l IH]; intros n; [reflexivity|]. cbn. f_equal. apply IH.
  - rewrite <- L. generalize (joint_list G X f), 0%nat. induction l as [|x l IH]; intros n; [reflexivity|]. cbn. f_equal. apply IH.
  - rewrite num_joints_ok. exact L.
Qed.
Print Assumptions C13_enumeration_is_preorder.

Example C13_example :
  ids (joint_list shift_map unit ex_forest) = [1; 2; 3; 4; 5; 6]%Z /\
  preorder ex_forest [[0]; [0; 0]; [0; 0; 0]; [0; 0; 1]; [0; 1]; [1]]%nat.
Proof. split; [reflexivity|]. apply (fpaths_preorder ex_forest). Qed.

(** ** C14 *)

(** A null buffer and a size that is not a multiple of 16 are refused.  Otherwise, if the buffer really has [size] floats,
    the first min(number of joints, size/16) matrices are written and all others keep their value. *)
Theorem C14_buffers_within_bounds :
  forall (G : mat_ops) (X : Type) (f : list (joint G X)) (size : nat) (rel : bool),
  fill_global_buffer G X f None size rel = Throws /\
  fill_local_buffer G X f None size = Throws /\
  forall memory : list (mat G),
  (Nat.modulo size 16 <> 0%nat ->
     fill_global_buffer G X f (Some memory) size rel = Throws /\ fill_local_buffer G X f (Some memory) size = Throws) /\
  (Nat.modulo size 16 = 0%nat -> (size <= 16 * length memory)%nat ->
     let k := min (num_joints G X f) (Nat.div size 16) in
     exists global local : list (mat G),
       fill_global_buffer G X f (Some memory) size rel = Filled global (16 * k) /\
       fill_local_buffer G X f (Some memory) size = Filled local (16 * k) /\
       length global = length memory /\ length local = length memory /\
       skipn k global = skipn k memory /\ skipn k local = skipn k memory).
Proof.
  intros G X f size rel. split; [reflexivity|]. split; [reflexivity|]. intros memory. split.
  - intros H. unfold fill_global_buffer, fill_local_buffer, fill_buffer.
    destruct (Nat.eqb_spec (Nat.modulo size 16) 0); [congruence|]. auto.
  - intros Hm Hs. cbn zeta. assert (Hl : (Nat.div size 16 <= length memory)%nat).
    { apply Nat.div_le_upper_bound; lia. }
    assert (A := fill_global_buffer_ok f memory size rel Hm Hl). assert (B := fill_local_buffer_ok f memory size Hm Hl).
    cbn zeta in A, B. rewrite gmats_length in A. rewrite map_length, <- num_joints_ok in B.
    rewrite (Nat.min_comm (size / 16)), (Nat.mul_comm _ 16) in A, B.
    set (k := min (num_joints G X f) (size / 16)) in *.
    assert (Sk : forall ms : list (mat G), length ms = num_joints G X f ->
      length (firstn (size / 16) ms ++ skipn k memory) = length memory /\ skipn k (firstn (size / 16) ms ++ skipn k memory) = skipn k memory).
    { intros ms Hms. assert (Lk : length (firstn (size / 16) ms) = k) by (rewrite firstn_length, Hms; lia).
      split; [rewrite app_length, Lk, skipn_length; lia|].
      rewrite skipn_app, Lk, Nat.sub_diag, skipn_all2 by lia. reflexivity. }
    destruct (Sk _ (gmats_length rel f (m1 G))) as [S1 S2].
    destruct (Sk (map trans_of (joint_list G X f)) ltac:(rewrite map_length, num_joints_ok; reflexivity)) as [S3 S4].
    eexists _, _. split; [exact A|]. split; [exact B|]. auto.
Qed.
Print Assumptions C14_buffers_within_bounds.

(** Room for 4 matrices in a memory of 7 and a forest of 6 joints. *)
Example C14_example :
  fill_global_buffer shift_map unit ex_forest (Some (repeat (-1)%Z 7 : list (mat shift_map))) 64 false = Filled (G := shift_map) [10; 30; 60; 70; -1; -1; -1]%Z 64 /\
  fill_local_buffer shift_map unit ex_forest (Some (repeat (-1)%Z 7 : list (mat shift_map))) 112 = Filled (G := shift_map) [10; 20; 30; 40; 50; 60; -1]%Z 96.
Proof. split; reflexivity. Qed.

(** ** C15 *)

(** The i-th matrix belongs to the i-th position in preorder: it is the product of the joint transforms on the way there,
    times the joint space transform if relative matrices are asked for; and that product is what GlobalTransform returns for
    the joint. *)
Theorem C15_matrices_are_path_products :
  forall (G : mat_ops) (X : Type) (f : list (joint G X)) (size : nat) (rel : bool) (memory memory' : list (mat G)) (n : nat)
    (ps : list path),
  preorder f ps -> (size <= 16 * length memory)%nat ->
  fill_global_buffer G X f (Some memory) size rel = Filled memory' n ->
  forall i p, (i < n / 16)%nat -> nth_error ps i = Some p ->
  exists j, lookup f p = Some j /\
    let g := product (fun k => jtrans (jd k)) (way f p) in
    nth_error memory' i = Some (if rel then mmul G g (jspace (jd j)) else g) /\
    global_transform G X (rev (way f p)) = g /\
    exists above, way f p = above ++ [j].
Proof.
  intros G X f size rel memory memory' n ps Hps Hs E i p Hi Hp.
  assert (Hm : Nat.modulo size 16 = 0).
  { unfold fill_global_buffer, fill_buffer in E. destruct (Nat.eqb_spec (Nat.modulo size 16) 0); [assumption|discriminate]. }
  assert (Hl : (Nat.div size 16 <= length memory)%nat) by (apply Nat.div_le_upper_bound; lia).
  rewrite (fill_global_buffer_ok f memory size rel Hm Hl) in E. cbn zeta in E.
  assert (ps = fpaths f 0) as -> by (eapply preorder_unique; [exact Hps|apply fpaths_preorder]).
  injection E as <- <-. rewrite Nat.div_mul in Hi by lia. rewrite gmats_length in *.
  assert (Hq : lookup f p <> None) by (apply Hps; eapply nth_error_In; exact Hp).
  destruct (lookup f p) as [j|] eqn:Ej; [|congruence]. exists j. split; [reflexivity|]. cbn zeta.
  split; [|split].
  - rewrite nth_error_app1 by (rewrite firstn_length, gmats_length, ?Hn; lia).
    assert (F : forall A (l : list A) a b, (b < a)%nat -> nth_error (firstn a l) b = nth_error l b).
    { clear. intros A l a; revert l; induction a as [|a IH]; intros l b H; [lia|]. destruct l, b; cbn; auto. apply IH. lia. }
    rewrite F by lia. rewrite gmats_fpaths.
    erewrite map_nth_error; [|exact Hp]. rewrite Ej. reflexivity.
  - apply global_transform_rev.
  - clear - Ej. revert f Ej. induction p as [|k q IH]; intros f Ej; [discriminate|].
    cbn [lookup way] in *. destruct (nth_error f k) as [s|]; [|discriminate]. destruct q as [|k' q].
    + injection Ej as ->. exists []. reflexivity.
    + destruct (IH _ Ej) as (above & ->). exists (s :: above). reflexivity.
Qed.
Print Assumptions C15_matrices_are_path_products.

(** The local buffer has the joint's own transforms. *)
Theorem C15_local_matrices :
  forall (G : mat_ops) (X : Type) (f : list (joint G X)) (size : nat) (memory memory' : list (mat G)) (n : nat) (ps : list path),
  preorder f ps -> (size <= 16 * length memory)%nat ->
  fill_local_buffer G X f (Some memory) size = Filled memory' n ->
  forall i p, (i < n / 16)%nat -> nth_error ps i = Some p ->
  exists j, lookup f p = Some j /\ nth_error memory' i = Some (jtrans (jd j)).
Proof.
  intros G X f size memory memory' n ps Hps Hs E i p Hi Hp.
  assert (Hm : Nat.modulo size 16 = 0).
  { unfold fill_local_buffer, fill_buffer in E. destruct (Nat.eqb_spec (Nat.modulo size 16) 0); [assumption|discriminate]. }
  assert (Hl : (Nat.div size 16 <= length memory)%nat) by (apply Nat.div_le_upper_bound; lia).
  rewrite (fill_local_buffer_ok f memory size Hm Hl) in E. cbn zeta in E.
  assert (ps = fpaths f 0) as -> by (eapply preorder_unique; [exact Hps|apply fpaths_preorder]).
  injection E as <- <-. rewrite Nat.div_mul in Hi by lia.
  assert (Hq : lookup f p <> None) by (apply Hps; eapply nth_error_In; exact Hp).
  destruct (lookup f p) as [j|] eqn:Ej; [|congruence]. exists j. split; [reflexivity|].
  rewrite nth_error_app1 by (rewrite firstn_length; lia).
  assert (F : forall A (l : list A) a b, (b < a)%nat -> nth_error (firstn a l) b = nth_error l b).
  { clear. intros A l a; revert l; induction a as [|a IH]; intros l b H; [lia|]. destruct l, b; cbn; auto. apply IH. lia. }
  rewrite F by lia. assert (L := lookup_fpaths f).
  assert (Hn : nth_error (map Some (joint_list G X f)) i = Some (Some j)).
  { rewrite <- L. erewrite map_nth_error; [|exact Hp]. rewrite Ej. reflexivity. }
  destruct (nth_error (joint_list G X f) i) as [k|] eqn:Ek.
  - erewrite map_nth_error in Hn; [|exact Ek]. erewrite map_nth_error; [|exact Ek]. injection Hn as ->. reflexivity.
  - apply nth_error_None in Ek. rewrite map_length in Hi. lia.
Qed.
Print Assumptions C15_local_matrices.

(** Position [0; 0; 1], the fourth in preorder: 10 + 20 + 40. *)
Example C15_example :
  map (fun j => jid (jd j)) (way ex_forest [0; 0; 1]%nat) = [1; 2; 4]%Z /\
  global_transform shift_map unit (rev (way ex_forest [0; 0; 1]%nat)) = 70%Z /\
  (exists l, fill_global_buffer shift_map unit ex_forest (Some (repeat 0%Z 6)) 96 false = Filled (G := shift_map) l 96 /\ nth_error l 3 = Some 70%Z).
Proof. split; [reflexivity|]. split; [reflexivity|]. eexists. split; reflexivity. Qed.

(** ** C16 *)

(** In the bind pose (every transform equal to the invertible pose transform), all relative matrices are the identity. *)
Theorem C16_bind_pose_neutral :
  forall (G : mat_ops) (X : Type) (f : list (joint G X)) (size : nat) (memory memory' : list (mat G)) (n : nat),
  mat_laws G ->
  (forall j, In j (joint_list G X f) -> invertible G (jpose (jd j)) /\ jtrans (jd j) = jpose (jd j)) ->
  (size <= 16 * length memory)%nat ->
  fill_global_buffer G X (build_space G X f) (Some memory) size true = Filled memory' n ->
  n = (16 * min (num_joints G X f) (size / 16))%nat /\
  forall i, (i < n / 16)%nat -> nth_error memory' i = Some (m1 G).
Proof.
  intros G X f size memory memory' n HL Hf Hs E.
  assert (Hm : Nat.modulo size 16 = 0).
  { unfold fill_global_buffer, fill_buffer in E. destruct (Nat.eqb_spec (Nat.modulo size 16) 0); [assumption|discriminate]. }
  assert (Hl : (Nat.div size 16 <= length memory)%nat) by (apply Nat.div_le_upper_bound; lia).
  rewrite (fill_global_buffer_ok _ memory size true Hm Hl) in E. cbn zeta in E.
  assert (Hn : num_joints G X (build_space G X f) = num_joints G X f).
  { rewrite !num_joints_ok. unfold build_space, joint_list.
    clear. induction f as [|s r IH]; [reflexivity|]. cbn [map flat_map]. rewrite !app_length, IH. f_equal.
    assert (K := build_keeps s (m1 G)). apply (f_equal (@length _)) in K. rewrite !map_length in K. exact K. }
  remember (size / 16) as q eqn:Eq in *. injection E as <- <-. rewrite gmats_length, Hn. split; [rewrite (Nat.min_comm (num_joints G X f)); apply Nat.mul_comm|].
  intros i Hi. rewrite Nat.div_mul in Hi by lia.
  assert (A : Forall (fun x => x = m1 G) (flat_map (gmats true (m1 G)) (build_space G X f))).
  { apply Forall_forall. intros x Hx. apply in_flat_map in Hx. destruct Hx as (k & Hk & Hx).
    apply in_map_iff in Hk. destruct Hk as (s & <- & Hsin).
    assert (B := bind_pose_neutral HL s (m1 G) (inv_1 HL)). rewrite Forall_forall in B. apply B; [|exact Hx].
    apply Forall_forall. intros j Hj. apply Hf. apply in_flat_map. exists s. auto. }
  rewrite nth_error_app1 by (rewrite firstn_length, gmats_length, ?Hn; lia).
  destruct (nth_error (firstn q (flat_map (gmats true (m1 G)) (build_space G X f))) i) as [x|] eqn:Ex.
  - f_equal. rewrite Forall_forall in A. apply A. apply nth_error_In in Ex.
    rewrite <- (firstn_skipn q). apply in_app_iff. left; exact Ex.
  - apply nth_error_None in Ex. rewrite firstn_length, gmats_length in Ex. lia.
Qed.
Print Assumptions C16_bind_pose_neutral.

(** BuildJointSpace changes only joint space transforms; rebuilding the poses from them gives back the poses; and
    conversely, joint spaces computed from rebuilt poses are the given ones. *)
Theorem C16_pose_space_roundtrip :
  forall (G : mat_ops) (X : Type) (f : list (joint G X)),
  mat_laws G ->
  map (fun j => (jid (jd j), jparent (jd j), jtrans (jd j), jpose (jd j), jextra (jd j))) (joint_list G X (build_space G X f))
  = map (fun j => (jid (jd j), jparent (jd j), jtrans (jd j), jpose (jd j), jextra (jd j))) (joint_list G X f) /\
  ((forall j, In j (joint_list G X f) -> invertible G (jpose (jd j))) ->
     rebuild_poses G X (build_space G X f) = build_space G X f) /\
  ((forall j, In j (joint_list G X f) -> invertible G (jspace (jd j))) ->
     build_space G X (rebuild_poses G X f) = rebuild_poses G X f).
Proof.
  intros G X f HL. split; [|split].
  - unfold joint_list, build_space. clear. induction f as [|s r IH]; [reflexivity|]. cbn [map flat_map]. rewrite !map_app, IH. f_equal.
    apply build_keeps.
  - intros H. unfold rebuild_poses, build_space. rewrite map_map. apply map_ext_in. intros s Hs.
    apply (rebuild_build HL); [apply (inv_1 HL)|]. apply Forall_forall. intros j Hj. apply H. apply in_flat_map. exists s. auto.
  - intros H. unfold rebuild_poses, build_space. rewrite map_map. apply map_ext_in. intros s Hs.
    apply (build_rebuild HL); [apply (inv_1 HL)|]. apply Forall_forall. intros j Hj. apply H. apply in_flat_map. exists s. auto.
Qed.
Print Assumptions C16_pose_space_roundtrip.

(** The maps of the line satisfy the laws and not all of them are invertible; those with a <> 0 are. *)
Example C16_example : mat_laws line_map /\ (forall a b, a <> 0%R -> invertible line_map (a, b)) /\ ~ invertible line_map (0, 1)%R.
Proof.
  assert (I : forall a b : R, a <> 0%R -> invertible line_map (a, b)).
  { intros a b H. exists (/ a, - b / a)%R. cbn. split; f_equal; field; exact H. }
  split; [|split; [exact I|]].
  - constructor.
    + intros [a b] [c d] [e g]. cbn. f_equal; ring.
    + intros [a b]. cbn. f_equal; ring.
    + intros [a b]. cbn. f_equal; ring.
    + intros [a b] ([c d] & H & _). cbn in *. injection H as H1 H2.
      assert (a <> 0%R) by (intros ->; lra). split; f_equal; field; assumption.
  - intros ([c d] & H & _). cbn in H. injection H as H _. lra.
Qed.
Example C16_example_forest :
  forall j, In j (joint_list shift_map unit ex_forest) -> invertible shift_map (jpose (jd j)) /\ jtrans (jd j) = jpose (jd j).
Proof.
  intros j H. assert (A : forall t : Z, invertible shift_map t).
  { intros t. exists (- t)%Z. cbn. lia. }
  split; [apply A|]. cbn in H. repeat destruct H as [<-|H]; try reflexivity. destruct H.
Qed.

(** ** C17 *)

(** The property fails: removing a joint never returns it.  The joint is destroyed; what is returned is the following
    sibling, which is lost to the skeleton (a null owner stays in its place, and the next enumeration dereferences it), and
    if there is no following sibling memory behind the vector is read. *)
Theorem C17_remove_returns_joint_refuted :
  forall (G : mat_ops) (X : Type) (before after : list (joint G X)) (j : joint G X),
  NoDup (map (fun k => jid (jd k)) (before ++ j :: after)) ->
  let vec := map Some (before ++ j :: after) in
  match after with
  | [] => remove_joint G X vec (jid (jd j)) = RemoveUndef
  | next :: rest =>
      remove_joint G X vec (jid (jd j)) = Removed (map Some before ++ None :: map Some rest) (Some next) /\
      joint_list_slots G X (map Some before ++ None :: map Some rest) = None
  end.
Proof.
  intros G X pre after j ND. cbn zeta.
  assert (F : find_slot G X (map Some (pre ++ j :: after)) (jid (jd j)) = Some (length pre)).
  { clear -ND. induction pre as [|x pre IH]; cbn [app map find_slot length].
    - rewrite Z.eqb_refl. reflexivity.
    - cbn [app map] in ND. inversion_clear ND as [|? ? H1 H2].
      destruct (Z.eqb_spec (jid (jd x)) (jid (jd j))) as [E|E].
      + exfalso. apply H1. rewrite E, map_app. apply in_or_app. right. left. reflexivity.
      + rewrite IH by exact H2. reflexivity. }
  assert (Er : erase (map Some (pre ++ j :: after)) (length pre) = map Some (pre ++ after)).
  { clear. induction pre as [|x pre IH]; [reflexivity|]. cbn [app map length erase]. rewrite IH. reflexivity. }
  unfold remove_joint. rewrite F, Er, map_app. destruct after as [|next rest].
  - rewrite nth_error_app2 by (rewrite map_length; lia). rewrite map_length, Nat.sub_diag. reflexivity.
  - rewrite nth_error_app2 by (rewrite map_length; lia). rewrite map_length, Nat.sub_diag. cbn [map nth_error].
    split.
    + f_equal. clear. induction pre as [|x pre IH]; [reflexivity|]. cbn [map app length set_nth]. rewrite IH. reflexivity.
    + apply (slots_null _ (length pre)). rewrite nth_error_app2 by (rewrite map_length; lia). rewrite map_length, Nat.sub_diag. reflexivity.
Qed.
Print Assumptions C17_remove_returns_joint_refuted.

(** What holds: removing a joint that is not there changes nothing. *)
Theorem C17_remove_unknown :
  forall (G : mat_ops) (X : Type) (vec : list (option (joint G X))) (a : Z),
  (forall j, In (Some j) vec -> jid (jd j) <> a) -> remove_joint G X vec a = NotFound.
Proof.
  intros G X vec a H. unfold remove_joint. destruct (find_slot G X vec a) as [i|] eqn:E; [|reflexivity].
  destruct (find_slot_spec vec a i E) as (j & Hj & Ej). exfalso. apply (H j); [|exact Ej]. eapply nth_error_In; exact Hj.
Qed.
Print Assumptions C17_remove_unknown.

(** Even a joint that was a sub-joint and has been handed out keeps its parent pointer, so no joint accepts it. *)
Theorem C17_removed_joint_reusable_refuted :
  forall (G : mat_ops) (X : Type) (p p2 : joint G X) (vec : list (option (joint G X))) (a : Z) (k : joint G X) (f : list (joint G X)),
  parents_ok (jparent (jd p)) p ->
  remove_joint G X (map Some (jsubs p)) a = Removed vec (Some k) ->
  add_sub G X p2 k = None /\ add_root G X f k = None.
Proof.
  intros G X p p2 vec a k f Hp E. assert (Hk : In k (jsubs p)).
  { unfold remove_joint in E. destruct (find_slot _ _ _ _) as [i|]; [|discriminate]. rewrite erase_nth in E.
    destruct (nth_error _ (S i)) as [y|] eqn:En; [|discriminate]. injection E as _ ->.
    apply nth_error_In, in_map_iff in En. destruct En as (x & [= ->] & Hx). exact Hx. }
  assert (Hpar : jparent (jd k) = Some (jid (jd p))).
  { inversion Hp as [q d l E1 Hf]; subst. cbn [jsubs jd] in *. rewrite Forall_forall in Hf. specialize (Hf k Hk).
    inversion Hf; subst. cbn. assumption. }
  unfold add_sub, add_root. rewrite Hpar. auto.
Qed.
Print Assumptions C17_removed_joint_reusable_refuted.

(** Removing joint 1 from roots 1 and 6 yields joint 6; from a joint with the sub-joints 3 and 4, removing 3 yields 4. *)
Example C17_example :
  remove_joint shift_map unit (map Some ex_forest) 1 = Removed [None] (Some (exj 6 None 60 [])) /\
  remove_joint shift_map unit (map Some ex_forest) 6 = RemoveUndef /\
  remove_joint shift_map unit (map Some [exj 3 (Some 2%Z) 30 []; exj 4 (Some 2%Z) 40 []]) 3 = Removed [None] (Some (exj 4 (Some 2%Z) 40 [])).
Proof. repeat split; reflexivity. Qed.

(** ** C18 *)

(** CopyFrom keeps the existing roots and appends a forest of the same shape and contents, whose joints are new objects (at
    addresses from [a] on, pairwise different), with parent pointers set.  (The source is not an output of the function.) *)
Theorem C18_copy_duplicates :
  forall (G : mat_ops) (X : Type) (f model : list (joint G X)) (a : Z),
  exists copies,
    fst (copy_from G X f model a) = f ++ copies /\
    Forall2 same_shape copies model /\
    Forall (parents_ok None) copies /\
    NoDup (map (fun j => jid (jd j)) (joint_list G X copies)) /\
    (forall j, In j (joint_list G X copies) -> (a <= jid (jd j) < snd (copy_from G X f model a))%Z) /\
    num_joints G X copies = num_joints G X model.
Proof.
  intros G X f model a. exists (fst (copy_list G X model a)). destruct (copy_list_ok model a) as (S & P & I & E).
  unfold copy_from. cbn [fst snd]. split; [reflexivity|]. split; [exact S|]. split; [exact P|].
  unfold ids in I. split; [rewrite I; apply from_nodup|]. split.
  - intros j Hj. rewrite E. apply from_in. rewrite <- I. apply (in_map (fun j => jid (jd j))), Hj.
  - rewrite !num_joints_ok. apply (f_equal (@length _)) in I. rewrite map_length in I. rewrite I. unfold from. rewrite map_length, seq_length. reflexivity.
Qed.
Print Assumptions C18_copy_duplicates.

(** Adding: a joint with a parent is refused; otherwise it becomes the last child or root, and only the new parent is its
    parent. *)
Theorem C18_add_sets_parent :
  forall (G : mat_ops) (X : Type) (f : list (joint G X)) (p j : joint G X),
  (jparent (jd j) <> None -> add_sub G X p j = None /\ add_root G X f j = None) /\
  (jparent (jd j) = None -> add_root G X f j = Some (f ++ [j]) /\
   exists p' j', add_sub G X p j = Some p' /\ jd p' = jd p /\ jsubs p' = jsubs p ++ [j'] /\
     jparent (jd j') = Some (jid (jd p)) /\ jid (jd j') = jid (jd j) /\ jsubs j' = jsubs j /\ same_shape j' j) /\
  (parents_ok (jparent (jd p)) p -> parents_ok None j -> forall p', add_sub G X p j = Some p' -> parents_ok (jparent (jd p)) p').
Proof.
  intros G X f p j. unfold add_sub, add_root.
  assert (R : forall k : joint G X, same_shape k k).
  { intros k. induction k as [d l IH] using joint_ind'. constructor; try reflexivity. induction IH; constructor; assumption. }
  split; [|split].
  - destruct (jparent (jd j)); [auto|congruence].
  - intros ->. split; [reflexivity|]. eexists _, _. split; [reflexivity|]. cbn [jd jsubs]. split; [reflexivity|]. split; [reflexivity|].
    destruct j as [d l]. cbn [set_parent jd jid jparent jsubs]. repeat (split; [reflexivity|]).
    constructor; try reflexivity. assert (Q := R (Joint d l)). inversion Q; subst. assumption.
  - intros Hp Hj p'. destruct (jparent (jd j)) eqn:E; [discriminate|]. intros [= <-].
    destruct p as [d l], j as [e m]. cbn [jd jsubs] in *. inversion Hp as [? ? ? _ Hl]; subst. inversion Hj as [? ? ? Hn Hm]; subst.
    constructor; [reflexivity|]. apply Forall_app. split; [exact Hl|]. constructor; [|constructor].
    cbn [set_parent]. constructor; [reflexivity|exact Hm].
Qed.
Print Assumptions C18_add_sets_parent.

Example C18_example :
  fst (copy_from shift_map unit [exj 9 None 5 []] ex_forest 100) =
  [ exj 9 None 5 [];
    exj 100 None 10 [ exj 101 (Some 100%Z) 20 [ exj 102 (Some 101%Z) 30 []; exj 103 (Some 101%Z) 40 [] ]; exj 104 (Some 100%Z) 50 [] ];
    exj 105 None 60 [] ].
Proof. reflexivity. Qed.
