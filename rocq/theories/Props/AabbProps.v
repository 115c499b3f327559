(** Properties C29-C32: bounding boxes, in any dimension, over any scalar type whose operator < is a strict weak order on
    the values [ok] (all integers; all floats but NaN). *)
From Coq Require Import Reals ZArith NArith List Bool Lia.
From Flocq Require Import IEEE754.BinarySingleNaN.
From Flocq Require IEEE754.Binary IEEE754.Bits.
From Verif Require Import Model.Scalar Model.Aabb Model.VecAabb Model.VecAabbFloat Spec.AabbSpec Proofs.AabbLemmas Proofs.FloatOrder Proofs.VecAabbFloatLemmas.
Import ListNotations.

(** std::int32_t *)
Definition I32Order : order := mkOrder Z Z.ltb (2 ^ 31 - 1)%Z (- 2 ^ 31)%Z.

(** ** C29 *)

(** Inserting points and boxes into a reset box gives a box that contains all of them, and that lies in any other box that
    does so (if there is something to insert and all components are between lowest() and max()). *)
Theorem C29_insert_is_least_box :
  forall (O : order) (ok : ocar O -> Prop) (n : nat) (l : list (item O)),
  order_laws O ok -> Forall (ok_item O ok n) l ->
  let b := insert_items O (reset O n) l in
  ok_box O ok n b /\
  (forall i, In i l -> item_in O i b) /\
  (forall c, l <> [] -> Forall (ranged_item O) l -> ok_box O ok n c -> (forall i, In i l -> item_in O i c) -> within O b c).
Proof.
  intros O ok n l HL Hl. cbn zeta. split; [|split].
  - apply (items_ok O ok); [exact Hl|apply (reset_ok O ok HL)].
  - destruct (items_ub O ok HL n l Hl (reset O n) (reset_ok O ok HL n)) as [_ U]. rewrite Forall_forall in U. exact U.
  - intros c Hne Hr Hc H. apply (reset_items_least O ok HL); try assumption. apply Forall_forall. exact H.
Qed.
Print Assumptions C29_insert_is_least_box.

(** The order of insertions and repetitions do not matter: lists with the same members give the same box. *)
Theorem C29_insert_order_irrelevant :
  forall (O : order) (ok : ocar O -> Prop) (n : nat) (l l' : list (item O)),
  order_laws O ok -> Forall (ok_item O ok n) l -> (forall i, In i l <-> In i l') ->
  box_eq O (insert_items O (reset O n) l) (insert_items O (reset O n) l').
Proof.
  intros O ok n l l' HL Hl S. apply (reset_items_same O ok HL); [exact Hl| |exact S].
  rewrite Forall_forall in *. intros i Hi. apply Hl, S, Hi.
Qed.
Print Assumptions C29_insert_order_irrelevant.

(** A point with a component that compares with nothing (NaN) does not change that component of the box. *)
Theorem C29_nan_ignored :
  forall (O : order) (b : box O) (p : point O) (k : nat) (x : ocar O) (i : ocar O * ocar O),
  nth_error p k = Some x -> nth_error b k = Some i ->
  (forall y, olt O x y = false /\ olt O y x = false) ->
  nth_error (insert_point O b p) k = Some i.
Proof.
  intros O b p k x i Hx Hi H. unfold insert_point. revert b p Hx Hi. induction k as [|k IH]; intros [|j b] [|y p] Hx Hi; cbn in *; try discriminate.
  - injection Hx as ->. injection Hi as ->. rewrite (proj1 (H _)), (proj2 (H _)). destruct i; reflexivity.
  - apply IH; assumption.
Qed.
Print Assumptions C29_nan_ignored.

(** Both scalar types are instances: all integers, and all binary64 numbers but NaN; finite floats are in range, NaN compares
    with nothing. *)
Theorem C29_scalar_instances :
  order_laws I32Order (fun _ => True) /\ (forall x : Z, (- 2 ^ 31 <= x < 2 ^ 31)%Z -> ranged I32Order x) /\
  order_laws B64Order not_nan /\ (forall x : b64, is_finite x = true -> ranged B64Order x) /\
  (forall x y : b64, is_nan x = true -> olt B64Order x y = false /\ olt B64Order y x = false).
Proof.
  split; [|split; [|split; [|split]]].
  - constructor; cbn; try exact I.
    + intros x y _ _ H. apply Z.ltb_lt in H. apply Z.ltb_ge. lia.
    + intros x y z _ _ _ H. rewrite !Z.ltb_lt in *. lia.
  - intros x H. split; unfold ole; cbn [I32Order olt omax olow]; apply Z.ltb_ge; lia.
  - apply b64_laws.
  - apply b64_ranged.
  - intros x y H. destruct x; try discriminate. destruct y as [[]|[]| |[] ]; split; reflexivity.
Qed.
Print Assumptions C29_scalar_instances.

Example C29_example :
  insert_items I32Order (reset I32Order 2)
    [@IPoint I32Order [3; -5]%Z; @IBox I32Order [(-1, 1); (0, 7)]%Z; @IPoint I32Order [3; -5]%Z] = [(-1, 3); (-5, 7)]%Z.
Proof. reflexivity. Qed.

(** Without the range condition the box need not be the least one: after inserting only (positive) infinity the minimum is
    still max(). *)
Theorem C29_infinity_not_tight_refuted :
  exists (p : b64) (c : box B64Order), not_nan p /\ ok_box B64Order not_nan 1 c /\ in_box B64Order [p] c /\
    ~ within B64Order (insert_items B64Order (reset B64Order 1) [@IPoint B64Order [p]]) c.
Proof.
  exists (B754_infinity false), [(B754_infinity false, B754_infinity false)].
  split; [reflexivity|]. split; [split; [reflexivity|]; repeat constructor|]. split; [repeat constructor|].
  intros H. inversion H as [|? ? ? ? [W _] _]. vm_compute in W. discriminate.
Qed.
Print Assumptions C29_infinity_not_tight_refuted.

(** ** C30 *)

Theorem C30_predicates_exact :
  forall (O : order) (ok : ocar O -> Prop) (n : nat) (a b : box O),
  order_laws O ok -> ok_box O ok n a -> ok_box O ok n b ->
  (* Contains(point) is membership *)
  (forall p, ok_point O ok n p -> contains_point O a p = true <-> in_box O p a) /\
  (* InsideOf and Contains(box) are inclusion of the sets of points *)
  (valid_box O a -> inside_of O a b = true <-> (forall p, ok_point O ok n p -> in_box O p a -> in_box O p b)) /\
  contains_box O b a = inside_of O a b /\
  (* Overlap: there is a common point *)
  (valid_box O a -> valid_box O b -> overlap O a b = true <-> exists p, ok_point O ok n p /\ in_box O p a /\ in_box O p b) /\
  overlap O a b = overlap O b a.
Proof.
  intros O ok n a b HL Ha Hb. assert (La : length a = n) by apply Ha. assert (Lb : length b = n) by apply Hb.
  split; [|split; [|split; [|split]]].
  - intros p [Lp _]. apply contains_iff. congruence.
  - intros V. rewrite inside_iff by congruence. apply (within_subset O ok HL n); assumption.
  - reflexivity.
  - intros Va Vb. apply (overlap_common O ok HL n); assumption.
  - clear -La Lb. assert (L : length a = length b) by congruence. clear La Lb. unfold overlap.
    revert b L; induction a as [|i a IH]; intros [|j b] L; cbn in *; try discriminate; [reflexivity|].
    rewrite (orb_comm (olt O (snd i) (fst j))). rewrite IH by lia. reflexivity.
Qed.
Print Assumptions C30_predicates_exact.

(** Repair yields a valid box with the same pairs of numbers, and keeps a valid box as it is. *)
Theorem C30_repair :
  forall (O : order) (ok : ocar O -> Prop) (n : nat) (b : box O),
  order_laws O ok -> ok_box O ok n b ->
  valid_box O (repair O b) /\ (valid_box O b -> repair O b = b) /\
  Forall2 (fun i j => j = i \/ j = (snd i, fst i)) b (repair O b).
Proof.
  intros O ok n b HL [_ Hb]. split; [|split].
  - apply (repair_valid O ok HL). exact Hb.
  - apply repair_id.
  - unfold repair. clear. induction b as [|i b IH]; cbn; constructor; [|exact IH]. destruct (olt O (snd i) (fst i)); auto.
Qed.
Print Assumptions C30_repair.

Example C30_example :
  ok_box I32Order (fun _ => True) 2 [(0, 4); (0, 4)]%Z /\ valid_box I32Order [(0, 4); (0, 4)]%Z /\
  overlap I32Order [(0, 4); (0, 4)]%Z [(4, 6); (-3, 0)]%Z = true /\ overlap I32Order [(0, 4); (0, 4)]%Z [(5, 6); (0, 4)]%Z = false /\
  repair I32Order [(4, 0); (1, 2)]%Z = [(0, 4); (1, 2)]%Z.
Proof. repeat split; try reflexivity; repeat constructor. Qed.

(** Validity is needed for InsideOf: a box without points can fail to be inside another one. *)
Theorem C30_inside_of_invalid_refuted :
  exists a b : box I32Order, ok_box I32Order (fun _ => True) 1 a /\ ok_box I32Order (fun _ => True) 1 b /\
    (forall p, in_box I32Order p a -> in_box I32Order p b) /\ inside_of I32Order a b = false.
Proof.
  exists [(9, 5)]%Z, [(0, 1)]%Z. split; [repeat constructor|]. split; [repeat constructor|]. split; [|reflexivity].
  intros p H. inversion_clear H as [|x i q c [H1 H2] _]. unfold ole in *. cbn in *. apply Z.ltb_ge in H1, H2. lia.
Qed.
Print Assumptions C30_inside_of_invalid_refuted.

(** ** C31 *)

(** In each lane, Insert gives the scalar box, and InsideOf, Contains(box) and Overlap give the mask of the scalar answer,
    if [lt] orders the values [ok] of the lane and [le] is its negation. *)
Theorem C31_lanes_agree :
  forall (lt le : N -> N -> bool) (top bottom : N) (ok : N -> Prop) (n : nat) (a b : vbox) (p : vpoint),
  let O := mkOrder N lt top bottom in
  order_laws O ok -> (forall x y, ok x -> ok y -> le x y = negb (lt y x)) ->
  ok_box O ok n a -> ok_box O ok n b -> ok_point O ok n p ->
  box_eq O (v_insert_point lt a p) (insert_point O a p) /\
  box_eq O (v_insert_box lt a b) (insert_box O a b) /\
  v_reset_to p = reset_to O p /\
  v_inside_of le a b = mask (inside_of O a b) /\
  v_contains_box le a b = mask (contains_box O a b) /\
  v_overlap le a b = mask (overlap O a b).
Proof.
  intros lt le top bottom ok n a b p O HL Hle Ha Hb Hp.
  assert (E : forall x y, ok x -> ok y -> oeq O (min_ps lt x y) (if lt y x then y else x) /\ oeq O (max_ps lt x y) (if lt x y then y else x)).
  { intros x y Hx Hy. unfold min_ps, max_ps, oeq, ole. cbn [olt O].
    assert (R1 := ole_refl O ok HL x Hx). assert (R2 := ole_refl O ok HL y Hy). unfold ole in R1, R2. cbn in R1, R2.
    assert (As := ol_asym O ok HL x y Hx Hy). cbn in As.
    destruct (lt x y) eqn:E1, (lt y x) eqn:E2; auto; specialize (As eq_refl); discriminate. }
  assert (IB : forall m a b, ok_box O ok m a -> ok_box O ok m b -> box_eq O (v_insert_box lt a b) (insert_box O a b)).
  { clear -E. induction m as [|m IH]; intros [|i a] [|j b] Ha Hb; try (destruct Ha; discriminate); try (destruct Hb; discriminate); [constructor|].
    apply okb_cons in Ha, Hb. destruct Ha as [[A1 A2] Ha], Hb as [[B1 B2] Hb]. cbn. constructor; [|apply IH; assumption].
    split; apply E; assumption. }
  assert (VP : v_insert_point lt a p = v_insert_box lt a (v_reset_to p)).
  { clear. unfold v_insert_point, v_insert_box, v_reset_to. revert p; induction a as [|i a IH]; intros [|x p]; try reflexivity. cbn. f_equal. apply IH. }
  assert (IN : forall m a b, ok_box O ok m a -> ok_box O ok m b -> v_inside_of le a b = mask (inside_of O a b)).
  { clear -Hle. intros m a b Ha Hb. unfold v_inside_of, inside_of. rewrite <- v_all_map2. f_equal.
    revert a b Ha Hb. induction m as [|m IH]; intros [|i a] [|j b] Ha Hb; try (destruct Ha; discriminate); try (destruct Hb; discriminate); [reflexivity|].
    apply okb_cons in Ha, Hb. destruct Ha as [[A1 A2] Ha], Hb as [[B1 B2] Hb]. cbn [map2]. rewrite (IH a b Ha Hb). f_equal.
    unfold cmpge, cmple. rewrite and_mask, !Hle by assumption. rewrite <- negb_orb. reflexivity. }
  split; [|split; [|split; [|split; [|split]]]].
  - rewrite VP, (insert_point_box O). apply (IB n); [exact Ha|]. apply (reset_to_ok O ok n p Hp).
  - apply (IB n); assumption.
  - reflexivity.
  - apply (IN n); assumption.
  - apply (IN n); assumption.
  - unfold v_overlap, overlap. rewrite <- v_all_map2. f_equal. clear -Hle Ha Hb.
    revert a b Ha Hb. induction n as [|m IH]; intros [|i a] [|j b] Ha Hb; try (destruct Ha; discriminate); try (destruct Hb; discriminate); [reflexivity|].
    apply okb_cons in Ha, Hb. destruct Ha as [[A1 A2] Ha], Hb as [[B1 B2] Hb]. cbn [map2]. rewrite (IH a b Ha Hb). f_equal.
    unfold cmpge, cmple. rewrite and_mask, !Hle by assumption. rewrite <- negb_orb. reflexivity.
Qed.
Print Assumptions C31_lanes_agree.

(** The comparisons of the processor are such an order on all patterns but those of NaN, and Reset gives the scalar box: so every lane agrees. *)
Theorem C31_float_lanes : forall n a b p, let ok x := Binary.is_nan 24 128 (float_of x) = false in
  ok_box F32Order ok n a -> ok_box F32Order ok n b -> ok_point F32Order ok n p ->
  v_reset n = reset F32Order n /\
  box_eq F32Order (v_insert_point lt32 a p) (insert_point F32Order a p) /\ box_eq F32Order (v_insert_box lt32 a b) (insert_box F32Order a b) /\
  v_inside_of le32 a b = mask (inside_of F32Order a b) /\ v_contains_box le32 a b = mask (contains_box F32Order a b) /\ v_overlap le32 a b = mask (overlap F32Order a b).
Proof.
  intros n a b p ok A B P. destruct (C31_lanes_agree lt32 le32 2139095039%N 4286578687%N ok n a b p f32_laws le32_negb A B P) as (H1 & H2 & _ & H3 & H4 & H5).
  split; [reflexivity|]. repeat split; assumption.
Qed.
Print Assumptions C31_float_lanes.

(** Centers are the same bit for bit for all finite boxes; sizes are equal for finite boxes that are valid. *)
Theorem C31_centers_and_sizes : forall b, let finite x := Binary.is_finite 24 128 (float_of x) = true in
  Forall (fun i => finite (fst i) /\ finite (snd i)) b ->
  v_centers b = center32 b /\
  (Forall (fun i => le32 (fst i) (snd i) = true) b -> Forall2 (fun v s => cmp32 v s = Some Eq) (v_sizes b) (size32 b)).
Proof.
  intros b finite H. split; [now apply centers_agree|]. intros V. apply sizes_agree. rewrite Forall_forall in *. intros i I. destruct (H i I). auto.
Qed.
Print Assumptions C31_centers_and_sizes.

(** For a box with exchanged bounds the scalar size is positive, the vectorized one negative. *)
Theorem C31_sizes_refuted : exists a b, Binary.is_finite 24 128 (float_of a) = true /\ Binary.is_finite 24 128 (float_of b) = true /\
  map (fun x => lt32 x f0) (v_sizes [(a, b)]) = [true] /\ map (lt32 f0) (size32 [(a, b)]) = [true].
Proof. exists f1, f0. vm_compute. repeat split; reflexivity. Qed.
Print Assumptions C31_sizes_refuted.
Example C31_sizes_example : v_sizes [(f_half, f2); (f1, f1)] = [1069547520%N; f0] /\ size32 [(f_half, f2); (f1, f1)] = [1069547520%N; f0] /\ v_centers [(f0, f2)] = [f1].
Proof. vm_compute. repeat split; reflexivity. Qed.

(** The comparison of natural numbers is such an order; and the IEEE comparison on some literals. *)
Example C31_example :
  order_laws (mkOrder N N.ltb 100%N 0%N) (fun _ => True) /\ (forall x y, N.leb x y = negb (N.ltb y x)) /\
  map (lt32 f_half) [f0; f_half; f1; f_nan] = [false; false; true; false] /\
  v_insert_point lt32 [(f1, f1)] [f_half] = [(f_half, f1)].
Proof.
  split; [|split; [|split]].
  - constructor; cbn; try exact I; intros; rewrite ?N.ltb_lt, ?N.ltb_ge in *; lia.
  - intros. destruct (N.leb_spec x y), (N.ltb_spec y x); try reflexivity; lia.
  - vm_compute. reflexivity.
  - vm_compute. reflexivity.
Qed.

(** Repair does not agree: it never changes the maximum and sets the minimum to the greater of both, in every lane; so valid
    boxes lose their extent and invalid ones stay invalid. *)
Theorem C31_repair_refuted :
  (forall (lt : N -> N -> bool) (b : vbox), Forall (fun i => lane (fst i) /\ lane (snd i)) b ->
     v_repair lt b = map (fun i => (if lt (snd i) (fst i) then fst i else snd i, snd i)) b) /\
  v_repair lt32 [(f0, f1)] = [(f1, f1)] /\ repair F32Order [(f0, f1)] = [(f0, f1)] /\
  v_repair lt32 [(f1, f0)] = [(f1, f0)] /\ repair F32Order [(f1, f0)] = [(f0, f1)].
Proof.
  split; [|vm_compute; repeat split; reflexivity].
  intros lt b H. unfold v_repair. apply map_ext_in. intros i Hi. rewrite Forall_forall in H. destruct (H i Hi) as [H1 H2].
  unfold cmpgt. rewrite select by assumption. reflexivity.
Qed.
Print Assumptions C31_repair_refuted.

(** Contains(points) has the comparisons reversed: it reports exactly the points p with max <= p <= min in every component. *)
Theorem C31_contains_points_refuted :
  (forall (le : N -> N -> bool) (b : vbox) (p : vpoint),
     v_contains_point le b p = mask (all2 (fun i x => le x (fst i) && le (snd i) x) b p)) /\
  v_contains_point le32 [(f0, f1)] [f_half] = 0%N /\ contains_point F32Order [(f0, f1)] [f_half] = true /\
  v_contains_point le32 [(f1, f0)] [f_half] = ones /\ contains_point F32Order [(f1, f0)] [f_half] = false.
Proof.
  split; [|vm_compute; repeat split; reflexivity].
  intros le b p. unfold v_contains_point. rewrite <- v_all_map2. f_equal.
  revert p; induction b as [|i b IH]; intros [|x p]; try reflexivity. cbn [map2]. rewrite IH. f_equal. unfold cmpge, cmple. apply and_mask.
Qed.
Print Assumptions C31_contains_points_refuted.

(** NaN: the scalar box ignores it, the vectorised box stores it. *)
Theorem C31_nan_insert_refuted :
  v_insert_point lt32 [(f0, f1)] [f_nan] = [(f_nan, f_nan)] /\ insert_point F32Order [(f0, f1)] [f_nan] = [(f0, f1)].
Proof. vm_compute. split; reflexivity. Qed.
Print Assumptions C31_nan_insert_refuted.

(** ** C32 *)

Definition corner2 {T} (a b p : T * T) : Prop :=
  (fst p = fst a \/ fst p = fst b) /\ (snd p = snd a \/ snd p = snd b).
Definition adjacent2 {T} (p q : T * T) : Prop := (fst p = fst q /\ snd p <> snd q) \/ (fst p <> fst q /\ snd p = snd q).
Definition corner3 {T} (a b p : T * T * T) : Prop :=
  let '(ax, ay, az) := a in let '(bx, by_, bz) := b in let '(x, y, z) := p in
  (x = ax \/ x = bx) /\ (y = ay \/ y = by_) /\ (z = az \/ z = bz).
Definition adjacent3 {T} (p q : T * T * T) : Prop :=
  let '(x, y, z) := p in let '(u, v, w) := q in
  (x <> u /\ y = v /\ z = w) \/ (x = u /\ y <> v /\ z = w) \/ (x = u /\ y = v /\ z <> w).

(** The lines connect corners that differ in one coordinate; every such pair of corners is connected, once. *)
Theorem C32_edges_2d :
  forall (T : Type) (ax ay bx by_ : T), ax <> bx -> ay <> by_ ->
  let a := (ax, ay) in let b := (bx, by_) in
  length (edges2 a b) = 4%nat /\
  (forall p q, In (p, q) (edges2 a b) -> corner2 a b p /\ corner2 a b q /\ adjacent2 p q /\ ~ In (q, p) (edges2 a b)) /\
  (forall p q, corner2 a b p -> corner2 a b q -> adjacent2 p q -> In (p, q) (edges2 a b) \/ In (q, p) (edges2 a b)) /\
  NoDup (edges2 a b).
Proof.
  intros T ax ay bx by_ Hx Hy a b. subst a b. unfold corner2, adjacent2. cbn [edges2]. split; [reflexivity|]. split; [|split].
  - intros p q H. cbn in H. repeat destruct H as [H|H]; try (destruct H; fail); injection H as <- <-; cbn;
    (split; [auto|]; split; [auto|]; split; [auto|]);
    intros K; repeat destruct K as [K|K]; try (destruct K; fail); congruence.
  - intros [x y] [u v] [A B] [C D] E. cbn [fst snd] in *.
    destruct A as [-> | ->], B as [-> | ->], C as [-> | ->], D as [-> | ->]; destruct E as [[E1 E2]|[E1 E2]]; try congruence; cbn; auto 10.
  - repeat constructor; cbn; intros K; repeat destruct K as [K|K]; try (destruct K; fail); congruence.
Qed.
Print Assumptions C32_edges_2d.

Theorem C32_edges_3d :
  forall (T : Type) (ax ay az bx by_ bz : T), ax <> bx -> ay <> by_ -> az <> bz ->
  let a := (ax, ay, az) in let b := (bx, by_, bz) in
  length (edges3 a b) = 12%nat /\
  (forall p q, In (p, q) (edges3 a b) -> corner3 a b p /\ corner3 a b q /\ adjacent3 p q /\ ~ In (q, p) (edges3 a b)) /\
  (forall p q, corner3 a b p -> corner3 a b q -> adjacent3 p q -> In (p, q) (edges3 a b) \/ In (q, p) (edges3 a b)) /\
  NoDup (edges3 a b).
Proof.
  intros T ax ay az bx by_ bz Hx Hy Hz a b. subst a b. unfold corner3, adjacent3. cbn [edges3]. split; [reflexivity|]. split; [|split].
  - intros [[x y] z] [[u v] w] H. cbn in H. repeat destruct H as [H|H]; try (destruct H; fail); injection H as <- <- <- <- <- <-;
    (split; [auto 10|]; split; [auto 10|]; split; [auto 10|]);
    intros K; repeat destruct K as [K|K]; try (destruct K; fail); congruence.
  - intros [[x y] z] [[u v] w] (A & B & C) (D & E & F) G.
    destruct A as [-> | ->], B as [-> | ->], C as [-> | ->], D as [-> | ->], E as [-> | ->], F as [-> | ->];
    destruct G as [(G1 & G2 & G3)|[(G1 & G2 & G3)|(G1 & G2 & G3)]]; try congruence; cbn; tauto.
  - repeat constructor; cbn; intros K; repeat destruct K as [K|K]; try (destruct K; fail); congruence.
Qed.
Print Assumptions C32_edges_3d.

Example C32_example : edges2 (0, 0)%Z (2, 1)%Z = [((0, 0), (0, 1)); ((0, 1), (2, 1)); ((2, 1), (2, 0)); ((2, 0), (0, 0))]%Z.
Proof. reflexivity. Qed.
