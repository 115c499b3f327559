From Coq Require Import Reals List Bool Lra Psatz Arith Lia.
From Verif Require Import Model.Scalar Model.Vec Model.Ext Model.Plane Model.Coll Model.Tri.
From Verif Require Import Spec.InterpSpec Spec.ClipSpec Spec.PlaneSpec Spec.CollSpec Spec.TriSpec Proofs.VecLemmas Proofs.PlaneLemmas Proofs.LineLemmas Proofs.TriLemmas Proofs.TriHit Proofs.TriTri.
Import ListNotations.
Local Open Scope R_scope.

Definition on_edge (t : triangle) (x : vec3) : Prop := exists e, In e (edges t) /\ on_segment e x.

Lemma opposite_in w r : In r (opposite w) <-> r = vx w \/ r = vy w \/ r = vz w.
Proof. unfold opposite. cbn. intuition. Qed.

(** From a point with coordinates w0 in the triangle to one with coordinates w1 outside of it, one comes across an edge. *)
Lemma leave t w0 w1 : bary w0 -> affine_weights w1 -> ~ bary w1 ->
  exists s, 0 <= s <= 1 /\ let w := vadd w0 (vscale s (vsub w1 w0)) in
  bary w /\ on_edge t (combine3 w (pa t) (pb t) (pc t)).
Proof.
  intros B A N.
  assert (Neg : exists i a b, nth_error (opposite w0) i = Some a /\ nth_error (opposite w1) i = Some b /\ b < 0).
  { unfold bary, affine_weights in *. unfold opposite. destruct (Rlt_dec (vz w1) 0); [exists 0%nat, (vz w0), (vz w1); repeat split; assumption|].
    destruct (Rlt_dec (vx w1) 0); [exists 1%nat, (vx w0), (vx w1); repeat split; assumption|]. destruct (Rlt_dec (vy w1) 0); [exists 2%nat, (vy w0), (vy w1); repeat split; assumption|]. exfalso. apply N. lra. }
  destruct Neg as (i & a & b & Ia & Ib & Nb).
  assert (Pa : 0 <= a).
  { unfold opposite, bary in *. destruct i as [|[|[|i]]]; cbn in Ia; [| | |destruct i; discriminate]; injection Ia as <-; lra. }
  assert (In_i : In (a, b - a) (List.combine (opposite w0) (opposite (vsub w1 w0)))).
  { unfold opposite, vsub in *. cbn [vx vy vz]. destruct i as [|[|[|i]]]; cbn in Ia, Ib; [| | |destruct i; discriminate]; injection Ia as <-; injection Ib as <-; cbn; auto. }
  destruct (exit (List.combine (opposite w0) (opposite (vsub w1 w0)))) as (s & j & c & d & S & J & D & Z & F).
  - unfold opposite, bary in *. cbn. intros p H. repeat (destruct H as [<-|H]; [cbn; lra|]). contradiction.
  - exists (a, b - a). split; [exact In_i|]. cbn. lra.
  - assert (S1 : s <= 1).
    { assert (H := F _ In_i). cbn in H. apply Rnot_lt_le. intros L. assert ((s - 1) * (b - a) < 0) by nra. nra. }
    exists s. split; [lra|]. cbv zeta.
    assert (B' : bary (vadd w0 (vscale s (vsub w1 w0)))).
    { unfold opposite, bary, vadd, vscale, vsub in *. cbn in F |- *.
      assert (F0 := F (vz w0, vz w1 - vz w0) ltac:(auto)). assert (F1 := F (vx w0, vx w1 - vx w0) ltac:(auto)). assert (F2 := F (vy w0, vy w1 - vy w0) ltac:(auto)).
      cbn in F0, F1, F2. repeat split; try lra. unfold affine_weights in A.
      transitivity (vx w0 + vy w0 + vz w0 + s * ((vx w1 + vy w1 + vz w1) - (vx w0 + vy w0 + vz w0))); [ring|]. rewrite A. replace (vx w0 + vy w0 + vz w0) with 1 by lra. ring. }
    split; [exact B'|]. destruct (nth_error (edges t) j) as [e|] eqn:E.
    + exists e. split; [eapply nth_error_In, E|]. apply (opposite_zero t _ j); [exact B'|exact E|].
      unfold opposite, vadd, vscale, vsub in *. cbn [vx vy vz] in *.
      destruct j as [|[|[|j]]]; cbn in J |- *; [| | |destruct j; discriminate]; injection J as <- <-; f_equal; exact Z.
    + exfalso. unfold edges, opposite in *. destruct j as [|[|[|j]]]; cbn in E, J; try discriminate. destruct j; discriminate.
Qed.

Section Closest.
Variables (alt : bool) (t : triangle) (p : plane) (l : line).
Hypothesis Pt : proper t.
Hypothesis Pl : is_plane_of alt p t.
Hypothesis U : unit (normal p).
Hypothesis Free : forall x, in_triangle t x -> on_segment l x -> False.

Let proj := closest_on_plane alt p.

Lemma side_coplanar x : side alt p x = 0 -> coplanar t x.
Proof.
  intros H. destruct (plane_of_normal alt p t Pt Pl) as (k & K & _ & E). unfold coplanar. rewrite E in H. apply Rmult_integral in H. destruct H; [contradiction|assumption].
Qed.
Lemma coplanar_side x : coplanar t x -> side alt p x = 0.
Proof. intros H. destruct (plane_of_normal alt p t Pt Pl) as (k & K & _ & E). rewrite E, H. ring. Qed.
Lemma proj_side x : side alt p (proj x) = 0.
Proof. unfold proj. rewrite closest_side. unfold unit in U. rewrite U. ring. Qed.
Lemma proj_coplanar x : coplanar t (proj x).
Proof. apply side_coplanar, proj_side. Qed.
(** Pythagoras *)
Lemma proj_dist2 x y : side alt p x = 0 -> dot (vsub x y) (vsub x y) = dot (vsub x (proj y)) (vsub x (proj y)) + side alt p y * side alt p y.
Proof.
  intros H. unfold proj, closest_on_plane. rewrite sgn_side. set (h := side alt p y). set (n := normal p) in *.
  assert (E : dot n (vsub x y) = - h). { unfold n. rewrite <- (side_diff alt p x y), H. unfold h. ring. }
  transitivity (dot (vsub x (vsub y (vscale h n))) (vsub x (vsub y (vscale h n))) - 2 * h * dot n (vsub x y) - h * h * dot n n).
  - clear. generalize n h. clear. intros. vring.
  - rewrite E. unfold unit in U. fold n in U. rewrite U. ring.
Qed.
Lemma proj_own y : dot (vsub (proj y) y) (vsub (proj y) y) = side alt p y * side alt p y.
Proof. rewrite (proj_dist2 (proj y) y (proj_side y)). replace (vsub (proj y) (proj y)) with vzero by (clear; generalize (proj y); intros; unfold vzero; vring). unfold dot, vzero. cbn. ring. Qed.
Lemma proj_affine y z s : proj (vadd y (vscale s (vsub z y))) = vadd (proj y) (vscale s (vsub (proj z) (proj y))).
Proof.
  unfold proj, closest_on_plane. rewrite !sgn_side. rewrite side_add, dot_scale_r, <- (side_diff alt p z y).
  generalize (side alt p y) (side alt p z) (normal p). clear. intros. vring.
Qed.
Lemma side_affine y z s : side alt p (vadd y (vscale s (vsub z y))) = side alt p y + s * (side alt p z - side alt p y).
Proof. rewrite side_add, dot_scale_r, <- (side_diff alt p z y). reflexivity. Qed.

(** Some candidate of the code is at least as good as any pair of points. *)
Lemma candidates x y : in_triangle t x -> on_segment l y ->
  (exists z y', on_edge t z /\ on_segment l y' /\ dot (vsub z y') (vsub z y') <= dot (vsub x y) (vsub x y)) \/
  (exists e, (e = la l \/ e = lb l) /\ in_triangle t (proj e) /\ dot (vsub (proj e) e) (vsub (proj e) e) <= dot (vsub x y) (vsub x y)).
Proof.
  intros Ix Oy. destruct (coplanar_weights t (proj y) Pt (proj_coplanar y)) as (w0 & A0 & E0).
  assert (Sx : side alt p x = 0).
  { destruct Ix as (w & B & ->). apply coplanar_side. apply above_combine, bary_affine, B. }
  assert (D := proj_dist2 x y Sx).
  assert (Bd : bary w0 \/ ~ bary w0).
  { unfold bary. destruct (Rle_dec 0 (vx w0)); [|right; lra]. destruct (Rle_dec 0 (vy w0)); [|right; lra]. destruct (Rle_dec 0 (vz w0)); [|right; lra]. left. unfold affine_weights in A0. lra. }
  destruct Bd as [B0|B0].
  - (* y is above the triangle *)
    assert (Ip : in_triangle t (proj y)) by (exists w0; split; assumption).
    set (h := side alt p y) in *.
    assert (Hz : h <> 0).
    { intros Z. apply (Free y); [|exact Oy]. assert (K := proj_own y). fold h in K. rewrite Z in K. replace (0 * 0) with 0 in K by ring.
      apply dot_self_0 in K. replace y with (proj y); [exact Ip|]. assert (X := f_equal vx K). assert (Y := f_equal vy K). assert (W := f_equal vz K).
      cbn [vx vy vz vsub vzero] in X, Y, W. apply vec3_ext; lra. }
    assert (Dh : h * h <= dot (vsub x y) (vsub x y)) by (rewrite D; assert (K := dot_self_ge (vsub x (proj y))); lra).
    (* the end of the segment on which the plane is not further away *)
    assert (Ends : exists e, (e = la l \/ e = lb l) /\ side alt p e * h <= h * h).
    { destruct Oy as (r & Rr & Ey). assert (Hy : h = (1 - r) * side alt p (la l) + r * side alt p (lb l)).
      { unfold h. rewrite Ey. unfold side. rewrite dot_add_r, !dot_scale_r. destruct alt; ring. }
      destruct (Rle_dec (side alt p (la l) * h) (h * h)) as [L|L]; [exists (la l); split; [left; reflexivity|exact L]|].
      exists (lb l). split; [right; reflexivity|]. apply Rnot_lt_le. intros M.
      assert (h * h < (1 - r) * (side alt p (la l) * h) + r * (side alt p (lb l) * h)).
      { destruct (Req_dec r 0) as [->|?]; [lra|]. destruct (Req_dec r 1) as [->|?]; [lra|].
        assert (0 < (1 - r) * (side alt p (la l) * h - h * h)) by (apply Rmult_lt_0_compat; lra).
        assert (0 < r * (side alt p (lb l) * h - h * h)) by (apply Rmult_lt_0_compat; lra). lra. }
      assert (h * h = (1 - r) * (side alt p (la l) * h) + r * (side alt p (lb l) * h)) by (rewrite Hy at 1; ring). lra. }
    destruct Ends as (e & Ee & He).
    assert (Oe : on_segment l e) by (destruct Ee as [->| ->]; [exists 0|exists 1]; (split; [lra|]); clear; destruct l as [a b]; cbn [la lb]; vring).
    assert (Conv : forall s, 0 <= s <= 1 -> on_segment l (vadd y (vscale s (vsub e y)))).
    { intros s Hs. destruct Oy as (r & Rr & ->). destruct Oe as (q & Q & ->). exists (r + s * (q - r)). split; [split; nra|]. clear. destruct l as [a b]. cbn [la lb]. vring. }
    destruct (coplanar_weights t (proj e) Pt (proj_coplanar e)) as (w1 & A1 & E1).
    assert (Walk : forall s, 0 <= s <= 1 -> bary (vadd w0 (vscale s (vsub w1 w0))) -> 
      let ys := vadd y (vscale s (vsub e y)) in
      proj ys = combine3 (vadd w0 (vscale s (vsub w1 w0))) (pa t) (pb t) (pc t) /\
      dot (vsub (proj ys) ys) (vsub (proj ys) ys) <= dot (vsub x y) (vsub x y)).
    { intros s Hs Bs ys. assert (Wp : forall q, proj (vadd y (vscale q (vsub e y))) = combine3 (vadd w0 (vscale q (vsub w1 w0))) (pa t) (pb t) (pc t)).
      { intros q. rewrite proj_affine, E0, E1. generalize (pa t) (pb t) (pc t). clear. intros. unfold combine3. vring. }
      split; [apply Wp|]. unfold ys. rewrite proj_own, side_affine. fold h. set (e' := side alt p e) in *.
      set (f := h + s * (e' - h)).
      assert (F1 : f * h <= h * h). { unfold f. assert (s * (e' * h - h * h) <= 0); [|lra]. assert (0 <= s * (h * h - e' * h)) by (apply Rmult_le_pos; lra). lra. }
      assert (F0 : 0 <= f * h).
      { apply Rnot_lt_le. intros L. (* the segment would pass through the triangle *)
        assert (Hh : 0 < h * h) by nra.
        assert (N1 : s * (e' * h - h * h) < 0) by (unfold f in L; lra).
        set (g := h * h / (h * h - e' * h)).
        assert (Dp : 0 < h * h - e' * h). { apply Rnot_le_lt. intros ?. assert (0 <= s * (e' * h - h * h)) by (apply Rmult_le_pos; lra). lra. }
        assert (Eg : g * (h * h - e' * h) = h * h) by (unfold g; field; lra).
        assert (G0 : 0 < g) by (unfold g; apply Rdiv_lt_0_compat; assumption).
        assert (Gs : g <= s). { apply (Rmult_le_reg_r (h * h - e' * h)); [exact Dp|]. rewrite Eg. unfold f in L. lra. }
        apply (Free (vadd y (vscale g (vsub e y)))); [|apply Conv; lra].
        assert (Sg : side alt p (vadd y (vscale g (vsub e y))) = 0).
        { rewrite side_affine. fold h. fold e'. apply (Rmult_eq_reg_r h); [|exact Hz]. rewrite Rmult_0_l. lra. }
        assert (Pg : proj (vadd y (vscale g (vsub e y))) = vadd y (vscale g (vsub e y))).
        { unfold proj, closest_on_plane. rewrite sgn_side, Sg. generalize (vadd y (vscale g (vsub e y))) (normal p). clear. intros. vring. }
        rewrite <- Pg, Wp. eexists. split; [|reflexivity]. clear - B0 Bs Gs G0 Hs A0 A1. unfold bary, affine_weights, vadd, vscale, vsub in *. cbn [vx vy vz] in *.
        assert (K : forall u v, 0 <= u -> 0 <= u + s * (v - u) -> 0 <= u + g * (v - u)).
        { intros u v U0 U1. destruct (Rle_dec 0 (v - u)); [assert (0 <= g * (v - u)) by (apply Rmult_le_pos; lra); lra|]. assert (s * (v - u) <= g * (v - u)) by nra. lra. }
        repeat split; try (apply K; lra).
        transitivity ((vx w0 + vy w0 + vz w0) + g * ((vx w1 + vy w1 + vz w1) - (vx w0 + vy w0 + vz w0))); [ring|]. rewrite A0, A1. ring. }
      eapply Rle_trans; [|exact Dh]. assert (Hh : 0 < h * h) by nra. apply (Rmult_le_reg_r (h * h)); [exact Hh|].
      replace (f * f * (h * h)) with ((f * h) * (f * h)) by ring. nra. }
    assert (Bd1 : bary w1 \/ ~ bary w1).
    { unfold bary. destruct (Rle_dec 0 (vx w1)); [|right; lra]. destruct (Rle_dec 0 (vy w1)); [|right; lra]. destruct (Rle_dec 0 (vz w1)); [|right; lra]. left. unfold affine_weights in A1. lra. }
    destruct Bd1 as [B1|B1].
    + right. exists e. split; [exact Ee|]. split; [exists w1; split; assumption|].
      destruct (Walk 1) as (_ & W); [lra| |].
      { replace (vadd w0 (vscale 1 (vsub w1 w0))) with w1 by (clear; vring). exact B1. }
      replace (vadd y (vscale 1 (vsub e y))) with e in W by (clear; vring). exact W.
    + left. destruct (leave t w0 w1 B0 A1 B1) as (s & Hs & Bs & Oe'). destruct (Walk s Hs Bs) as (W1 & W2).
      exists (proj (vadd y (vscale s (vsub e y)))), (vadd y (vscale s (vsub e y))). split; [rewrite W1; exact Oe'|]. split; [apply Conv, Hs|exact W2].
  - (* y is not above the triangle: towards its projection, the distance does not grow *)
    left. destruct Ix as (w & B & Ex). destruct (leave t w w0 B A0 B0) as (s & Hs & Bs & Oe). cbv zeta in *.
    exists (combine3 (vadd w (vscale s (vsub w0 w))) (pa t) (pb t) (pc t)), y. split; [exact Oe|]. split; [exact Oy|].
    rewrite D, (proj_dist2 _ y); [|apply coplanar_side, above_combine, bary_affine, Bs].
    replace (vsub (combine3 (vadd w (vscale s (vsub w0 w))) (pa t) (pb t) (pc t)) (proj y)) with (vscale (1 - s) (vsub x (proj y))).
    2:{ rewrite Ex, E0. generalize (pa t) (pb t) (pc t). clear. intros. unfold combine3. vring. }
    rewrite dot_scale_l, dot_scale_r. assert (K := dot_self_ge (vsub x (proj y))).
    assert ((1 - s) * ((1 - s) * dot (vsub x (proj y)) (vsub x (proj y))) <= dot (vsub x (proj y)) (vsub x (proj y))); [|lra].
    set (k := dot (vsub x (proj y)) (vsub x (proj y))) in *. assert ((1 - s) * (1 - s) <= 1) by nra. nra.
Qed.
End Closest.

Definition len2 (l : line) : R := len_sq (vsub (lb l) (la l)).
(** The chosen line is one of the candidates seen so far, and none of them is shorter. *)
Definition chosen (big : R) (seen : line -> Prop) (s : option line * R) : Prop :=
  (forall c, seen c -> snd s <= len2 c) /\ match fst s with None => snd s = big /\ (forall c, seen c -> False) | Some r => seen r /\ len2 r = snd s end.
Lemma chosen_better big seen s (cond : bool) d l : chosen big seen s -> d = len2 l -> (cond = true -> d < big) ->
  chosen big (fun c => seen c \/ (cond = true /\ c = l)) (better cond d l s).
Proof.
  intros (A & B) -> Hb. unfold better. destruct cond; cbn [andb].
  2:{ split; [intros c [H|[? _]]; [apply A, H|discriminate]|]. destruct (fst s); [destruct B; split; [left; assumption|assumption]|].
      destruct B as [B1 B2]. split; [exact B1|]. intros c [H|[? _]]; [apply (B2 c H)|discriminate]. }
  specialize (Hb eq_refl). destruct (Rltb (len2 l) (snd s)) eqn:E.
  - apply Rltb_iff in E. split; cbn [fst snd]; [intros c [H|[_ ->]]; [specialize (A c H); lra|lra]|]. split; [right; split; reflexivity|reflexivity].
  - apply Rltb_false in E. split; [intros c [H|[_ ->]]; [apply A, H|exact E]|].
    destruct (fst s) as [r|]; [destruct B; split; [left; assumption|assumption]|]. destruct B as [B1 B2]. lra.
Qed.
Lemma len_sq_sym a b : len_sq (vsub a b) = len_sq (vsub b a).
Proof. unfold len_sq. vring. Qed.

Theorem closest_to_triangle_spec alt eps big t p l :
  0 < eps -> proper t -> is_plane_of alt p t -> unit (normal p) ->
  (forall x, in_triangle t x -> on_segment l x -> False) ->
  (forall e, In e (edges t) -> eps < len2 e) -> (eps < len2 l \/ la l = lb l) ->
  (forall x y, in_triangle t x -> on_segment l y -> len_sq (vsub x y) < big) ->
  (forall e, In e (edges t) -> shortest (on_segment e) (on_segment l) (closest_between_lines eps e l)) ->
  exists r, closest_to_triangle alt eps big t p l = Some r /\ shortest (in_triangle t) (on_segment l) r.
Proof.
  intros He Pt Pl U Free Ne Nl Big SH.
  set (pla := closest_on_plane alt p (la l)). set (plb := closest_on_plane alt p (lb l)).
  set (sab := closest_between_lines eps (mkLine (pa t) (pb t)) l). set (sbc := closest_between_lines eps (mkLine (pb t) (pc t)) l).
  set (sca := closest_between_lines eps (mkLine (pc t) (pa t)) l).
  assert (Ola : on_segment l (la l)) by (exists 0; split; [lra|]; clear; destruct l as [a b]; cbn [la lb]; vring).
  assert (Olb : on_segment l (lb l)) by (exists 1; split; [lra|]; clear; destruct l as [a b]; cbn [la lb]; vring).
  assert (Cin : forall x, is_inside_triangle t (closest_on_plane alt p x) = true <-> in_triangle t (closest_on_plane alt p x)).
  { intros x. apply is_inside_spec; [exact Pt|]. apply (proj_coplanar alt t p Pt Pl U). }
  assert (V : forall e, In e (edges t) -> in_triangle t (la (closest_between_lines eps e l)) /\ on_segment l (lb (closest_between_lines eps e l))).
  { intros e I. destruct (SH e I) as (A & B & _). split; [exact (edge_in_triangle t e _ I A)|exact B]. }
  assert (Dl : forall e, In e (edges t) -> len2 (closest_between_lines eps e l) < big).
  { intros e I. destruct (V e I). unfold len2. rewrite len_sq_sym. apply Big; assumption. }
  assert (Iab : In (mkLine (pa t) (pb t)) (edges t)) by (left; reflexivity). assert (Ibc : In (mkLine (pb t) (pc t)) (edges t)) by (right; left; reflexivity).
  assert (Ica : In (mkLine (pc t) (pa t)) (edges t)) by (right; right; left; reflexivity).
  set (s0 := (None, big) : option line * R).
  set (s1 := if is_inside_triangle t pla then (Some (mkLine pla (la l)), len_sq (vsub pla (la l))) else s0).
  assert (C1 : chosen big (fun c => is_inside_triangle t pla = true /\ c = mkLine pla (la l)) s1).
  { unfold s1, s0, chosen. destruct (is_inside_triangle t pla).
    - cbn [fst snd]. split; [intros c [_ ->]; unfold len2; cbn [la lb]; rewrite len_sq_sym; lra|]. split; [split; reflexivity|]. unfold len2; cbn [la lb]. apply len_sq_sym.
    - cbn [fst snd]. split; [intros c [? _]; discriminate|]. split; [reflexivity|]. intros c [? _]. discriminate. }
  assert (C2 := chosen_better big _ s1 (is_inside_triangle t plb) (len_sq (vsub plb (lb l))) (mkLine plb (lb l)) C1 (len_sq_sym _ _)
    (fun H => Big plb (lb l) (proj1 (Cin (lb l)) H) Olb)).
  assert (C3 := chosen_better big _ _ true (len2 sab) sab C2 eq_refl (fun _ => Dl _ Iab)).
  assert (C4 := chosen_better big _ _ true (len2 sbc) sbc C3 eq_refl (fun _ => Dl _ Ibc)).
  assert (C5 := chosen_better big _ _ true (len2 sca) sca C4 eq_refl (fun _ => Dl _ Ica)).
  unfold closest_to_triangle. fold pla plb sab sbc sca.
  cbv zeta. fold s0. fold s1. fold (len2 sab) (len2 sbc) (len2 sca).
  set (s5 := better true (len2 sca) sca _) in *. clearbody s5. clear C1 C2 C3 C4.
  destruct C5 as (Min & C5). destruct (fst s5) as [r|]; [|destruct C5 as [_ H]; exfalso; apply (H sca); right; split; reflexivity].
  destruct C5 as (Seen & Len). rewrite <- Len in Min. exists r. split; [reflexivity|].
  assert (Vr : in_triangle t (la r) /\ on_segment l (lb r)).
  { destruct Seen as [[[[[H ->]|[H ->]]|[_ ->]]|[_ ->]]|[_ ->]]; [| |apply (V _ Iab)|apply (V _ Ibc)|apply (V _ Ica)]; cbn [la lb]; (split; [apply Cin, H|assumption]). }
  split; [apply Vr|]. split; [apply Vr|]. intros x y Ix Oy. apply dist_le.
  change (dot (vsub (la r) (lb r)) (vsub (la r) (lb r))) with (len_sq (vsub (la r) (lb r))). rewrite len_sq_sym. fold (len2 r).
  destruct (candidates alt t p l Pt Pl U Free x y Ix Oy) as [(z & y' & (e & I & Oz) & Oy' & D)|(e & Ee & Ie & D)]; (eapply Rle_trans; [|exact D]).
  - apply Rle_trans with (len2 (closest_between_lines eps e l)).
    + apply Min. destruct I as [<-|[<-|[<-|[]]]]; [left; left; right|left; right|right]; split; reflexivity.
    + destruct (SH e I) as (_ & _ & K). specialize (K z y' Oz Oy'). unfold dist, len in K. apply sqrt_le_0 in K; [|apply dot_self_ge|apply dot_self_ge].
      unfold len2. rewrite len_sq_sym. exact K.
  - apply Rle_trans with (len2 (mkLine (closest_on_plane alt p e) e)); [|unfold len2; cbn [la lb]; rewrite len_sq_sym; right; reflexivity].
    apply Min. apply Cin in Ie. destruct Ee as [-> | ->]; [left; left; left; left|left; left; left; right]; split; try assumption; reflexivity.
Qed.
