From Coq Require Import Reals List Bool Arith Lra Lia.
From Verif Require Import Model.Scalar Model.Vec Model.Ext Model.Plane Model.Mesh Model.Interp Model.Clip.
From Verif Require Import Spec.PlaneSpec Spec.MeshSpec Spec.InterpSpec Spec.ClipSpec.
From Verif Require Import Proofs.VecLemmas Proofs.PlaneLemmas Proofs.InterpLemmas Proofs.MeshLemmas2 Proofs.ClipLemmas.
Import ListNotations.
Local Open Scope R_scope.

Notation vtri := (vertex * vertex * vertex)%type.

(** Appending vertices keeps the corners of triangles that are in range. *)
Lemma corners_app (vs ws : list vertex) t r : corners vs t = Some r -> corners (vs ++ ws) t = Some r.
Proof.
  unfold corners. intros H.
  destruct (nth_error vs (ta t)) eqn:A; [|discriminate]. destruct (nth_error vs (tb t)) eqn:B; [|discriminate].
  destruct (nth_error vs (tc t)) eqn:C; [|discriminate].
  rewrite !nth_error_app1 by (apply nth_error_Some; congruence). rewrite A, B, C. exact H.
Qed.

(** The vertex triples of a mesh; all of them defined. *)
Definition soup (m : mesh vertex) (l : list vtri) : Prop := triangle_list m = map Some l.
Lemma soup_wf m l : soup m l -> well_formed m.
Proof.
  unfold soup, triangle_list. intros H t Ht.
  assert (In (corners (verts m) t) (map Some l)) as K by (rewrite <- H; apply in_map, Ht).
  apply in_map_iff in K. destruct K as (r & E & _). unfold corners in E. unfold in_range.
  destruct (nth_error (verts m) (ta t)) eqn:A; [|discriminate]. destruct (nth_error (verts m) (tb t)) eqn:B; [|discriminate].
  destruct (nth_error (verts m) (tc t)) eqn:C; [|discriminate].
  repeat split; apply nth_error_Some; congruence.
Qed.
Lemma soup_app vs ws ts us l k : soup (mkMesh vs ts) l -> map (corners (vs ++ ws)) us = map Some k ->
  soup (mkMesh (vs ++ ws) (ts ++ us)) (l ++ k).
Proof.
  unfold soup, triangle_list; cbn. intros H K. rewrite !map_app, K. f_equal.
  revert l H. induction ts as [|t ts IH]; intros l H; destruct l as [|r l]; cbn in *; try discriminate; [reflexivity|].
  injection H as H1 H2. rewrite (corners_app _ _ _ _ H1), (IH l H2). reflexivity.
Qed.

Lemma copy_soup m out l t a b c : soup out l -> corners (verts m) t = Some (a, b, c) ->
  exists out', copy_triangle m out t = Some out' /\ soup out' (l ++ [(a, b, c)]).
Proof.
  intros H E. unfold copy_triangle. rewrite E. unfold add_triangle; cbn [verts tris]. rewrite app_length; cbn [length].
  replace ((length (verts out) <? length (verts out) + 3)%nat) with true by (symmetry; apply Nat.ltb_lt; lia).
  replace ((length (verts out) + 1 <? length (verts out) + 3)%nat) with true by (symmetry; apply Nat.ltb_lt; lia).
  replace ((length (verts out) + 2 <? length (verts out) + 3)%nat) with true by (symmetry; apply Nat.ltb_lt; lia).
  cbn [andb]. eexists. split; [reflexivity|]. apply soup_app; [destruct out; exact H|].
  cbn [map]. unfold corners, ta, tb, tc; cbn [fst snd].
  rewrite !nth_error_app2 by lia. rewrite Nat.sub_diag.
  replace (length (verts out) + 1 - length (verts out))%nat with 1%nat by lia.
  replace (length (verts out) + 2 - length (verts out))%nat with 2%nat by lia. reflexivity.
Qed.

(** Indices of the fan triangles *)
Fixpoint fan_idx (n i : nat) (p : poly) : list tri :=
  match p with [] => [] | _ :: p' => if (2 <=? i)%nat then (n, (n + i - 1)%nat, (n + i)%nat) :: fan_idx n (S i) p' else fan_idx n (S i) p' end.

Lemma add_fan_eq m dv k t a b c n p : nth_error (tris m) k = Some t -> well_formed m -> corners (verts m) t = Some (a, b, c) ->
  forall i out, length (verts out) = (n + i)%nat ->
  add_fan m dv k n i p out =
  Some (mkMesh (verts out ++ map (fun w => combine_vertices w a b c) p) (tris out ++ fan_idx n i p)).
Proof.
  intros Ht W E. induction p as [|w p IH]; intros i out L; cbn [add_fan map fan_idx].
  - rewrite !app_nil_r. destruct out; reflexivity.
  - rewrite (barycentric_spec m dv k w t a b c) by assumption.
    destruct (2 <=? i)%nat eqn:E2.
    + unfold add_triangle; cbn [verts tris]. rewrite app_length; cbn [length]. apply Nat.leb_le in E2.
      replace ((n <? length (verts out) + 1)%nat) with true by (symmetry; apply Nat.ltb_lt; lia).
      replace ((n + i - 1 <? length (verts out) + 1)%nat) with true by (symmetry; apply Nat.ltb_lt; lia).
      replace ((n + i <? length (verts out) + 1)%nat) with true by (symmetry; apply Nat.ltb_lt; lia).
      cbn [andb]. rewrite IH by (cbn; rewrite app_length; cbn; lia). cbn [verts tris]. rewrite <- !app_assoc. reflexivity.
    + rewrite IH by (cbn; rewrite app_length; cbn; lia). cbn [verts tris]. rewrite <- !app_assoc. reflexivity.
Qed.

Definition fan_soup (f : vec3 -> vertex) (p : poly) : list vtri := map (fun x => (f (fst (fst x)), f (snd (fst x)), f (snd x))) (fan p).

Lemma fan_from_corners (f : vec3 -> vertex) vs p0 : forall l pre q,
  (1 <= length pre)%nat -> nth_error (pre ++ [q]) 0 = Some p0 ->
  map (corners (vs ++ map f (pre ++ [q] ++ l))) (fan_idx (length vs) (S (length pre)) l) =
  map Some (map (fun x => (f (fst (fst x)), f (snd (fst x)), f (snd x))) (fan_from p0 q l)).
Proof.
  induction l as [|r l IH]; intros pre q Hp H0; cbn [fan_idx fan_from map]; [reflexivity|].
  replace (2 <=? S (length pre))%nat with true by (symmetry; apply Nat.leb_le; lia). cbn [map fst snd].
  f_equal.
  - unfold corners, ta, tb, tc; cbn [fst snd]. rewrite !nth_error_app2 by lia.
    rewrite Nat.sub_diag.
    replace (length vs + S (length pre) - 1 - length vs)%nat with (length pre) by lia.
    replace (length vs + S (length pre) - length vs)%nat with (S (length pre)) by lia.
    rewrite !nth_error_map. replace (pre ++ [q] ++ r :: l) with ((pre ++ [q]) ++ r :: l) by (rewrite <- app_assoc; reflexivity).
    rewrite (nth_error_app1 (pre ++ [q]) (r :: l)) by (rewrite app_length; cbn; lia). rewrite H0.
    rewrite (nth_error_app1 (pre ++ [q]) (r :: l)) by (rewrite app_length; cbn; lia).
    rewrite (nth_error_app2 pre) by lia. rewrite Nat.sub_diag.
    rewrite (nth_error_app2 (pre ++ [q]) (r :: l)) by (rewrite app_length; cbn; lia).
    rewrite app_length; cbn [length]. replace (S (length pre) - (length pre + 1))%nat with 0%nat by lia. reflexivity.
  - specialize (IH (pre ++ [q]) r). rewrite app_length in IH; cbn [length] in IH.
    replace (pre ++ [q] ++ r :: l) with ((pre ++ [q]) ++ [r] ++ l) by (rewrite <- app_assoc; reflexivity).
    replace (S (S (length pre))) with (S (length pre + 1)) by lia. apply IH; [lia|].
    rewrite nth_error_app1 by (rewrite app_length; cbn; lia). exact H0.
Qed.
Lemma fan_corners (f : vec3 -> vertex) vs p :
  map (corners (vs ++ map f p)) (fan_idx (length vs) 0 p) = map Some (fan_soup f p).
Proof.
  destruct p as [|p0 [|q l]]; [reflexivity|reflexivity|]. cbn [fan_idx Nat.leb]. unfold fan_soup. cbn [fan].
  apply (fan_from_corners f vs p0 l [p0] q); [cbn; lia|reflexivity].
Qed.

Lemma add_fan_soup m dv k t a b c p out l : nth_error (tris m) k = Some t -> well_formed m -> corners (verts m) t = Some (a, b, c) ->
  soup out l ->
  exists out', add_fan m dv k (length (verts out)) 0 p out = Some out' /\ soup out' (l ++ fan_soup (fun w => combine_vertices w a b c) p).
Proof.
  intros Ht W E S. rewrite (add_fan_eq m dv k t a b c (length (verts out)) p Ht W E 0 out) by lia.
  eexists. split; [reflexivity|]. apply soup_app; [destruct out; exact S|]. apply fan_corners.
Qed.

(** What one triangle contributes to the two meshes. *)
Definition pieces (neg : nat -> nat -> bool) eps (pl : plane) (k : nat) (x : vtri) : list vtri * list vtri :=
  let '(a, b, c) := x in
  match clip_triangle false (neg k) pl (position a) (position b) (position c) eps with
  | Some (InFrontOf, _) => ([x], [])
  | Some (Behind, _) => ([], [x])
  | Some (Clipped, (fp, bp)) => (fan_soup (fun w => combine_vertices w a b c) fp, fan_soup (fun w => combine_vertices w a b c) bp)
  | _ => ([], [])
  end.
Fixpoint all_pieces neg eps pl (k : nat) (l : list vtri) : list vtri * list vtri :=
  match l with
  | [] => ([], [])
  | x :: l' => let (f, b) := pieces neg eps pl k x in let (f', b') := all_pieces neg eps pl (S k) l' in (f ++ f', b ++ b')
  end.

Lemma clip_one_soup neg eps m dv pl k t x front back lf lb : 0 <= eps -> well_formed m ->
  nth_error (tris m) k = Some t -> corners (verts m) t = Some x -> soup front lf -> soup back lb ->
  exists front' back', clip_one neg eps m dv pl k t (front, back) = Some (front', back') /\
  soup front' (lf ++ fst (pieces neg eps pl k x)) /\ soup back' (lb ++ snd (pieces neg eps pl k x)).
Proof.
  intros He W Ht E Sf Sb. unfold clip_one. rewrite E. destruct x as [[a b] c]. unfold pieces.
  destruct (clip_triangle_spec false (neg k) pl (position a) (position b) (position c) eps He) as [(_ & K)|[(_ & K)|(_ & _ & fp & bp & K & _)]];
    rewrite K; cbn [fst snd].
  - destruct (copy_soup m front lf t a b c Sf E) as (f & Ef & Sf'). rewrite Ef. exists f, back. rewrite app_nil_r. auto.
  - destruct (copy_soup m back lb t a b c Sb E) as (b' & Eb & Sb'). rewrite Eb. exists front, b'. rewrite app_nil_r. auto.
  - destruct (add_fan_soup m dv k t a b c fp front lf Ht W E Sf) as (f & -> & Sf').
    destruct (add_fan_soup m dv k t a b c bp back lb Ht W E Sb) as (b' & -> & Sb'). exists f, b'. auto.
Qed.

Lemma clip_loop_soup neg eps m dv pl : 0 <= eps -> well_formed m -> forall l k xs front back lf lb,
  (forall i t, nth_error l i = Some t -> nth_error (tris m) (k + i) = Some t) ->
  map (corners (verts m)) l = map Some xs -> soup front lf -> soup back lb ->
  exists front' back', clip_loop neg eps m dv pl k l (front, back) = Some (front', back') /\
  soup front' (lf ++ fst (all_pieces neg eps pl k xs)) /\ soup back' (lb ++ snd (all_pieces neg eps pl k xs)).
Proof.
  intros He W. induction l as [|t l IH]; intros k xs front back lf lb Hl Hx Sf Sb; destruct xs as [|x xs]; try discriminate; cbn [clip_loop all_pieces].
  - exists front, back. cbn. rewrite !app_nil_r. auto.
  - cbn in Hx. injection Hx as Hx Hxs.
    assert (Ht : nth_error (tris m) k = Some t) by (rewrite <- (Nat.add_0_r k); apply Hl; reflexivity).
    destruct (clip_one_soup neg eps m dv pl k t x front back lf lb He W Ht Hx Sf Sb) as (f & b & -> & Sf' & Sb').
    destruct (pieces neg eps pl k x) as [pf pb]. cbn [fst snd] in *.
    destruct (IH (S k) xs f b (lf ++ pf) (lb ++ pb)) as (f' & b' & -> & Sf'' & Sb'').
    + intros i u Hi. rewrite Nat.add_succ_l, <- Nat.add_succ_r. apply Hl. exact Hi.
    + exact Hxs.
    + exact Sf'.
    + exact Sb'.
    + exists f', b'. destruct (all_pieces neg eps pl (S k) xs) as [af ab]. cbn [fst snd] in *. rewrite !app_assoc. auto.
Qed.

Lemma wf_soup m : well_formed m -> exists l, soup m l.
Proof.
  intros W. unfold soup, triangle_list. unfold well_formed in W. induction (tris m) as [|t l IH].
  - exists []. reflexivity.
  - destruct IH as (xs & E); [intros u Hu; apply W; right; exact Hu|].
    destruct (corners_some m t) as (a & b & c & F); [apply W; left; reflexivity|].
    exists ((a, b, c) :: xs). cbn. rewrite F, E. reflexivity.
Qed.

Lemma clip_mesh_soup neg eps m dv pl front back xs : 0 <= eps -> soup m xs ->
  exists front' back', clip_mesh neg eps m dv pl front back = Some (front', back') /\
  soup front' (fst (all_pieces neg eps pl 0 xs)) /\ soup back' (snd (all_pieces neg eps pl 0 xs)).
Proof.
  intros He S. apply (clip_loop_soup neg eps m dv pl He (soup_wf m xs S) (tris m) 0 xs (clear front) (clear back) [] []).
  - intros i t H. exact H.
  - exact S.
  - reflexivity.
  - reflexivity.
Qed.

(** ** Properties of the pieces *)
Lemma in_all_pieces neg eps pl l : forall k y,
  (In y (fst (all_pieces neg eps pl k l)) <-> exists i x, nth_error l i = Some x /\ In y (fst (pieces neg eps pl (k + i) x))) /\
  (In y (snd (all_pieces neg eps pl k l)) <-> exists i x, nth_error l i = Some x /\ In y (snd (pieces neg eps pl (k + i) x))).
Proof.
  induction l as [|x l IH]; intros k y; cbn [all_pieces].
  - split; (split; [intros []|intros ([|i] & x & H & _); discriminate]).
  - specialize (IH (S k) y). destruct (pieces neg eps pl k x) as [f b] eqn:P. destruct (all_pieces neg eps pl (S k) l) as [f' b']. cbn [fst snd] in *.
    rewrite !in_app_iff. destruct IH as [IH1 IH2]. rewrite IH1, IH2. split; split.
    + intros [H|(i & z & Hi & Hy)].
      * exists 0%nat, x. rewrite Nat.add_0_r, P. auto.
      * exists (S i), z. rewrite Nat.add_succ_r. auto.
    + intros ([|i] & z & Hi & Hy).
      * injection Hi as <-. rewrite Nat.add_0_r, P in Hy. auto.
      * right. exists i, z. rewrite Nat.add_succ_r in Hy. auto.
    + intros [H|(i & z & Hi & Hy)].
      * exists 0%nat, x. rewrite Nat.add_0_r, P. auto.
      * exists (S i), z. rewrite Nat.add_succ_r. auto.
    + intros ([|i] & z & Hi & Hy).
      * injection Hi as <-. rewrite Nat.add_0_r, P in Hy. auto.
      * right. exists i, z. rewrite Nat.add_succ_r in Hy. auto.
Qed.

(** A point of a fan of a polygon on one side is on that side, and inside the triangle. *)
Lemma fan_from_in p q l a b c : In (a, b, c) (fan_from p q l) -> In a (p :: q :: l) /\ In b (p :: q :: l) /\ In c (p :: q :: l).
Proof.
  revert q. induction l as [|r l IH]; intros q; cbn [fan_from]; [intros []|]. intros [[= <- <- <-]|H].
  - cbn. tauto.
  - apply IH in H. cbn in *. tauto.
Qed.
Lemma fan_in l a b c : In (a, b, c) (fan l) -> In a l /\ In b l /\ In c l.
Proof. destruct l as [|p [|q l]]; cbn [fan]; try (intros []; fail). apply fan_from_in. Qed.

Lemma bary_combine u p q r : bary u -> bary p -> bary q -> bary r -> bary (combine3 u p q r).
Proof.
  destruct u as [u0 u1 u2], p as [p0 p1 p2], q as [q0 q1 q2], r as [r0 r1 r2]. unfold bary, combine3. vunfold.
  intros (A & B & C & S) (A1 & B1 & C1 & S1) (A2 & B2 & C2 & S2) (A3 & B3 & C3 & S3).
  assert (T : forall x y z, 0 <= x -> 0 <= y -> 0 <= z -> 0 <= u0 * x + u1 * y + u2 * z).
  { intros x y z X Y Z. apply Rplus_le_le_0_compat; [apply Rplus_le_le_0_compat|]; apply Rmult_le_pos; assumption. }
  repeat split; [apply T; assumption..|].
  transitivity (u0 * (p0 + p1 + p2) + u1 * (q0 + q1 + q2) + u2 * (r0 + r1 + r2)); [ring|]. rewrite S1, S2, S3. lra.
Qed.
Lemma value_combine d0 d1 d2 u p q r : value d0 d1 d2 (combine3 u p q r) = vx u * value d0 d1 d2 p + vy u * value d0 d1 d2 q + vz u * value d0 d1 d2 r.
Proof. unfold value, combine3. destruct u, p, q, r. vunfold. ring. Qed.
Lemma poly_ok_fan d0 d1 d2 lo s p w : poly_ok d0 d1 d2 lo s p -> in_fan p w -> bary w /\ lo <= s * value d0 d1 d2 w.
Proof.
  intros H (a & b & c & Hin & u & Hu & ->). apply fan_in in Hin. destruct Hin as (Ha & Hb & Hc).
  unfold poly_ok in H. rewrite Forall_forall in H. destruct (H a Ha) as (Ba & Va), (H b Hb) as (Bb & Vb), (H c Hc) as (Bc & Vc).
  split; [apply bary_combine; assumption|]. rewrite value_combine. destruct Hu as (A & B & C & S).
  assert (T : lo = vx u * lo + vy u * lo + vz u * lo) by (transitivity ((vx u + vy u + vz u) * lo); [rewrite S; ring|ring]).
  rewrite T. replace (s * (vx u * value d0 d1 d2 a + vy u * value d0 d1 d2 b + vz u * value d0 d1 d2 c))
    with (vx u * (s * value d0 d1 d2 a) + vy u * (s * value d0 d1 d2 b) + vz u * (s * value d0 d1 d2 c)) by ring.
  apply Rplus_le_compat; [apply Rplus_le_compat|]; apply Rmult_le_compat_l; assumption.
Qed.

Lemma combine_vertices_compose u p q r a b c :
  combine_vertices u (combine_vertices p a b c) (combine_vertices q a b c) (combine_vertices r a b c) =
  combine_vertices (combine3 u p q r) a b c.
Proof.
  unfold combine_vertices, combine2, combine3, add2, scale2. destruct a as [pa na [ua va]], b as [pb nb [ub vb]], c as [pc nc [uc vc]].
  cbn [position Interp.normal tex_coord x2 y2]. f_equal.
  - destruct u, p, q, r, pa, pb, pc. vunfold. f_equal; ring.
  - destruct u, p, q, r, na, nb, nc. vunfold. f_equal; ring.
  - destruct u, p, q, r. vunfold. f_equal; ring.
Qed.
Lemma corner_vertex a b c : combine_vertices (V3 1 0 0) a b c = a /\ combine_vertices (V3 0 1 0) a b c = b /\ combine_vertices (V3 0 0 1) a b c = c.
Proof.
  destruct a as [pa na [ua va]], b as [pb nb [ub vb]], c as [pc nc [uc vc]]. unfold combine_vertices, combine2, combine3, add2, scale2.
  cbn [position Interp.normal tex_coord x2 y2 vx vy vz].
  destruct pa, pb, pc, na, nb, nc. vunfold. repeat split; f_equal; try (f_equal; ring).
Qed.
