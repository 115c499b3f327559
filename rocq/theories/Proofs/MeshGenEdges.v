(** Directed edges of grids, discs, cones and tubes of labelled points. *)
From Coq Require Import ZArith List Bool Arith Lia.
From Verif Require Import Model.Mesh Model.Interp Model.MeshGen Spec.MeshGenSpec Proofs.MeshGenLoops Proofs.MeshGenPieces.
Import ListNotations.
Local Open Scope nat_scope.

Lemma flat_map_flat_map {A B C} (g : B -> list C) (f : A -> list B) l : flat_map g (flat_map f l) = flat_map (fun x => flat_map g (f x)) l.
Proof. induction l; cbn; [reflexivity|]. now rewrite flat_map_app, IHl. Qed.

Lemma NoDup_flat_map {A B} (f : A -> list B) l : NoDup l -> (forall x, In x l -> NoDup (f x)) ->
  (forall x y e, In x l -> In y l -> In e (f x) -> In e (f y) -> x = y) -> NoDup (flat_map f l).
Proof.
  induction l as [|x l IH]; intros N H D; cbn; [constructor|]. inversion N as [|? ? Hx Nl]; subst.
  assert (X : NoDup (f x)) by (apply H; now left).
  assert (Y : NoDup (flat_map f l)). { apply IH; [exact Nl|intros; apply H; now right|]. intros y z e Hy Hz. apply D; now right. }
  assert (Z : forall e, In e (f x) -> ~ In e (flat_map f l)).
  { intros e He Hin. apply in_flat_map in Hin. destruct Hin as (y & Hy & Hey). apply Hx. rewrite (D x y e); [exact Hy|now left|now right|exact He|exact Hey]. }
  clear - X Y Z. induction X as [|a la Ha X IH]; cbn; [exact Y|]. constructor.
  - rewrite in_app_iff. intros [K|K]; [contradiction|]. apply (Z a); [now left|exact K].
  - apply IH. intros e He. apply Z. now right.
Qed.

Lemma edges_flat_map {A B} (f : A -> list (B * B * B)) l : directed_edges (flat_map f l) = flat_map (fun x => directed_edges (f x)) l.
Proof. apply flat_map_flat_map. Qed.

Definition emap {A B} (f : A -> B) (e : A * A) : B * B := (f (fst e), f (snd e)).
Lemma edges_map {A B} (f : A -> B) l : directed_edges (map (tmap f) l) = map (emap f) (directed_edges l).
Proof. unfold directed_edges. induction l as [|[[a b] c] l IH]; cbn; [reflexivity|]. now rewrite IH. Qed.
Lemma edges_app {A} (l l' : list (A * A * A)) : directed_edges (l ++ l') = directed_edges l ++ directed_edges l'.
Proof. apply flat_map_app. Qed.

(** A family of triangles indexed by two numbers *)
Lemma NoDup_family {A} (g : nat -> nat -> list (A * A * A)) R C :
  (forall i j, i < R -> j < C -> NoDup (directed_edges (g i j))) ->
  (forall i j i' j' e, i < R -> j < C -> i' < R -> j' < C -> In e (directed_edges (g i j)) -> In e (directed_edges (g i' j')) -> i = i' /\ j = j') ->
  NoDup (directed_edges (flat_map (fun i => flat_map (g i) (seq 0 C)) (seq 0 R))).
Proof.
  intros N D. rewrite edges_flat_map. apply NoDup_flat_map.
  - apply seq_NoDup.
  - intros i Hi. apply in_seq in Hi. rewrite edges_flat_map. apply NoDup_flat_map.
    + apply seq_NoDup.
    + intros j Hj. apply in_seq in Hj. apply N; lia.
    + intros j j' e Hj Hj' E E'. apply in_seq in Hj, Hj'. apply (D i j i j' e); try lia; assumption.
  - intros i i' e Hi Hi' E E'. apply in_seq in Hi, Hi'. rewrite edges_flat_map in E, E'. apply in_flat_map in E, E'.
    destruct E as (j & Hj & E), E' as (j' & Hj' & E'). apply in_seq in Hj, Hj'. apply (D i j i' j' e); try lia; assumption.
Qed.

Ltac nodup := repeat (constructor; [cbn [In]; let X := fresh in intros X; repeat (destruct X as [X|X]; [injection X; clear X; intros; lia|]); exact X|]); constructor.

Lemma cell_nodup o ac i j : NoDup (directed_edges (cell o ac i j)).
Proof. destruct o; unfold cell, cut; destruct (ac i j); cbn [directed_edges flat_map tri_edges app]; nodup. Qed.

Ltac owner E E' :=
  cbn [directed_edges flat_map tri_edges app In] in E, E';
  repeat (destruct E as [E|E]; [rewrite <- E in E'; repeat (destruct E' as [E'|E']; [injection E'; clear E'; intros; lia|]); contradiction|]); contradiction.

Lemma cell_owner o ac i j i' j' e : In e (directed_edges (cell o ac i j)) -> In e (directed_edges (cell o ac i' j')) -> i = i' /\ j = j'.
Proof. intros E E'. destruct o; unfold cell, cut in E, E'; destruct (ac i j), (ac i' j'); owner E E'. Qed.

Theorem grid_edges o ac R C : NoDup (directed_edges (grid o ac R C)).
Proof. apply NoDup_family; [intros; apply cell_nodup|]. intros i j i' j' e _ _ _ _. apply cell_owner. Qed.

(** Discs and cones as families *)
Definition sector (fan : nat -> (nat * nat) * (nat * nat) * (nat * nat)) (o : order) ac (i j : nat) :=
  match j with O => [fan i] | S _ => cell o ac i j end.
Lemma sector_eq fan o ac H K : 0 < K ->
  flat_map (fun i => fan i :: flat_map (fun j => cell o ac i j) (seq 1 (K - 1))) (seq 0 H)
  = flat_map (fun i => flat_map (sector fan o ac i) (seq 0 K)) (seq 0 H).
Proof.
  intros HK. apply flat_map_ext. intros i. destruct K as [|K]; [lia|]. cbn [seq flat_map sector app]. f_equal. rewrite Nat.sub_succ, Nat.sub_0_r.
  apply flat_map_ext_in'. intros j Hj. apply in_seq in Hj. destruct j; [lia|reflexivity].
Qed.

Definition disc_fan (up : bool) (i : nat) : (nat * nat) * (nat * nat) * (nat * nat) :=
  if up then ((0, 0), (i, 1), (i + 1, 1)) else ((i + 1, 1), (i, 1), (0, 0)).
Theorem disc_edges up ac H K : 0 < K -> NoDup (directed_edges (disc up ac H K)).
Proof.
  intros HK. unfold disc. change (fun i => _ :: _) with (fun i => disc_fan up i :: flat_map (fun j => cell (if up then O1 else O0) ac i j) (seq 1 (K - 1))).
  rewrite sector_eq by exact HK. apply NoDup_family.
  - intros i [|j] _ _; cbn [sector]; [|apply cell_nodup]. destruct up; cbn [directed_edges flat_map tri_edges app disc_fan]; nodup.
  - intros i j i' j' e _ _ _ _. destruct j as [|j], j' as [|j']; cbn [sector]; intros E E'.
    + unfold disc_fan in E, E'. destruct up; owner E E'.
    + exfalso. unfold disc_fan, cell, cut in E, E'. destruct up; destruct (ac i' (S j')); owner E E'.
    + exfalso. unfold disc_fan, cell, cut in E, E'. destruct up; destruct (ac i (S j)); owner E E'.
    + eapply cell_owner; eassumption.
Qed.

Theorem cone_edges ac H V : 0 < V -> NoDup (directed_edges (cone_fan ac H V)).
Proof.
  intros HK. unfold cone_fan. rewrite (sector_eq (fun i => ((i, 0), (i, 1), (i + 1, 1)))) by exact HK. apply NoDup_family.
  - intros i [|j] _ _; cbn [sector]; [|apply cell_nodup]. cbn [directed_edges flat_map tri_edges app]; nodup.
  - intros i j i' j' e _ _ _ _. destruct j as [|j], j' as [|j']; cbn [sector]; intros E E'.
    + owner E E'.
    + exfalso. unfold cell, cut in E, E'. destruct (ac i' (S j')); owner E E'.
    + exfalso. unfold cell, cut in E, E'. destruct (ac i (S j)); owner E E'.
    + eapply cell_owner; eassumption.
Qed.

(** Tubes *)
Lemma next_lt n i : i < n -> next n i < n.
Proof. intros. unfold next. destruct (Nat.ltb_spec (i + 1) n); lia. Qed.
Lemma next_facts n i i' : 3 <= n -> i < n -> i' < n ->
  (next n i = next n i' -> i = i') /\ next n i <> i /\ next n i' <> i' /\ ~ (i = next n i' /\ next n i = i').
Proof. intros. unfold next. destruct (Nat.ltb_spec (i + 1) n), (Nat.ltb_spec (i' + 1) n); lia. Qed.
Lemma next_onto n i : i < n -> exists k, k < n /\ next n k = i.
Proof.
  intros H. destruct i as [|i].
  - exists (n - 1). unfold next. destruct (Nat.ltb_spec (n - 1 + 1) n); lia.
  - exists i. unfold next. destruct (Nat.ltb_spec (i + 1) n); lia.
Qed.

Definition tube_cell (ac : nat -> nat -> bool) (U V i j : nat) := cut (ac i j) (i, j) (i, next V j) (next U i, next V j) (next U i, j).

Theorem tube_edges ac U V : 3 <= U -> 3 <= V -> NoDup (directed_edges (tube ac U V)).
Proof.
  intros HU HV. unfold tube. apply (NoDup_family (tube_cell ac U V)).
  - intros i j Hi Hj. unfold tube_cell, cut. pose proof (next_facts U i i HU Hi Hi) as (_ & F & _ & _). pose proof (next_facts V j j HV Hj Hj) as (_ & G & _ & _).
    destruct (ac i j); cbn [directed_edges flat_map tri_edges app]; nodup.
  - intros i j i' j' e Hi Hj Hi' Hj' E E'. unfold tube_cell, cut in E, E'.
    pose proof (next_facts U i i' HU Hi Hi') as (F1 & F2 & F3 & F4). pose proof (next_facts V j j' HV Hj Hj') as (G1 & G2 & G3 & G4).
    revert F1 F2 F3 F4 G1 G2 G3 G4 E E'. generalize (next U i) (next U i') (next V j) (next V j'). clear Hi Hj Hi' Hj' HU HV. intros.
    destruct (ac i j), (ac i' j');
      cbn [directed_edges flat_map tri_edges app In] in E, E';
      repeat (destruct E as [E|E]; [rewrite <- E in E'; repeat (destruct E' as [E'|E']; [injection E'; clear E'; intros;
        first [split; first [congruence|apply F1; congruence|apply G1; congruence]
              |exfalso; first [congruence|apply F4; split; congruence|apply G4; split; congruence]]|]); contradiction|]); contradiction.
Qed.

Theorem tube_closed ac U V e : In e (directed_edges (tube ac U V)) -> In (snd e, fst e) (directed_edges (tube ac U V)).
Proof.
  intros E. unfold tube in E. rewrite edges_flat_map in E. apply in_flat_map in E. destruct E as (i & Hi & E).
  rewrite edges_flat_map in E. apply in_flat_map in E. destruct E as (j & Hj & E). apply in_seq in Hi, Hj.
  assert (P : forall i' j' x, i' < U -> j' < V -> In x (directed_edges (tube_cell ac U V i' j')) -> In x (directed_edges (tube ac U V))).
  { intros i' j' x Hi' Hj' Hx. unfold tube. rewrite edges_flat_map. apply in_flat_map. exists i'. split; [apply in_seq; lia|].
    rewrite edges_flat_map. apply in_flat_map. exists j'. split; [apply in_seq; lia|]. exact Hx. }
  destruct (next_onto U i) as (pi & Hpi & Epi); [lia|]. destruct (next_onto V j) as (pj & Hpj & Epj); [lia|].
  pose proof (next_lt U i ltac:(lia)) as Ni. pose proof (next_lt V j ltac:(lia)) as Nj.
  (* the four sides *)
  assert (S1 : In ((i, next V j), (i, j)) (directed_edges (tube ac U V))).
  { apply (P pi j); try lia. unfold tube_cell, cut. rewrite Epi. destruct (ac pi j); cbn; tauto. }
  assert (S2 : In ((next U i, next V j), (i, next V j)) (directed_edges (tube ac U V))).
  { apply (P i (next V j)); try lia. unfold tube_cell, cut. destruct (ac i (next V j)); cbn; tauto. }
  assert (S3 : In ((next U i, j), (next U i, next V j)) (directed_edges (tube ac U V))).
  { apply (P (next U i) j); try lia. unfold tube_cell, cut. destruct (ac (next U i) j); cbn; tauto. }
  assert (S4 : In ((i, j), (next U i, j)) (directed_edges (tube ac U V))).
  { apply (P i pj); try lia. unfold tube_cell, cut. rewrite Epj. destruct (ac i pj); cbn; tauto. }
  assert (S5 : forall x, In x (directed_edges (tube_cell ac U V i j)) -> In x (directed_edges (tube ac U V))) by (intros; apply (P i j); try lia; assumption).
  unfold tube_cell, cut in S5. unfold cut in E.
  destruct (ac i j); cbn [directed_edges flat_map tri_edges app In] in E; repeat (destruct E as [<-|E]; cbn [fst snd]; [try assumption; apply S5; cbn; tauto|]); contradiction.
Qed.
