(** When a list of triangles in space encloses a volume: its directed edges cancel each other. *)
From Coq Require Import ZArith Reals List Bool Arith.
From Verif Require Import Model.Vec Model.Mesh Model.Interp Model.MeshGen Spec.MeshGenSpec.
Import ListNotations.

Definition vec3_dec (p q : vec3) : {p = q} + {p <> q}.
Proof. decide equality; apply Req_EM_T. Defined.
Definition edge_dec (e f : vec3 * vec3) : {e = f} + {e <> f}.
Proof. decide equality; apply vec3_dec. Defined.

(** How often triangles of the list go from p to q along an edge *)
Definition uses (l : list (vec3 * vec3 * vec3)) (p q : vec3) : nat := count_occ edge_dec (directed_edges l) (p, q).
(** Every edge is used as often in one direction as in the other.  Points are compared by their coordinates, so seams where
    a generator repeats vertices are no boundaries. *)
Definition closed (l : list (vec3 * vec3 * vec3)) : Prop := forall p q, uses l p q = uses l q p.

(** The triangles of a mesh as triangles in space *)
Definition geometry (m : gmesh) (ts : list tri) : list (vec3 * vec3 * vec3) :=
  flat_map (fun t => match corners m t with Some c => [tmap position c] | None => [] end) ts.

(** The descriptors that describe closed solids: all covers are there, and a spiral ends where a segment ends. *)
Definition solid (d : descriptor) : Prop :=
  match d with
  | DCuboid _ | DEllipsoid _ | DCapsule _ | DTorus _ | DKnot _ | DCurve _ => True
  | DCone d => co_cover d <> 0
  | DCylinder d => cy_top d <> 0 /\ cy_bottom d <> 0
  | DPie d => pi_cover d <> 0
  | DPipe d => pp_top d <> 0 /\ pp_bottom d <> 0
  | DSpiral d => sp_top d <> 0 /\ sp_bottom d <> 0 /\ exists n, (Rmax 0 (sp_turns d) * INR (Nat.max 3 (sp_u d)) = INR n)%R
  | DBezier _ => False
  end.
