(** Texture coordinates of generated meshes *)
From Coq Require Import Reals.
From Verif Require Import Model.Vec Model.Aabb Model.Interp Model.MeshGen Spec.WindingSpec.
Local Open Scope R_scope.

(** A texture coordinate inside of the image *)
Definition in_image (v : vertex) : Prop := 0 <= x2 (tex_coord v) <= 1 /\ 0 <= y2 (tex_coord v) <= 1.
(** Twice the signed area of a triangle in the image; it is positive if the order of the corners is the same as on the front of a
    quadrilateral that shows the image upright, with x to the right and y downwards, and negative if the image appears mirrored. *)
Definition image_area (t : vertex * vertex * vertex) : R :=
  let '(a, b, c) := t in
  (x2 (tex_coord b) - x2 (tex_coord a)) * (y2 (tex_coord c) - y2 (tex_coord a)) - (y2 (tex_coord b) - y2 (tex_coord a)) * (x2 (tex_coord c) - x2 (tex_coord a)).

(** Descriptors whose texture coordinates stay in the image *)
Definition fitted (d : descriptor) : Prop :=
  match d with
  | DPipe d => 0 <= x2 (pp_inner d) <= x2 (pp_outer d) /\ 0 <= y2 (pp_inner d) <= y2 (pp_outer d) /\ 0 < x2 (pp_outer d) /\ 0 < y2 (pp_outer d)
  | DTorus _ | DSpiral _ => False
  | _ => True
  end.
(** Descriptors that do not mirror the image *)
Definition upright (d : descriptor) : Prop :=
  match d with
  | DPie d => pi_angle d < 2 * PI
  | DPipe _ | DKnot _ | DCurve _ => False
  | _ => True
  end.
(** Two corners on opposite borders of the image *)
Definition across (t : vertex * vertex * vertex) : Prop :=
  let '(a, b, c) := t in
  let apart v w := Rabs (x2 (tex_coord v) - x2 (tex_coord w)) = 1 \/ Rabs (y2 (tex_coord v) - y2 (tex_coord w)) = 1 in
  apart a b \/ apart b c \/ apart c a.
(** On the inner mantle of a pipe of circles: at the inner radius, with a normal that looks to the axis *)
Definition on_inner (d : pipe) (v : vertex) : Prop :=
  vx (position v) * vx (position v) + vz (position v) * vz (position v) = x2 (pp_inner d) * x2 (pp_inner d) /\ vx (normal v) * vx (position v) + vz (normal v) * vz (position v) < 0.
Definition is_curve (d : descriptor) : Prop := match d with DCurve _ | DKnot _ => True | _ => False end.
