(** Model of include/Geom/Triangle.h and of include/Geom/TriangleCollision.h 28-408, over exact reals. *)
From Coq Require Import Reals List Bool Arith.
From Verif Require Import Model.Scalar Model.Vec Model.Ext Model.Plane Model.Coll.
Import ListNotations.
Local Open Scope R_scope.

(** Triangle.h 196 and 342 *)
Record triangle2 := mkTri2 { a2 : vec2; b2 : vec2; c2 : vec2 }.
Record triangle := mkTri { pa : vec3; pb : vec3; pc : vec3 }.

(** Triangle.h 25-29 *)
Definition area2d (x1 y1 x2 y2 x3 y3 : R) : R := (x1 - x2) * (y2 - y3) - (x2 - x3) * (y1 - y2).

(** Triangle.h 126-132 *)
Definition normal2 (t : triangle2) : vec3 :=
  cross (V3 (x2 (b2 t) - x2 (a2 t)) (y2 (b2 t) - y2 (a2 t)) 0) (V3 (x2 (c2 t) - x2 (a2 t)) (y2 (c2 t) - y2 (a2 t)) 0).
(** 145-148 *)
Definition to_cartesian2 (t : triangle2) (w : vec3) : vec2 :=
  add2 (add2 (scale2 (vx w) (a2 t)) (scale2 (vy w) (b2 t))) (scale2 (vz w) (c2 t)).
(** 171-185; [None]: division by zero, the result is infinite or not a number *)
Definition to_barycentric2 (t : triangle2) (p : vec2) : option vec3 :=
  let n := vz (normal2 t) in
  let nu := area2d (x2 p) (y2 p) (x2 (b2 t)) (y2 (b2 t)) (x2 (c2 t)) (y2 (c2 t)) in
  let nv := area2d (x2 p) (y2 p) (x2 (c2 t)) (y2 (c2 t)) (x2 (a2 t)) (y2 (a2 t)) in
  if Reqb n 0 then None else
  let ood := 1 / n in
  let u := nu * ood in
  let v := nv * ood in
  Some (V3 u v (1 - u - v)).
(** 156-164 *)
Definition to_cartesian2_tri (t : triangle2) (s : triangle) : triangle2 :=
  mkTri2 (to_cartesian2 t (pa s)) (to_cartesian2 t (pb s)) (to_cartesian2 t (pc s)).

(** Triangle.h 248-251 *)
Definition tri_normal (t : triangle) : vec3 := cross (vsub (pb t) (pa t)) (vsub (pc t) (pa t)).
(** 254-257; Normalized() returns the normalized copy *)
Definition unit_normal (t : triangle) : vec3 := normalize (tri_normal t).
(** 264-267 *)
Definition to_cartesian (t : triangle) (w : vec3) : vec3 :=
  vadd (vadd (vscale (vx w) (pa t)) (vscale (vy w) (pb t))) (vscale (vz w) (pc t)).
(** 275-283 *)
Definition to_cartesian_tri (t s : triangle) : triangle :=
  mkTri (to_cartesian t (pa s)) (to_cartesian t (pb s)) (to_cartesian t (pc s)).
(** 290-331; [None]: division by zero *)
Definition to_barycentric (t : triangle) (p : vec3) : option vec3 :=
  let n := tri_normal t in
  let a := pa t in let b := pb t in let c := pc t in
  let x := Rabs (vx n) in let y := Rabs (vy n) in let z := Rabs (vz n) in
  let '(nu, nv, d) :=
    if Rleb y x && Rleb z x
    then (area2d (vy p) (vz p) (vy b) (vz b) (vy c) (vz c), area2d (vy p) (vz p) (vy c) (vz c) (vy a) (vz a), vx n)
    else if Rleb x y && Rleb z y
    then (area2d (vx p) (vz p) (vx b) (vz b) (vx c) (vz c), area2d (vx p) (vz p) (vx c) (vz c) (vx a) (vz a), - vy n)
    else (area2d (vx p) (vy p) (vx b) (vy b) (vx c) (vy c), area2d (vx p) (vy p) (vx c) (vy c) (vx a) (vy a), vz n) in
  if Reqb d 0 then None else
  let ood := 1 / d in
  let u := nu * ood in
  let v := nv * ood in
  Some (V3 u v (1 - u - v)).

(** ** TriangleCollision.h *)

(** 34-40 *)
Definition same_side (p q a b : vec3) : bool :=
  let diff := vsub b a in
  let v0 := cross diff (vsub p a) in
  let v1 := cross diff (vsub q a) in
  Rleb 0 (dot v0 v1).
(** 32-47 *)
Definition is_inside_triangle (t : triangle) (p : vec3) : bool :=
  same_side p (pa t) (pb t) (pc t) && same_side p (pb t) (pa t) (pc t) && same_side p (pc t) (pa t) (pb t).

(** 54-110; [None]: division by zero *)
Definition closest_on_triangle (t : triangle) (p : vec3) : option vec3 :=
  let a := pa t in let b := pb t in let c := pc t in
  let ab := vsub b a in
  let ac := vsub c a in
  let ap := vsub p a in
  let d1 := dot ab ap in
  let d2 := dot ac ap in
  if Rleb d1 0 && Rleb d2 0 then Some a else
  let bp := vsub p b in
  let d3 := dot ab bp in
  let d4 := dot ac bp in
  if Rleb 0 d3 && Rleb d4 d3 then Some b else
  let v_c := d1 * d4 - d3 * d2 in
  if Rleb v_c 0 && Rltb 0 d1 && Rleb d3 0
  then if Reqb (d1 - d3) 0 then None else let v := d1 / (d1 - d3) in Some (vadd a (vscale v ab)) else
  let cp := vsub p c in
  let d5 := dot ab cp in
  let d6 := dot ac cp in
  if Rleb 0 d6 && Rleb d5 d6 then Some c else
  let v_b := d5 * d2 - d1 * d6 in
  if Rleb v_b 0 && Rltb 0 d2 && Rleb d6 0
  then if Reqb (d2 - d6) 0 then None else let w := d2 / (d2 - d6) in Some (vadd a (vscale w ac)) else
  let v_a := d3 * d6 - d5 * d4 in
  if Rleb v_a 0 && Rltb 0 (d4 - d3) && Rleb 0 (d5 - d6)
  then if Reqb ((d4 - d3) + (d5 - d6)) 0 then None
       else let w := (d4 - d3) / ((d4 - d3) + (d5 - d6)) in Some (vadd b (vscale w (vsub c b))) else
  if Reqb (v_a + v_b + v_c) 0 then None else
  let denom := 1 / (v_a + v_b + v_c) in
  let v := v_b * denom in
  let w := v_c * denom in
  Some (vadd (vadd a (vscale v ab)) (vscale w ac)).

(** 119-178: the candidates in the order of the code, each with its squared length, and the running minimum.  [big] is
    std::numeric_limits<T>::max(); [None] is the empty result {} (both pointers null). *)
Definition better (cond : bool) (d : R) (l : line) (s : option line * R) : option line * R :=
  if cond && Rltb d (snd s) then (Some l, d) else s.
Definition closest_to_triangle (alt : bool) (eps big : R) (t : triangle) (p : plane) (l : line) : option line :=
  let sab := closest_between_lines eps (mkLine (pa t) (pb t)) l in
  let sbc := closest_between_lines eps (mkLine (pb t) (pc t)) l in
  let sca := closest_between_lines eps (mkLine (pc t) (pa t)) l in
  let len2 (l : line) := len_sq (vsub (lb l) (la l)) in
  let pla := closest_on_plane alt p (la l) in
  let plb := closest_on_plane alt p (lb l) in
  let da := len_sq (vsub pla (la l)) in
  let db := len_sq (vsub plb (lb l)) in
  let s := (None, big) in
  let s := if is_inside_triangle t pla then (Some (mkLine pla (la l)), da) else s in      (* 143-148: no comparison with dist *)
  let s := better (is_inside_triangle t plb) db (mkLine plb (lb l)) s in
  let s := better true (len2 sab) sab s in
  let s := better true (len2 sbc) sbc s in
  let s := better true (len2 sca) sca s in
  fst s.

(** 192-221: the precomputed structures, after Update() *)
Record pretri := mkPre { ptri : triangle; pnormal : vec3; crossCB : vec3; crossAC : vec3; crossBA : vec3; pdistance : R }.
Definition pre_triangle (t : triangle) : pretri :=
  let n := cross (vsub (pb t) (pa t)) (vsub (pc t) (pa t)) in
  mkPre t n (cross (pc t) (pb t)) (cross (pa t) (pc t)) (cross (pb t) (pa t)) (dot n (pa t)).
Record preray := mkPreRay { pray : ray; cross_dir_origin : vec3 }.
Definition pre_ray (r : ray) : preray := mkPreRay r (cross (rdirection r) (rorigin r)).

(** 225-255; the out parameter is only modelled if true is returned.  The divisor is positive where it is reached (C47_barycentric). *)
Definition hit_precomputed (q : pretri) (r : preray) : option vec3 :=
  let d := rdirection (pray r) in
  let s := dot (cross_dir_origin r) (vsub (pc (ptri q)) (pb (ptri q))) in
  let t := dot (cross_dir_origin r) (vsub (pa (ptri q)) (pc (ptri q))) in
  let x := dot d (crossCB q) + s in
  let y := dot d (crossAC q) + t in
  if Rleb (x * y) 0 then None else
  let z := dot d (crossBA q) - s - t in
  if Rleb (x * z) 0 then None else
  if Rleb 0 (dot (pnormal q) d) then None else
  if Rleb (dot (pnormal q) (rorigin (pray r))) (pdistance q) then None else
  Some (vscale (1 / (x + y + z)) (V3 x y z)).

(** 259-295 *)
Definition hit_barycentric (t : triangle) (r : ray) : option vec3 :=
  let a := vsub (pa t) (rorigin r) in
  let b := vsub (pb t) (rorigin r) in
  let c := vsub (pc t) (rorigin r) in
  let m := cross (rdirection r) c in
  let x := dot b m in
  if Rltb x 0 then None else
  let y := - dot a m in
  if Rltb y 0 then None else
  let z := dot a (cross (rdirection r) b) in
  if Rltb z 0 then None else
  let n := cross (vsub (pb t) (pa t)) (vsub (pc t) (pa t)) in
  if Rleb 0 (dot n (rdirection r)) then None else
  if Rleb (dot n (rorigin r)) (dot n (pa t)) then None else
  Some (vscale (1 / (x + y + z)) (V3 x y z)).

(** 299-318; [None]: false *)
Definition triangle_interp (alt neg : bool) (t : triangle) (p : plane) (o d : vec3) : option ext :=
  let a := vsub (pa t) o in
  let b := vsub (pb t) o in
  let c := vsub (pc t) o in
  if Rltb (dot b (cross d c)) 0 then None else
  if Rltb (dot c (cross d a)) 0 then None else
  if Rltb (dot a (cross d b)) 0 then None else
  Some (plane_interp alt neg p o d).
(** 322-334 *)
Definition triangle_ray_plane (alt neg : bool) (t : triangle) (p : plane) (r : ray) : hit :=
  match triangle_interp alt neg t p (rorigin r) (rdirection r) with
  | None => Miss
  | Some e => if ext_ge e 0 then match e with Fin s => Hit (ray_lerp r s) | _ => HitInf end else Miss
  end.
(** 338-341; Plane.h 124-127 for the plane of a triangle *)
Definition plane_of (alt : bool) (t : triangle) : plane := build3 alt (pa t) (pb t) (pc t).
Definition triangle_ray (alt neg : bool) (t : triangle) (r : ray) : hit := triangle_ray_plane alt neg t (plane_of alt t) r.
(** 345-357 *)
Definition triangle_line_plane (alt neg : bool) (t : triangle) (p : plane) (l : line) : hit :=
  match triangle_interp alt neg t p (la l) (line_direction l) with
  | None => Miss
  | Some e => if ext_ge e 0 && ext_le e 1 then match e with Fin s => Hit (line_lerp l s) | _ => HitInf end else Miss
  end.
(** 361-364 *)
Definition triangle_line (alt neg : bool) (t : triangle) (l : line) : hit := triangle_line_plane alt neg t (plane_of alt t) l.

(** 368-408: the edges in the order of the loops, each tested in both directions against the other triangle *)
Definition edges (t : triangle) : list line := [mkLine (pa t) (pb t); mkLine (pb t) (pc t); mkLine (pc t) (pa t)].
Definition edge_test (alt : bool) (neg : nat -> bool) (t : triangle) (e : line) : option vec3 :=
  match triangle_line alt (neg 0%nat) t e with
  | Hit x => Some x
  | _ => match triangle_line alt (neg 1%nat) t (mkLine (lb e) (la e)) with Hit x => Some x | _ => None end
  end.
(** The found points so far (at most one) and the remaining (triangle, edge) pairs *)
Fixpoint two_hits (alt : bool) (neg : nat -> nat -> bool) (k : nat) (l : list (triangle * line)) (found : option vec3) : option line :=
  match l with
  | [] => None
  | (t, e) :: l' =>
      match edge_test alt (neg k) t e with
      | None => two_hits alt neg (S k) l' found
      | Some x => match found with Some y => Some (mkLine y x) | None => two_hits alt neg (S k) l' (Some x) end
      end
  end.
Definition triangle_triangle (alt : bool) (neg : nat -> nat -> bool) (s t : triangle) : option line :=
  two_hits alt neg 0 (map (fun e => (s, e)) (edges t) ++ map (fun e => (t, e)) (edges s)) None.
