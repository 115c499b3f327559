(** Keyframe tracks: include/Geom/KeyframeSequence.h, sources/KeyframeSequence.cpp.

    Frames are [std::size_t] values, written as [Z] with the wrap-around made explicit.  The key types (Gs::Vector3,
    Gs::Quaternion) are type parameters with their interpolation functions. *)
From Coq Require Import ZArith Reals List Bool.
Import ListNotations.
Open Scope Z_scope.

Definition size_wrap (z : Z) : Z := z mod 2 ^ 64.

(** KeyframeSequence.h:26-40 *)
Record keyframe (A : Type) := mkKf { kf_key : A; kf_frame : Z }.
Arguments mkKf {A}. Arguments kf_key {A}. Arguments kf_frame {A}.

(** Gs::Lerp / Gs::Slerp as called at KeyframeSequence.cpp:40-50 and 149-151.  [ip_inf] is what the interpolation yields
    for the infinite parameter that the division by zero at KeyframeSequence.cpp:37 produces. *)
Record interp (A : Type) := mkInterp { ip_lerp : A -> A -> R -> A; ip_inf : A -> A -> A }.
Arguments mkInterp {A}. Arguments ip_lerp {A}. Arguments ip_inf {A}.

Section Track.
Context {A : Type}.
Variable ip : interp A.

(** std::sort with CompareKeyframeSWO, KeyframeSequence.cpp:19-23 and 103-105.  A stable insertion sort; std::sort may
    order keyframes of equal frame differently (Proofs/KeyframeLemmas.v shows that the choice is irrelevant for
    distinct frames). *)
Fixpoint kf_insert (k : keyframe A) (l : list (keyframe A)) : list (keyframe A) :=
  match l with
  | [] => [k]
  | x :: l' => if kf_frame x <? kf_frame k then x :: kf_insert k l' else k :: x :: l'
  end.
Fixpoint kf_sort (l : list (keyframe A)) : list (keyframe A) :=
  match l with [] => [] | x :: l' => kf_insert x (kf_sort l') end.

(** GetFrameBounds, KeyframeSequence.cpp:25-33; the keyframes are sorted. *)
Definition get_frame_bounds (bounds : Z * Z) (kfs : list (keyframe A)) : Z * Z :=
  match kfs with
  | [] => bounds
  | k :: _ => (Z.min (fst bounds) (kf_frame k), Z.max (snd bounds) (size_wrap (kf_frame (last kfs k) + 1)))
  end.

(** FrameInterpolator and InterpolateKeys, KeyframeSequence.cpp:35-50. *)
Definition interpolate_keys (k1 k2 : keyframe A) (cur : Z) : A :=
  let den := size_wrap (kf_frame k2 - kf_frame k1) in
  if den =? 0 then ip_inf ip (kf_key k1) (kf_key k2)
  else ip_lerp ip (kf_key k1) (kf_key k2) (IZR (size_wrap (cur - kf_frame k1)) / IZR den)%R.

(** One pass of the loop body, KeyframeSequence.cpp:64-85: the iterators [from] and [to] are positions in the vector.
    [None] is a dereferenced end iterator. *)
Definition track_step (kfs : list (keyframe A)) (fr : Z) (from to : nat) : option (A * nat * nat) :=
  let adv := match nth_error kfs to with
             | Some kt => fr =? kf_frame kt
             | None => false                                  (* to == keyframes.end() *)
             end in
  let from' := if adv then to else from in
  let to' := if adv then S to else to in
  match nth_error kfs from' with
  | None => None
  | Some kf =>
      match nth_error kfs to' with
      | None => Some (kf_key kf, from', to')
      | Some kt =>
          if (fr =? kf_frame kf) || (from' =? to')%nat then Some (kf_key kf, from', to')
          else Some (interpolate_keys kf kt fr, from', to')
      end
  end.

(** The loop, KeyframeSequence.cpp:62-86: the values written to outputKeys[fr], outputKeys[fr+1], ... *)
Fixpoint track_loop (kfs : list (keyframe A)) (n : nat) (fr : Z) (from to : nat) : option (list A) :=
  match n with
  | O => Some []
  | S n' =>
      match track_step kfs fr from to with
      | None => None
      | Some (v, from', to') =>
          match track_loop kfs n' (fr + 1) from' to' with
          | None => None
          | Some vs => Some (v :: vs)
          end
      end
  end.

(** std::vector::resize(n, v): keeps the first elements, appends copies of [v]. *)
Definition vec_resize (l : list A) (n : nat) (v : A) : list A := firstn n l ++ repeat v (n - length l).

(** BuildInterpolatedKeys, KeyframeSequence.cpp:52-88.  If there are keyframes, every element of the resized vector is
    overwritten by the loop. *)
Definition build_track (old : list A) (kfs : list (keyframe A)) (numKeys : Z) (init : A) : option (list A) :=
  match kfs with
  | [] => Some (vec_resize old (Z.to_nat numKeys) init)
  | _ => track_loop kfs (Z.to_nat numKeys) 0 0 0
  end.
End Track.

Section Sequence.
Context {V Q : Type}.
Variables (ipv : interp V) (ipq : interp Q).
Variables (v_zero v_one : V) (q_id : Q).      (* Gs::Vector3(0), Gs::Vector3(1), Gs::Quaternion() *)

(** Members of KeyframeSequence, KeyframeSequence.h:134-140. *)
Record kseq := mkSeq { pos_keys : list V; rot_keys : list Q; scl_keys : list V; frame_begin : Z; frame_end : Z }.

(** A default constructed sequence. *)
Definition kseq_init : kseq := mkSeq [] [] [] 0 0.

(** KeyframeSequence.cpp:90-95 *)
Definition clear_keys (s : kseq) : kseq := mkSeq [] [] [] (frame_begin s) (frame_end s).

(** The frame boundaries, KeyframeSequence.cpp:107-113: ~0 is converted to the greatest std::size_t. *)
Definition all_bounds (ps : list (keyframe V)) (rs : list (keyframe Q)) (ss : list (keyframe V)) : Z * Z :=
  get_frame_bounds (get_frame_bounds (get_frame_bounds (2 ^ 64 - 1, 0) (kf_sort ps)) (kf_sort rs)) (kf_sort ss).

(** KeyframeSequence::BuildKeys, KeyframeSequence.cpp:97-124 *)
Definition build_keys (ps : list (keyframe V)) (rs : list (keyframe Q)) (ss : list (keyframe V)) (s : kseq) : option kseq :=
  let b := all_bounds ps rs ss in
  if fst b <? snd b then
    let n := snd b - fst b in
    match build_track ipv (pos_keys s) (kf_sort ps) n v_zero,
          build_track ipq (rot_keys s) (kf_sort rs) n q_id,
          build_track ipv (scl_keys s) (kf_sort ss) n v_one with
    | Some p, Some r, Some c => Some (mkSeq p r c (fst b) (snd b))
    | _, _, _ => None
    end
  else Some (mkSeq (pos_keys s) (rot_keys s) (scl_keys s) (fst b) (snd b)).

(** KeyframeSequence::ClampFrame, KeyframeSequence.cpp:182-188 *)
Definition clamp_frame (s : kseq) (f : Z) : Z :=
  let f1 := if f <? frame_begin s then frame_begin s else f in
  if frame_end s <=? f1 then size_wrap (frame_end s - 1) else f1.

(** Indexing of a std::vector with a std::size_t; [None] is undefined behaviour. *)
Definition vec_at {B : Type} (l : list B) (i : Z) : option B := if i <? 0 then None else nth_error l (Z.to_nat i).

Inductive sample := NoEffect | Sampled (p : V) (r : Q) (s : V) | OutOfBounds.

(** KeyframeSequence::Interpolate, KeyframeSequence.cpp:126-153 *)
Definition interpolate (s : kseq) (from to : Z) (t : R) : sample :=
  if frame_begin s <? frame_end s then
    let i := size_wrap (clamp_frame s from - frame_begin s) in
    let j := size_wrap (clamp_frame s to - frame_begin s) in
    match vec_at (pos_keys s) i, vec_at (rot_keys s) i, vec_at (scl_keys s) i,
          vec_at (pos_keys s) j, vec_at (rot_keys s) j, vec_at (scl_keys s) j with
    | Some p1, Some r1, Some s1, Some p2, Some r2, Some s2 =>
        Sampled (ip_lerp ipv p1 p2 t) (ip_lerp ipq r1 r2 t) (ip_lerp ipv s1 s2 t)
    | _, _, _, _, _, _ => OutOfBounds
    end
  else NoEffect.

(** Histories of calls. *)
Inductive kop := KBuild (ps : list (keyframe V)) (rs : list (keyframe Q)) (ss : list (keyframe V)) | KClear.
Definition kstep (s : option kseq) (o : kop) : option kseq :=
  match s with
  | None => None
  | Some s => match o with KBuild ps rs ss => build_keys ps rs ss s | KClear => Some (clear_keys s) end
  end.
Definition krun (s : kseq) (os : list kop) : option kseq := fold_left kstep os (Some s).
End Sequence.
