(** What a client of a playback sees, stated without reference to the implementation.

    A range from [first] to [last] (ascending or descending) is walked frame by frame. *)
From Coq Require Import ZArith Reals List.
From Verif Require Import Model.Scalar Model.Playback. (* only for the types [event] and [pstate] *)
Import ListNotations.
Open Scope Z_scope.

(** Number of steps from [first] to [last]. *)
Definition span (first last : Z) : Z := Z.abs (last - first).

(** The [i]-th frame on the way from [first] to [last]. *)
Definition frame_at (first last i : Z) : Z := if first <=? last then first + i else first - i.

(** One-shot: after [k] steps; stay at the end. *)
Definition oneshot_frame (first last k : Z) : Z := frame_at first last (Z.min k (span first last)).

(** Loop: start again at [first] after [last]. *)
Definition loop_frame (first last k : Z) : Z := frame_at first last (k mod (span first last + 1)).

(** Triangle wave of height [n]: 0,1,...,n,n-1,...,1,0,1,... *)
Definition triangle_wave (n k : Z) : Z := let r := k mod (2 * n) in if r <=? n then r else 2 * n - r.
Definition pingpong_frame (first last k : Z) : Z := frame_at first last (triangle_wave (span first last) k).

(** Time that has passed: updates with a non-positive delta do not count. *)
Fixpoint elapsed (ds : list R) : R :=
  match ds with
  | [] => 0%R
  | d :: ds' => (Rmax d 0 + elapsed ds')%R
  end.

(** [k] is the number of whole frames in the frame time [tau]. *)
Definition whole_frames (tau : R) (k : Z) : Prop := (IZR k <= tau < IZR k + 1)%R.

(** Integers [0, 1, ..., n-1]. *)
Definition upto (n : Z) : list Z := map Z.of_nat (seq 0 (Z.to_nat n)).

(** State announced by a notification. *)
Definition announced (e : event) : option pstate :=
  match e with EvPlay => Some Playing | EvPause => Some Paused | EvStop => Some Stopped | EvNext _ => None end.

Fixpoint announcements (l : list event) : list pstate :=
  match l with
  | [] => []
  | e :: l' => match announced e with Some s => s :: announcements l' | None => announcements l' end
  end.

(** Allowed successions of announced states. *)
Definition may_follow (a b : pstate) : Prop :=
  match a, b with
  | Stopped, Playing | Playing, Paused | Playing, Stopped | Paused, Playing | Paused, Stopped => True
  | _, _ => False
  end.

Fixpoint legal_from (s : pstate) (l : list pstate) : Prop :=
  match l with [] => True | t :: l' => may_follow s t /\ legal_from t l' end.

