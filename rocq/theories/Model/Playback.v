(** Model of the animation playback: [/repo/include/Geom/Playback.h], [/repo/sources/Playback.cpp].

    The model is written over an arbitrary scalar type (see [Scalar.v]).  [FrameIndex] is
    [std::size_t] (Playback.h:41): a [Z] whose arithmetic wraps modulo 2^64.

    Not modelled: several playbacks sharing one listener object; listeners that call
    [Playback::Play] from inside a notification; listeners that write [interpolator]. *)
From Coq Require Import ZArith List Bool.
From Verif Require Import Model.Scalar.
Import ListNotations.
Open Scope Z_scope.

Section Playback.
Variable S : scalar.
Notation T := (car S).

(** [std::size_t] arithmetic. *)
Definition size_max : Z := 2 ^ 64.
Definition wrap (z : Z) : Z := z mod size_max.

(** Playback.h:44-49 *)
Inductive pstate := Playing | Paused | Stopped.

(** The notifications a listener receives (Playback.h:51-98), in order of delivery.  [EvNext f] is
    OnNextFrame delivered while the playback's [frame] is [f]. *)
Inductive event := EvPlay | EvPause | EvStop | EvNext (f : Z).

(** Public fields of a playback (Playback.h:267-283), as a listener sees them. *)
Record fields := mkFields {
  firstFrame   : Z;
  lastFrame    : Z;
  frame        : Z;
  nextFrame    : Z;
  interpolator : T;
  speed        : T
}.

(** What a user-defined OnNextFrame may do with the sender. *)
Inductive action :=
| ASetNextFrame (i : Z)        (* SetNextFrame(i)          *)
| ASetNext                     (* SetNextFrame()           *)
| AStop                        (* Stop()                   *)
| APause (p : bool)            (* Pause(p)                 *)
| ASetFirst (i : Z) | ASetLast (i : Z) | ASetFrameField (i : Z) | ASetNextField (i : Z)
| ASetSpeed (s : T).           (* assignments to fields    *)

(** Event listeners: the four built-in ones (Playback.h:106-156) and user-defined ones that override OnNextFrame.
    [LCustom f] performs the actions [f fields state]. *)
Inductive listener :=
| LOneShot
| LLoop
| LPingPong
| LList (frames : list Z) (iterator : Z)
| LCustom (f : fields -> pstate -> list action).

Record playback := mkPlayback {
  pf    : fields;
  pst   : pstate;      (* state_ *)
  plst  : listener;    (* eventListener_ *)
  plog  : list event   (* ghost: all notifications delivered so far, oldest first *)
}.

(** Playback.h:267-290, Playback.cpp:73-76 *)
Definition playback_init : playback :=
  mkPlayback (mkFields 0 0 0 0 (s0 S) (s1 S)) Stopped LOneShot [].

(** Field updates. *)
Definition set_first v f := mkFields v (lastFrame f) (frame f) (nextFrame f) (interpolator f) (speed f).
Definition set_last v f := mkFields (firstFrame f) v (frame f) (nextFrame f) (interpolator f) (speed f).
Definition set_frame v f := mkFields (firstFrame f) (lastFrame f) v (nextFrame f) (interpolator f) (speed f).
Definition set_next v f := mkFields (firstFrame f) (lastFrame f) (frame f) v (interpolator f) (speed f).
Definition set_interp v f := mkFields (firstFrame f) (lastFrame f) (frame f) (nextFrame f) v (speed f).
Definition set_speed v f := mkFields (firstFrame f) (lastFrame f) (frame f) (nextFrame f) (interpolator f) v.

Definition with_pf (g : fields -> fields) (p : playback) : playback :=
  mkPlayback (g (pf p)) (pst p) (plst p) (plog p).
Definition post (e : event) (p : playback) : playback :=
  mkPlayback (pf p) (pst p) (plst p) (plog p ++ [e]).
Definition with_lst (l : listener) (p : playback) : playback :=
  mkPlayback (pf p) (pst p) l (plog p).
Definition with_st (s : pstate) (p : playback) : playback :=
  mkPlayback (pf p) s (plst p) (plog p).

(** Playback.h:250-253 *)
Definition are_frames_chrono (f : fields) : bool := firstFrame f <=? lastFrame f.

(** Playback.h:260-263 *)
Definition is_forward (f : fields) : bool := sle S (s0 S) (speed f).

(** Playback.cpp:186-192 *)
Definition has_end_reached (f : fields) : bool :=
  if is_forward f then
    if are_frames_chrono f then lastFrame f <=? frame f else frame f <=? lastFrame f
  else
    if are_frames_chrono f then frame f <=? firstFrame f else firstFrame f <=? frame f.

(** Playback.cpp:169-175 *)
Definition set_next_frame_to (i : Z) (f : fields) : fields :=
  if is_forward f then set_next i f else set_frame i f.

(** Playback.cpp:177-184 *)
Definition set_next_frame (f : fields) : fields :=
  if is_forward f then
    set_next (if are_frames_chrono f then wrap (frame f + 1) else wrap (frame f - 1)) f
  else
    set_frame (if are_frames_chrono f then wrap (frame f - 1) else wrap (frame f + 1)) f.

(** OnStop of the attached listener: only ListLoop overrides it (Playback.cpp:40-43). *)
Definition on_stop (l : listener) : listener :=
  match l with LList fs _ => LList fs 0 | _ => l end.

(** Playback.cpp:199-217; the built-in OnPlay and OnPause do nothing (Playback.h:65-73). *)
Definition set_state (s : pstate) (p : playback) : playback :=
  let p1 := with_st s p in
  match s with
  | Playing => post EvPlay p1
  | Paused  => post EvPause p1
  | Stopped => with_lst (on_stop (plst p1)) (post EvStop p1)
  end.

(** Playback.cpp:126-130 *)
Definition stop (p : playback) : playback :=
  match pst p with Stopped => p | _ => set_state Stopped p end.

(** Playback.cpp:110-124 *)
Definition pause (paused : bool) (p : playback) : playback :=
  if paused then match pst p with Playing => set_state Paused p | _ => p end
  else match pst p with Paused => set_state Playing p | _ => p end.

Definition do_action (p : playback) (a : action) : playback :=
  match a with
  | ASetNextFrame i  => with_pf (set_next_frame_to (wrap i)) p
  | ASetNext         => with_pf set_next_frame p
  | AStop            => stop p
  | APause b         => pause b p
  | ASetFirst i      => with_pf (set_first (wrap i)) p
  | ASetLast i       => with_pf (set_last (wrap i)) p
  | ASetFrameField i => with_pf (set_frame (wrap i)) p
  | ASetNextField i  => with_pf (set_next (wrap i)) p
  | ASetSpeed s      => with_pf (set_speed s) p
  end.

(** ListLoop::OnNextFrame, Playback.cpp:45-68.  The model's iterator is always within the list
    or, if the list was replaced by a shorter one, may be out of range: then reading
    [frames[iterator]] in the backward branch is undefined behaviour ([None]). *)
Definition list_loop_next (forward : bool) (frames : list Z) (it : Z) : option (Z * option Z) :=
  let count := Z.of_nat (length frames) in
  if 2 <=? count then
    let it' := if forward then (if count - 1 <=? it then 0 else it + 1)
               else (if it =? 0 then count - 1 else it - 1) in
    match nth_error frames (Z.to_nat it') with
    | Some f => Some (it', Some f)
    | None => None
    end
  else Some (it, None).

(** Playback.cpp:219-222 with the listeners of Playback.cpp:17-68.  [None]: undefined behaviour. *)
Definition post_next_frame (p0 : playback) : option playback :=
  let p := post (EvNext (frame (pf p0))) p0 in
  match plst p with
  | LOneShot => Some (if has_end_reached (pf p) then stop p else with_pf set_next_frame p)
  | LLoop =>
      Some (if has_end_reached (pf p)
            then with_pf (fun f => set_next_frame_to (if is_forward f then firstFrame f else lastFrame f) f) p
            else with_pf set_next_frame p)
  | LPingPong =>
      Some (with_pf set_next_frame
              (if has_end_reached (pf p)
               then with_pf (fun f => set_last (firstFrame f) (set_first (lastFrame f) f)) p
               else p))
  | LList fs it =>
      match list_loop_next (is_forward (pf p)) fs it with
      | None => None
      | Some (it', None) => Some (with_lst (LList fs it') p)
      | Some (it', Some f) => Some (with_pf (set_next_frame_to f) (with_lst (LList fs it') p))
      end
  | LCustom g => Some (fold_left do_action (g (pf p) (pst p)) p)
  end.

(** Playback.cpp:78-98 *)
Definition play (first last : Z) (sp : T) (l : listener) (p : playback) : option playback :=
  let p1 := stop p in
  let p2 := with_lst l p1 in
  let p3 := with_pf (fun f => mkFields (wrap first) (wrap last) (wrap first) (nextFrame f) (s0 S) sp) p2 in
  post_next_frame (set_state Playing p3).

(** Result of a computation with a fuel bound on the number of loop iterations. *)
Inductive result := Done (p : playback) | Undef | OutOfFuel.

(** Playback.cpp:144-152 *)
Fixpoint forward_loop (fuel : nat) (p : playback) : result :=
  match fuel with
  | O => OutOfFuel
  | Datatypes.S n =>
      if sle S (s1 S) (interpolator (pf p)) then
        let p1 := with_pf (fun f => set_frame (nextFrame f) (set_interp (ssub S (interpolator f) (s1 S)) f)) p in
        match post_next_frame p1 with
        | Some p2 => forward_loop n p2
        | None => Undef
        end
      else Done p
  end.

(** Playback.cpp:157-165 *)
Fixpoint backward_loop (fuel : nat) (p : playback) : result :=
  match fuel with
  | O => OutOfFuel
  | Datatypes.S n =>
      if sle S (interpolator (pf p)) (s0 S) then
        let p1 := with_pf (fun f => set_next (frame f) (set_interp (sadd S (interpolator f) (s1 S)) f)) p in
        match post_next_frame p1 with
        | Some p2 => backward_loop n p2
        | None => Undef
        end
      else Done p
  end.

(** Playback.cpp:132-167 *)
Definition update (fuel : nat) (dt : T) (p : playback) : result :=
  match pst p with
  | Playing =>
      if sle S dt (s0 S) then Done p
      else
        let p1 := with_pf (fun f => set_interp (sadd S (interpolator f) (smul S dt (speed f))) f) p in
        if is_forward (pf p1) then forward_loop fuel p1 else backward_loop fuel p1
  | _ => Done p
  end.

(** Calls a client can make.  [OpPlayAgain] is Play(listener) and [OpPlayRange] is Play(first, last, listener)
    (Playback.cpp:100-108); [OpField] is an assignment to the public fields. *)
Inductive op :=
| OpPlay (first last : Z) (sp : T) (l : listener)
| OpPlayRange (first last : Z) (l : listener)
| OpPlayAgain (l : listener)
| OpPause (b : bool)
| OpStop
| OpUpdate (dt : T)
| OpSetNextFrameTo (i : Z)
| OpSetNextFrame
| OpField (g : fields -> fields).

Definition lift (o : option playback) : result :=
  match o with Some p => Done p | None => Undef end.

Definition step (fuel : nat) (p : playback) (o : op) : result :=
  match o with
  | OpPlay a b s l => lift (play a b s l p)
  | OpPlayRange a b l => lift (play a b (speed (pf p)) l p)
  | OpPlayAgain l => lift (play (firstFrame (pf p)) (lastFrame (pf p)) (speed (pf p)) l p)
  | OpPause b => Done (pause b p)
  | OpStop => Done (stop p)
  | OpUpdate dt => update fuel dt p
  | OpSetNextFrameTo i => Done (with_pf (set_next_frame_to (wrap i)) p)
  | OpSetNextFrame => Done (with_pf set_next_frame p)
  | OpField g => Done (with_pf g p)
  end.

(** A history of calls; each Update gets the loop bound [fuel]. *)
Fixpoint run (fuel : nat) (p : playback) (os : list op) : result :=
  match os with
  | [] => Done p
  | o :: os' =>
      match step fuel p o with
      | Done p' => run fuel p' os'
      | r => r
      end
  end.

End Playback.

Arguments firstFrame {S}. Arguments lastFrame {S}. Arguments frame {S}. Arguments nextFrame {S}.
Arguments interpolator {S}. Arguments speed {S}.
Arguments mkFields {S}. Arguments mkPlayback {S}.
Arguments pf {S}. Arguments pst {S}. Arguments plst {S}. Arguments plog {S}.
Arguments LOneShot {S}. Arguments LLoop {S}. Arguments LPingPong {S}. Arguments LList {S}. Arguments LCustom {S}.
Arguments Done {S}. Arguments Undef {S}. Arguments OutOfFuel {S}.
Arguments OpPlay {S}. Arguments OpPlayRange {S}. Arguments OpPlayAgain {S}. Arguments OpPause {S}. Arguments OpStop {S}.
Arguments OpUpdate {S}. Arguments OpSetNextFrameTo {S}. Arguments OpSetNextFrame {S}. Arguments OpField {S}.
