(** The range and the speed a playback was last asked to play (C92). *)
From Coq Require Import ZArith List.
From Verif Require Import Model.Scalar Model.Playback. (* only for the types [op] and [listener] *)
Import ListNotations.

Section Replay.
Variable S : scalar.

(** Built-in listeners, and those that keep the direction *)
Definition built_in (l : listener S) : Prop := match l with LCustom _ => False | _ => True end.
Definition one_way (l : listener S) : Prop := match l with LCustom _ | LPingPong => False | _ => True end.

(** Calls that do not assign to the public fields, with listeners of the given kind *)
Definition call_with (kind : listener S -> Prop) (o : op S) : Prop :=
  match o with
  | OpPlay _ _ _ l | OpPlayRange _ _ l | OpPlayAgain l => kind l
  | OpField _ => False
  | _ => True
  end.

(** First frame, last frame and speed of the last call that named them *)
Fixpoint asked (a : Z * Z * car S) (os : list (op S)) : Z * Z * car S :=
  match os with
  | [] => a
  | OpPlay first last speed _ :: os => asked (first, last, speed) os
  | OpPlayRange first last _ :: os => asked (first, last, snd a) os
  | _ :: os => asked a os
  end.
End Replay.
