(** Independent notions used in the statements about stop words and the override
    switch. *)
Require Import List Arith NArith ZArith Bool.
From Verif Require Import Base Num MotionModel GcodeModel GcodeSpec.
Import ListNotations.
Open Scope N_scope.

(** Program stop and program end: M0, M1, M2, M30, M60. *)
Definition stop_words : list (N * N) := [(cM, 0); (cM, 10); (cM, 20); (cM, 300); (cM, 600)].
(** A block with no other words than those of the table. *)
Definition only_words {D} (T : list (N * N)) (ws : list (@word D)) : Prop :=
  forall w, In w ws -> In (w_letter w, w_int w) T.

(** The motions a program hands over: the parser announces a motion for the line. *)
Definition is_motion {D} (o : @gcode D * smotion D) : bool :=
  match g_res (fst o) with OkContextUpdateAndMotion => true | _ => false end.
Definition motions_of {D} (outs : list (@gcode D * smotion D)) : list (smotion D) := map snd (filter is_motion outs).
