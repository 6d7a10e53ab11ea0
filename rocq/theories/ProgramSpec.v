(** Specification of a whole G-code program, from its text to the step pins, over
    the reals. *)
Require Import List Arith NArith ZArith Bool Reals.
From Verif Require Import Base EventModel StepModel StepSpec Num NumR MotionModel CtrlModel CtrlSpec CtrlRSpec ProfileSpec GeomSpec RunSpec
  GcodeModel GcodeSpec GcodeRSpec.
Import ListNotations.
Open Scope R_scope.

Notation rline := (g_line x_num (XF PI)).
Notation rprogram := (g_run x_num (XF PI)).

(** The motions a host passes on: those of the lines reported as making a motion. *)
Definition announced (c : @gcode xr) : bool := match g_res c with OkContextUpdateAndMotion => true | _ => false end.
Definition sent (outs : list (@gcode xr * smotion xr)) : list (smotion xr) := map snd (filter (fun o => announced (fst o)) outs).

(** The words ask for a path from [p] to [q]: straight, or the arc in the active
    plane, turning the right way, with the centre at the given offsets, or with the
    given radius (the short way round for a positive one, the long way for a
    negative one). *)
Definition asks (ws : list (@word xr)) (c' : @gcode xr) (t : motionType) (p q : nat -> R) (arc : option arcp) : Prop :=
  match arc with
  | None => is_line_type t
  | Some a =>
      let u := s_unit (g_st c') in
      is_arc_type t /\ arc_axes (s_plane (g_st c')) = (ar_0 a, ar_1 a) /\
      swept (is_cw t) (ar_c0 a) (ar_c1 a) (p (ar_0 a)) (p (ar_1 a)) (q (ar_0 a)) (q (ar_1 a)) (ar_a0 a) (ar_da a) /\
      ((exists o0 o1, has_value ws (fst (offset_letter (ar_0 a))) (XF o0) /\ has_value ws (fst (offset_letter (ar_1 a))) (XF o1) /\
          ar_c0 a = p (ar_0 a) + mm u o0 /\ ar_c1 a = p (ar_1 a) + mm u o1) \/
       (exists R, (forall i, (i < 3)%nat -> ~ has_letter ws (fst (offset_letter i))) /\ has_value ws cR (XF R) /\
          ar_r a = Rabs (mm u R) /\ (0 < R -> Rabs (ar_da a) <= PI) /\ (R < 0 -> PI <= Rabs (ar_da a))))
  end.

(** The words describe a path that exists: the ends of a line differ; an arc given by
    offsets has its end on the circle; the diameter of one given by a radius is
    at least the distance of the ends.  The path keeps within [d] of its start
    or between its ends. *)
Definition drawable (ws : list (@word xr)) (c' : @gcode xr) (t : motionType) (p q : nat -> R) (d : R) : Prop :=
  let u := s_unit (g_st c') in
  (is_line_type t /\ 0 < distance p q /\ d = 0) \/
  (is_arc_type t /\ exists a0 a1, arc_axes (s_plane (g_st c')) = (a0, a1) /\
    ((exists o0 o1, has_value ws (fst (offset_letter a0)) (XF o0) /\ has_value ws (fst (offset_letter a1)) (XF o1) /\
        let c0 := p a0 + mm u o0 in let c1 := p a1 + mm u o1 in
        0 < dist2 c0 c1 (p a0) (p a1) /\ dist2 c0 c1 (q a0) (q a1) = dist2 c0 c1 (p a0) (p a1) /\
        d = 2 * sqrt (dist2 c0 c1 (p a0) (p a1))) \/
     (exists R, (forall i, (i < 3)%nat -> ~ has_letter ws (fst (offset_letter i))) /\ has_value ws cR (XF R) /\
        0 < dist2 (p a0) (p a1) (q a0) (q a1) <= sq (2 * mm u R) /\ d = 2 * Rabs (mm u R)))).

(** A block, read in state [c], that the machine can execute: if it makes a motion,
    this is a line or an arc that exists, within the range of the step counters,
    with a positive feed in force unless it is a traverse.  (G53 motions are not
    announced by the parser, see C49.) *)
Definition block_ok (r : rmach) (c : @gcode xr) (ws : list (@word xr)) (c' : @gcode xr) (m' : smotion xr) : Prop :=
  ~ has ws cG 530 /\
  (made_motion c' m' -> exists p q d, at_mm (s_cur (g_st c)) p /\ at_mm (s_cur (g_st c')) q /\
     drawable ws c' (sm_type m') p q d /\
     (forall i, (i < 3)%nat -> in_range (rm_k r i * (Rabs (p i) + d)) /\ in_range (rm_k r i * (Rabs (q i) + d))) /\
     (is_feed_type (sm_type m') -> exists f, 0 < f /\ active_feed x_num ws (letter x_num (g_st c) LtF) (XF f))).
Definition program_ok (r : rmach) (c : @gcode xr) (m : smotion xr) (ls : list (list N)) : Prop :=
  forall pre l post c1 m1 outs ws c2 m2, ls = pre ++ l :: post -> rprogram c m pre = Ok (c1, m1, outs) ->
    line_words x_num l ws -> rline c1 m1 l = Ok (c2, m2) -> block_ok r c1 ws c2 m2.

(** The paths are those the lines of the program ask for, one after the other from [p]. *)
Inductive drawn : @gcode xr -> smotion xr -> list (list N) -> (nat -> R) -> list path -> Prop :=
| drawn_end c m p : drawn c m [] p []
| drawn_skip c m l ls c1 m1 p Ps : rline c m l = Ok (c1, m1) -> announced c1 = false -> drawn c1 m1 ls p Ps -> drawn c m (l :: ls) p Ps
| drawn_move c m l ls ws c1 m1 p q P Ps : rline c m l = Ok (c1, m1) -> announced c1 = true ->
    line_words x_num l ws -> at_mm (s_cur (g_st c)) p -> at_mm (s_cur (g_st c1)) q ->
    goes m1 P p q -> asks ws c1 (sm_type m1) p q (pa_arc P) -> drawn c1 m1 ls q Ps -> drawn c m (l :: ls) p (P :: Ps).

(** What the main loop and the host do after the start: ask for records, append motions. *)
Definition simple_op (o : c_op xr xr) : Prop := o = OCalc \/ exists m, o = OAppend m.
Definition appends (ops : list (c_op xr xr)) : list (smotion xr) :=
  flat_map (fun o => match o with OAppend m => [m] | _ => [] end) ops.
Definition asked (ops : list (c_op xr xr)) : nat := length (filter (fun o => match o with OCalc => true | _ => false end) ops).
(** Queue [first], start, then [ops]. *)
Definition script (first : list (smotion xr)) (ops : list (c_op xr xr)) : list (c_op xr xr) := map OAppend first ++ OStart :: ops.
(** The controller is given the motions [ms]: some before the start, at most as many as the
    queue holds, the others while it is running and there is room; and none of them can take
    20 hours. *)
Record given (M : machine xr) (r : rmach) (w : R) (c : ctrl xr) (ms first : list (smotion xr)) (ops : list (c_op xr xr)) : Prop := {
  gi_all : ms = first ++ appends ops;
  gi_some : first <> [];
  gi_room : (length first <= 32)%nat;
  gi_ops : Forall simple_op ops;
  gi_fed : forall pre m post c' recs, ops = pre ++ OAppend m :: post -> c_run x_arith M c (script first pre) = Ok (c', recs) ->
             c_state c' = ms_running /\ (c_level c' < 32)%N;
  gi_brief : forall m P, In m ms -> describes m P -> path_ok P -> brief r w 1 m P }.
(** The same without the limit on the duration. *)
Record passed (M : machine xr) (c : ctrl xr) (ms first : list (smotion xr)) (ops : list (c_op xr xr)) : Prop := {
  ps_all : ms = first ++ appends ops;
  ps_some : first <> [];
  ps_room : (length first <= 32)%nat;
  ps_ops : Forall simple_op ops;
  ps_fed : forall pre m post c' recs, ops = pre ++ OAppend m :: post -> c_run x_arith M c (script first pre) = Ok (c', recs) ->
             c_state c' = ms_running /\ (c_level c' < 32)%N }.
