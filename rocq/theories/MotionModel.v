(** Model of lib/motion: speed profiles, trajectory, motion item. *)
Require Import List Arith NArith ZArith Bool.
From Verif Require Import Base Num.
Import ListNotations.

(** lib/motion/motiontype.h *)
Inductive motionType := traverse | feedLinear | feedHelicalCW | feedHelicalCCW
  | pauseAndResume | pause | mt_none.
(** lib/motion/motionstrategy.h *)
Inductive motionStrategy := maximizeSpeed | minimizeSpeed.
(** lib/motion/motioncalculatedirection.h *)
Inductive calcDir := cd_forward | cd_reverse.
(** lib/motion/speedprofileorder.h *)
Inductive profileOrder := firstOrder | secondOrder.

Definition is_move (t : motionType) : bool :=
  match t with traverse | feedLinear | feedHelicalCW | feedHelicalCCW => true | _ => false end.
Definition is_pause (t : motionType) : bool :=
  match t with pauseAndResume | pause => true | _ => false end.

(** axis numbers 0..2; 3 = axis::nmbrAxis *)
Definition axes : list nat := [0; 1; 2]%nat.

Section Profile.
Context {F : Type} (K : num F).
Local Notation "a +. b" := (nadd K a b) (at level 50, left associativity).
Local Notation "a -. b" := (nsub K a b) (at level 50, left associativity).
Local Notation "a *. b" := (nmul K a b) (at level 40, left associativity).
Local Notation "a /. b" := (ndiv K a b) (at level 40, left associativity).
Local Notation "a <. b" := (nltb K a b) (at level 70, no associativity).
Local Notation zero := (nofZ K 0).
Local Notation half := (ndec K 5 1).                         (* 0.5F *)
Local Notation sixth := (ndiv K (nofZ K 1) (nofZ K 6)).      (* speedprofileaccdec.h:50 *)
Local Notation two := (nofZ K 2).
Local Notation minus1 := (nofZ K (-1)).

(** lib/motion/speedprofileaccdec.h:28-47 *)
Record accdec := mkAD {
  ad_vStart : F; ad_vEnd : F; ad_aMax : F; ad_dMax : F; ad_jMax : F;
  ad_dV1 : F; ad_s1 : F; ad_s2 : F; ad_s3 : F; ad_length : F;
  ad_d1d3 : F; ad_d2 : F; ad_duration : F }.

(** speedprofileaccdec.cpp:15-16 *)
Definition ad_zero : accdec :=
  mkAD zero zero zero zero zero zero zero zero zero zero zero zero zero.

(** speedprofileaccdec.cpp:33-37 *)
Definition ad_setMax (p : accdec) (a d j : F) : accdec :=
  mkAD (ad_vStart p) (ad_vEnd p) a d j (ad_dV1 p) (ad_s1 p) (ad_s2 p) (ad_s3 p) (ad_length p)
       (ad_d1d3 p) (ad_d2 p) (ad_duration p).
(** speedprofileaccdec.cpp:39-41 *)
Definition ad_setvStart (p : accdec) (v : F) : accdec :=
  mkAD v (ad_vEnd p) (ad_aMax p) (ad_dMax p) (ad_jMax p) (ad_dV1 p) (ad_s1 p) (ad_s2 p) (ad_s3 p)
       (ad_length p) (ad_d1d3 p) (ad_d2 p) (ad_duration p).
(** speedprofileaccdec.cpp:43-45 *)
Definition ad_setvEnd (p : accdec) (v : F) : accdec :=
  mkAD (ad_vStart p) v (ad_aMax p) (ad_dMax p) (ad_jMax p) (ad_dV1 p) (ad_s1 p) (ad_s2 p) (ad_s3 p)
       (ad_length p) (ad_d1d3 p) (ad_d2 p) (ad_duration p).

(** speedprofileaccdec.cpp:47-107 *)
Definition ad_calculate (p : accdec) (o : profileOrder) : accdec :=
  let vStart := ad_vStart p in
  let vEnd := ad_vEnd p in
  let aMax := ad_aMax p in
  let dMax := ad_dMax p in
  let jMax := ad_jMax p in
  match o with
  | firstOrder =>
      let d2 := if vStart <. vEnd then (vEnd -. vStart) /. aMax else (vEnd -. vStart) /. dMax in
      let s2 := (vStart +. vEnd) *. d2 *. half in
      mkAD vStart vEnd aMax dMax jMax zero zero s2 zero s2 zero d2 d2
  | secondOrder =>
      if vStart <. vEnd then
        let d1d3 := aMax /. jMax in
        let '(d1d3, aMax, d2) :=
          if (vEnd -. vStart) <. (jMax *. d1d3 *. d1d3) then
            let d := nsqrt K ((vEnd -. vStart) /. jMax) in (d, jMax *. d, zero)
          else
            let dV2 := (vEnd -. vStart) -. (jMax *. d1d3 *. d1d3) in (d1d3, aMax, dV2 /. aMax) in
        let dV1 := jMax *. d1d3 *. d1d3 *. half in
        let s1 := (vStart *. d1d3) +. jMax *. d1d3 *. d1d3 *. d1d3 *. sixth in
        let s2 := (vStart +. vEnd) *. d2 *. half in
        let s3 := (vEnd *. d1d3) -. jMax *. d1d3 *. d1d3 *. d1d3 *. sixth in
        let length := (vStart +. vEnd) *. (d1d3 +. d2 +. d1d3) *. half in
        let duration := d1d3 +. d2 +. d1d3 in
        mkAD vStart vEnd aMax dMax jMax dV1 s1 s2 s3 length d1d3 d2 duration
      else
        let d1d3 := nopp K dMax /. jMax in
        let '(d1d3, dMax, d2) :=
          if (vStart -. vEnd) <. (jMax *. d1d3 *. d1d3) then
            let d := nsqrt K ((vStart -. vEnd) /. jMax) in (d, nopp K jMax *. d, zero)
          else
            let dV2 := (vEnd -. vStart) +. (jMax *. d1d3 *. d1d3) in (d1d3, dMax, dV2 /. dMax) in
        let dV1 := nopp K jMax *. d1d3 *. d1d3 *. half in
        let s1 := (vStart *. d1d3) -. jMax *. d1d3 *. d1d3 *. d1d3 *. sixth in
        let s2 := (vStart +. vEnd) *. d2 *. half in
        let s3 := (vEnd *. d1d3) +. jMax *. d1d3 *. d1d3 *. d1d3 *. sixth in
        let length := (vStart +. vEnd) *. (d1d3 +. d2 +. d1d3) *. half in
        let duration := d1d3 +. d2 +. d1d3 in
        mkAD vStart vEnd aMax dMax jMax dV1 s1 s2 s3 length d1d3 d2 duration
  end.

(** speedprofileaccdec.cpp:109-115 *)
Definition ad_calcSpeed (p : accdec) : F :=
  let ad := if ad_vStart p <. ad_vEnd p then ad_aMax p else ad_dMax p in
  nsqrt K (ad_vStart p *. ad_vStart p +. two *. ad *. ad_length p).

(** speedprofileaccdec.cpp:117-139 *)
Definition ad_a (p : accdec) (t : F) : F :=
  let tD := (ad_d1d3 p +. ad_d2 p +. ad_d1d3 p) -. t in
  if ad_vStart p <. ad_vEnd p then
    if t <. ad_d1d3 p then ad_jMax p *. t
    else if (ad_d1d3 p +. ad_d2 p) <. t then ad_jMax p *. tD
    else ad_aMax p
  else
    if t <. ad_d1d3 p then minus1 *. (ad_jMax p *. t)
    else if (ad_d1d3 p +. ad_d2 p) <. t then minus1 *. (ad_jMax p *. tD)
    else ad_dMax p.

(** speedprofileaccdec.cpp:141-165 *)
Definition ad_v (p : accdec) (t : F) : F :=
  let tE := ad_duration p -. t in
  let tM := t -. ad_d1d3 p in
  if ad_vStart p <. ad_vEnd p then
    if t <. ad_d1d3 p then ad_vStart p +. (ad_jMax p *. t *. t *. half)
    else if (ad_d1d3 p +. ad_d2 p) <. t then ad_vEnd p -. (ad_jMax p *. tE *. tE *. half)
    else ad_vStart p +. ad_dV1 p +. (ad_aMax p *. tM)
  else
    if t <. ad_d1d3 p then ad_vStart p -. (ad_jMax p *. t *. t *. half)
    else if (ad_d1d3 p +. ad_d2 p) <. t then ad_vEnd p +. (ad_jMax p *. tE *. tE *. half)
    else ad_vStart p +. ad_dV1 p +. (ad_dMax p *. tM).

(** speedprofileaccdec.cpp:167-191 *)
Definition ad_s (p : accdec) (t : F) : F :=
  let tE := ad_duration p -. t in
  let tM := t -. ad_d1d3 p in
  if ad_vStart p <. ad_vEnd p then
    if t <. ad_d1d3 p then (ad_vStart p *. t) +. (ad_jMax p *. t *. t *. t *. sixth)
    else if (ad_d1d3 p +. ad_d2 p) <. t
      then ad_length p -. ((ad_vEnd p *. tE) -. (ad_jMax p *. tE *. tE *. tE *. sixth))
    else ad_s1 p +. ((ad_vStart p +. ad_dV1 p) *. tM) +. (ad_aMax p *. tM *. tM *. half)
  else
    if t <. ad_d1d3 p then (ad_vStart p *. t) -. (ad_jMax p *. t *. t *. t *. sixth)
    else if (ad_d1d3 p +. ad_d2 p) <. t
      then ad_length p -. ((ad_vEnd p *. tE) +. (ad_jMax p *. tE *. tE *. tE *. sixth))
    else ad_s1 p +. ((ad_vStart p +. ad_dV1 p) *. tM) +. (ad_dMax p *. tM *. tM *. half).

(** speedprofilecruise.h / .cpp:11-28 *)
Record cruise := mkCR { cr_vMid : F; cr_length : F; cr_duration : F }.
Definition cr_a (c : cruise) (t : F) : F := zero.
Definition cr_v (c : cruise) (t : F) : F := cr_vMid c.
Definition cr_s (c : cruise) (t : F) : F := cr_vMid c *. t.

(** motionspeedprofile.h: done, left, mid, right, limits, duration, tStop *)
Record profile := mkP {
  p_doneLength : F; p_doneDuration : F;
  p_left : accdec; p_mid : cruise; p_right : accdec;
  p_vFeed : F; p_vMax : F; p_aMax : F; p_dMax : F; p_jMax : F;
  p_duration : F; p_tStop : F }.

Definition p_zero : profile :=
  mkP zero zero ad_zero (mkCR zero zero zero) ad_zero zero zero zero zero zero zero zero.

(** motionitem.cpp:57-69 *)
Definition vTri_static (vStart vEnd aMax dMax length : F) (s : motionStrategy) : F :=
  match s with
  | maximizeSpeed =>
      nsqrt K (((vEnd *. vEnd *. aMax) -. (vStart *. vStart *. dMax)
                -. (two *. length *. aMax *. dMax)) /. (aMax -. dMax))
  | minimizeSpeed =>
      let r := (two *. length *. aMax *. dMax) -. (vEnd *. vEnd *. dMax) +. (vStart *. vStart *. aMax) in
      if nleb K zero r then nsqrt K (r /. (aMax -. dMax)) else zero
  end.

(** motionitem.cpp:210-234 *)
Definition vOut_static (vIn aMax dMax length : F) (s : motionStrategy) (dir : calcDir) : F :=
  let adMax := match dir, s with
               | cd_forward, maximizeSpeed => aMax
               | cd_forward, minimizeSpeed => dMax
               | cd_reverse, maximizeSpeed => minus1 *. dMax
               | cd_reverse, minimizeSpeed => minus1 *. aMax
               end in
  let d := (vIn *. vIn) +. (two *. length *. adMax) in
  if zero <. d then nsqrt K d else zero.

(** motionitem.cpp:40-42 *)
Definition p_vTri (p : profile) (len : F) (s : motionStrategy) : F :=
  vTri_static (ad_vStart (p_left p)) (ad_vEnd (p_right p)) (p_aMax p) (p_dMax p)
              (len -. p_doneLength p) s.

(** motionitem.cpp:71-86 *)
Definition p_s (p : profile) (time : F) : F :=
  if nleb K time (p_doneDuration p) then p_doneLength p
  else
    let t1 := time -. p_doneDuration p in
    if nleb K t1 (ad_duration (p_left p)) then p_doneLength p +. ad_s (p_left p) t1
    else
      let t2 := t1 -. ad_duration (p_left p) in
      if nleb K t2 (cr_duration (p_mid p))
      then p_doneLength p +. ad_length (p_left p) +. cr_s (p_mid p) t2
      else
        let t3 := t2 -. cr_duration (p_mid p) in
        p_doneLength p +. ad_length (p_left p) +. cr_length (p_mid p) +. ad_s (p_right p) t3.

(** motionitem.cpp:88-103 *)
Definition p_v (p : profile) (time : F) : F :=
  if nleb K time (p_doneDuration p) then ad_v (p_left p) zero
  else
    let t1 := time -. p_doneDuration p in
    if nleb K t1 (ad_duration (p_left p)) then ad_v (p_left p) t1
    else
      let t2 := t1 -. ad_duration (p_left p) in
      if nleb K t2 (cr_duration (p_mid p)) then cr_v (p_mid p) t2
      else
        let t3 := t2 -. cr_duration (p_mid p) in ad_v (p_right p) t3.

(** motionitem.cpp:105-120 *)
Definition p_a (p : profile) (time : F) : F :=
  if nleb K time (p_doneDuration p) then ad_a (p_left p) zero
  else
    let t1 := time -. p_doneDuration p in
    if nleb K t1 (ad_duration (p_left p)) then ad_a (p_left p) t1
    else
      let t2 := t1 -. ad_duration (p_left p) in
      if nleb K t2 (cr_duration (p_mid p)) then cr_a (p_mid p) t2
      else
        let t3 := t2 -. cr_duration (p_mid p) in ad_a (p_right p) t3.

(** motionitem.cpp:164-170 and 174-180 (the same lines twice): left and right
    ramps for cruise speed [vMid]. *)
Definition p_ramps (p : profile) (vMid : F) (o : profileOrder) : profile :=
  let l := ad_calculate (ad_setvEnd (ad_setMax (p_left p) (p_aMax p) (p_dMax p) (p_jMax p)) vMid) o in
  let r := ad_calculate (ad_setvStart (ad_setMax (p_right p) (p_aMax p) (p_dMax p) (p_jMax p)) vMid) o in
  mkP (p_doneLength p) (p_doneDuration p) l
      (mkCR vMid (cr_length (p_mid p)) (cr_duration (p_mid p))) r
      (p_vFeed p) (p_vMax p) (p_aMax p) (p_dMax p) (p_jMax p) (p_duration p) (p_tStop p).

(** motionitem.cpp:129-200 for the four moving types; [len] = trajectory.length,
    [minS] = minLengthSProfile (a double in the code, here a float value),
    [fo] = feedOverride. *)
Definition p_plan (p : profile) (len minS fo : F) (s : motionStrategy) : F * profileOrder :=
  let order0 := if len <. minS then firstOrder else secondOrder in
  let '(vMid1, order1) :=
    match s with
    | maximizeSpeed =>
        let v0 := p_vFeed p *. fo in
        let v1 := if p_vMax p <. v0 then p_vMax p else v0 in
        let vT := p_vTri p len maximizeSpeed in
        if vT <. v1 then (vT, firstOrder) else (v1, order0)
    | minimizeSpeed => (zero, order0)
    end in
  let vMin := p_vTri p len minimizeSpeed in
  if vMid1 <. vMin then (vMin, firstOrder) else (vMid1, order1).

Definition p_optimize (p : profile) (len minS fo : F) (s : motionStrategy) : profile :=
  let '(vMid, order) := p_plan p len minS fo s in
  let p1 := p_ramps p vMid order in
  let p2 := if (len -. p_doneLength p1) <. (ad_length (p_left p1) +. ad_length (p_right p1))
            then p_ramps p1 vMid firstOrder else p1 in
  let midLength := (len -. p_doneLength p2) -. (ad_length (p_left p2) +. ad_length (p_right p2)) in
  let midDuration := midLength /. vMid in
  let duration := p_doneDuration p2 +. ad_duration (p_left p2) +. midDuration +. ad_duration (p_right p2) in
  let tStop := if neqb K vMid zero then p_doneDuration p2 +. ad_duration (p_left p2) else ninf K in
  mkP (p_doneLength p2) (p_doneDuration p2) (p_left p2) (mkCR vMid midLength midDuration) (p_right p2)
      (p_vFeed p2) (p_vMax p2) (p_aMax p2) (p_dMax p2) (p_jMax p2) duration tStop.

(** motionitem.cpp:122-127: left.vStart is overwritten before s(tNow) is evaluated. *)
Definition p_replan_start (p : profile) (tNow : F) : profile :=
  let p1 := mkP (p_doneLength p) (p_doneDuration p) (ad_setvStart (p_left p) (p_v p tNow)) (p_mid p)
                (p_right p) (p_vFeed p) (p_vMax p) (p_aMax p) (p_dMax p) (p_jMax p) (p_duration p) (p_tStop p) in
  mkP (p_s p1 tNow) tNow (p_left p1) (p_mid p1) (p_right p1)
      (p_vFeed p1) (p_vMax p1) (p_aMax p1) (p_dMax p1) (p_jMax p1) (p_duration p1) (p_tStop p1).

End Profile.

Arguments mkAD {F}. Arguments mkCR {F}. Arguments mkP {F}.
Arguments accdec : clear implicits. Arguments cruise : clear implicits. Arguments profile : clear implicits.

(** Machine constants, machineproperties.h: per-axis lists of length 3. *)
Record machine (F : Type) := mkMachine {
  m_jMax : F; m_aMax : list F; m_dMax : list F; m_vMax : list F; m_stepsPerMm : list F; m_minS : F }.
Arguments mkMachine {F}. Arguments m_jMax {F}. Arguments m_aMax {F}. Arguments m_dMax {F}.
Arguments m_vMax {F}. Arguments m_stepsPerMm {F}. Arguments m_minS {F}.

(** simplifiedmotion.h (doubles). Peripheral settings are plain data. *)
Record smotion (D : Type) := mkSM {
  sm_type : motionType;
  sm_length : D; sm_start : list D; sm_delta : list D;
  sm_arc0 : nat; sm_arc1 : nat; sm_center0 : D; sm_center1 : D; sm_radius : D;
  sm_startAngle : D; sm_deltaAngle : D;
  sm_vFeed : D; sm_duration : D;
  sm_flood : bool; sm_mist : bool; sm_spindle : D; sm_cw : bool }.
Arguments mkSM {D}. Arguments sm_type {D}. Arguments sm_length {D}. Arguments sm_start {D}.
Arguments sm_delta {D}. Arguments sm_arc0 {D}. Arguments sm_arc1 {D}. Arguments sm_center0 {D}.
Arguments sm_center1 {D}. Arguments sm_radius {D}. Arguments sm_startAngle {D}. Arguments sm_deltaAngle {D}.
Arguments sm_vFeed {D}. Arguments sm_duration {D}. Arguments sm_flood {D}. Arguments sm_mist {D}.
Arguments sm_spindle {D}. Arguments sm_cw {D}.

(** motiontrajectory.h (floats) *)
Record traj (F : Type) := mkT {
  t_start : list F; t_delta : list F; t_arc0 : nat; t_arc1 : nat;
  t_center0 : F; t_center1 : F; t_startAngle : F; t_radius : F; t_length : F;
  t_dRT : list F; t_dir : list F }.
Arguments mkT {F}. Arguments t_start {F}. Arguments t_delta {F}. Arguments t_arc0 {F}. Arguments t_arc1 {F}.
Arguments t_center0 {F}. Arguments t_center1 {F}. Arguments t_startAngle {F}. Arguments t_radius {F}.
Arguments t_length {F}. Arguments t_dRT {F}. Arguments t_dir {F}.

(** motionperipherals.h *)
Record periph (F : Type) := mkPer { pe_cw : bool; pe_spindle : F; pe_flood : bool; pe_mist : bool }.
Arguments mkPer {F}. Arguments pe_cw {F}. Arguments pe_spindle {F}. Arguments pe_flood {F}. Arguments pe_mist {F}.

(** motionitem.h *)
Record motion (F : Type) := mkMo {
  mo_type : motionType; mo_traj : traj F; mo_prof : profile F; mo_per : periph F }.
Arguments mkMo {F}. Arguments mo_type {F}. Arguments mo_traj {F}. Arguments mo_prof {F}. Arguments mo_per {F}.

Section Motion.
Context {D F : Type} (A : arith D F) (M : machine F).
Local Notation KD := (aD A).
Local Notation K := (aF A).
Local Notation zeroF := (nofZ (aF A) 0).
Local Notation zeroD := (nofZ (aD A) 0).

Definition nthF (l : list F) (i : nat) : F := nth i l zeroF.
Definition nthD (l : list D) (i : nat) : D := nth i l zeroD.

Definition is_arc (a0 a1 i : nat) : bool := (i =? a0)%nat || (i =? a1)%nat.

(** motiontrajectory.cpp:58-84 *)
Definition traj_set (m : smotion D) : traj F :=
  mkT (map (fun i => d2f A (nthD (sm_start m) i)) axes)
      (map (fun i => d2f A (nthD (sm_delta m) i)) axes)
      (sm_arc0 m) (sm_arc1 m) (d2f A (sm_center0 m)) (d2f A (sm_center1 m))
      (d2f A (sm_startAngle m)) (d2f A (sm_radius m)) (d2f A (sm_length m))
      (map (fun i => if is_arc (sm_arc0 m) (sm_arc1 m) i
                     then d2f A (ndiv KD (sm_deltaAngle m) (sm_length m))
                     else d2f A (ndiv KD (nthD (sm_delta m) i) (sm_length m))) axes)
      (map (fun i => if is_arc (sm_arc0 m) (sm_arc1 m) i
                     then nofZ K 1
                     else d2f A (ndiv KD (nthD (sm_delta m) i) (sm_length m))) axes).

(** motionitem.cpp:236-263: one axis, then all axes in order. *)
Definition limit_axis (t : traj F) (l : F * F * F) (i : nat) : F * F * F :=
  let '(vMax, aMax, dMax) := l in
  let centri := nsqrt K (nmul K (nthF (m_aMax M) i) (t_radius t)) in
  let vMax := if is_arc (t_arc0 t) (t_arc1 t) i && nltb K centri vMax then centri else vMax in
  let u := nthF (t_dir t) i in
  let lv := nabs K (ndiv K (nthF (m_vMax M) i) u) in
  let la := nabs K (ndiv K (nthF (m_aMax M) i) u) in
  let ld := nabs K (ndiv K (nthF (m_dMax M) i) u) in
  let vMax := if nltb K lv vMax then lv else vMax in
  let aMax := if nltb K la aMax then la else aMax in
  let dMax := if nltb K ld (nabs K dMax) then nmul K (nofZ K (-1)) ld else dMax in
  (vMax, aMax, dMax).
Definition limits (t : traj F) : F * F * F :=
  fold_left (limit_axis t) axes (ninf K, ninf K, nopp K (ninf K)).

(** motionspeedprofile.cpp:4-12 after limit() *)
Definition prof_setSpeed (p : profile F) (t : traj F) (m : smotion D) : profile F :=
  let '(vMax, aMax, dMax) := limits t in
  let j := m_jMax M in
  mkP zeroF zeroF (ad_setvStart (ad_setMax (p_left p) aMax dMax j) zeroF) (p_mid p)
      (ad_setvEnd (ad_setMax (p_right p) aMax dMax j) zeroF)
      (d2f A (sm_vFeed m)) vMax aMax dMax j (p_duration p) (p_tStop p).

(** motionspeedprofile.cpp:14-17 *)
Definition prof_setDuration (p : profile F) (m : smotion D) : profile F :=
  mkP (p_doneLength p) (p_doneDuration p) (p_left p) (p_mid p) (p_right p)
      (p_vFeed p) (p_vMax p) (p_aMax p) (p_dMax p) (p_jMax p) (d2f A (sm_duration m)) (p_tStop p).

(** motionperipherals.cpp:10-15 *)
Definition per_set (m : smotion D) : periph F :=
  mkPer (sm_cw m) (d2f A (sm_spindle m)) (sm_flood m) (sm_mist m).

(** motionitem.cpp:129-200 *)
Definition mo_optimize (o : motion F) (fo : F) (s : motionStrategy) : motion F :=
  if is_move (mo_type o)
  then mkMo (mo_type o) (mo_traj o) (p_optimize K (mo_prof o) (t_length (mo_traj o)) (m_minS M) fo s) (mo_per o)
  else o.

(** motionitem.cpp:122-127 *)
Definition mo_optimize_at (o : motion F) (fo : F) (s : motionStrategy) (tNow : F) : motion F :=
  mo_optimize (mkMo (mo_type o) (mo_traj o) (p_replan_start K (mo_prof o) tNow) (mo_per o)) fo s.

(** motionitem.cpp:11-38 *)
Definition mo_set (o : motion F) (m : smotion D) (fo : F) (s : motionStrategy) : motion F :=
  if is_move (sm_type m) then
    let t := traj_set m in
    let o1 := mkMo (sm_type m) t (prof_setSpeed (mo_prof o) t m) (mo_per o) in
    let o2 := mo_optimize o1 fo s in
    mkMo (mo_type o2) (mo_traj o2) (mo_prof o2) (per_set m)
  else if is_pause (sm_type m) then
    mkMo (sm_type m) (traj_set m) (prof_setDuration (mo_prof o) m) (per_set m)
  else mkMo (sm_type m) (mo_traj o) (mo_prof o) (per_set m).

(** motionitem.cpp:265-267 *)
Definition mo_isMoving (o : motion F) (i : nat) : bool :=
  negb (neqb K (nthF (t_dRT (mo_traj o)) i) zeroF).

(** motionitem.cpp:298-306 *)
Definition mo_position (o : motion F) (i : nat) (dist : F) : F :=
  let t := mo_traj o in
  let angle := nadd K (t_startAngle t) (nmul K (nthF (t_dRT t) i) dist) in
  if (i =? t_arc0 t)%nat then nadd K (t_center0 t) (nmul K (t_radius t) (ncos K angle))
  else if (i =? t_arc1 t)%nat then nadd K (t_center1 t) (nmul K (t_radius t) (nsin K angle))
  else nadd K (nthF (t_start t) i) (nmul K (nthF (t_dRT t) i) dist).

(** default-constructed motion: motionitem.h, all members zero *)
Definition mo_zero : motion F :=
  mkMo mt_none
    (mkT (map (fun _ => zeroF) axes) (map (fun _ => zeroF) axes) 3 3 zeroF zeroF zeroF zeroF zeroF
         (map (fun _ => zeroF) axes) (map (fun _ => zeroF) axes))
    (p_zero K) (mkPer true zeroF false false).

(** simplifiedmotion.h defaults *)
Definition sm_default : smotion D :=
  mkSM mt_none zeroD (map (fun _ => zeroD) axes) (map (fun _ => zeroD) axes) 3 3 zeroD zeroD zeroD zeroD zeroD
       (ninf KD) zeroD false false zeroD true.

(** simplifiedmotion.cpp:47-57; [pos] = point.inMm (floats) *)
Definition sm_set (m : smotion D) (pos : list F) (axis : nat) (offset speed : D) : smotion D :=
  mkSM feedLinear (nabs KD offset) (map (fun i => f2d A (nthF pos i)) axes)
       (upd (sm_delta m) axis offset) (sm_arc0 m) (sm_arc1 m) (sm_center0 m) (sm_center1 m) (sm_radius m)
       (sm_startAngle m) (sm_deltaAngle m) speed (sm_duration m)
       (sm_flood m) (sm_mist m) (sm_spindle m) (sm_cw m).
End Motion.
