(** Specification of runs in which motions are handed over while others are executed, on
    the target, in single precision. *)
Require Import List Arith NArith ZArith Bool Reals.
From Coq Require Import Floats.SpecFloat.
From Verif Require Import Base StepModel StepSpec Num NumR NumSF MotionModel CtrlModel CtrlSpec FloatSpec GeomSpec ProfileSpec RunSpec FloatRunSpec.
Import ListNotations.
Open Scope R_scope.

(** A tick of the controller, or a motion handed over to it. *)
Inductive fop := FTick | FPass (m : smotion sf).
Fixpoint f_run (X : sf_funs) (M : machine sf) (c : ctrl sf) (ops : list fop) : res (ctrl sf) :=
  match ops with
  | [] => Ok c
  | FTick :: r => c1 <- c_tick (sf_arith X) M c ;; f_run X M c1 r
  | FPass m :: r => f_run X M (c_append (sf_arith X) M c m) r
  end.
Fixpoint f_ticks (ops : list fop) : nat := match ops with [] => 0%nat | FTick :: r => S (f_ticks r) | FPass _ :: r => f_ticks r end.
Fixpoint f_passed (ops : list fop) : list (smotion sf) := match ops with [] => [] | FTick :: r => f_passed r | FPass m :: r => m :: f_passed r end.
(** Motions are handed over in time, while others are executed, and while there is room. *)
Definition f_fed (X : sf_funs) (M : machine sf) (c0 : ctrl sf) (ops : list fop) : Prop :=
  forall a m b c, ops = a ++ FPass m :: b -> f_run X M c0 a = Ok c -> c_state c = ms_running /\ (c_level c < 32)%N.

(** Axes that stand still in two motions after each other stay where they are. *)
Fixpoint unbroken (Ps : list path) : Prop :=
  match Ps with P :: (P' :: _) as r => flush P P' /\ unbroken r | _ => True end.

(** From [c0] on, with [ops] and then any number of ticks: at every moment before tick [N] the
    controller is on its way along [legs], and from then on it has done them all, and is idle. *)
Definition followed (X : sf_funs) (M : machine sf) (u : funit) (w fo : sf) (c0 : ctrl sf) (ops : list fop) (x0 : nat -> R) (legs : list leg) (N : nat) : Prop :=
  forall n a b, ops ++ repeat FTick n = a ++ b -> exists ca, f_run X M c0 a = Ok ca /\
    if (f_ticks a <? N)%nat then under_way u x0 legs ca (f_ticks a) else all_done u x0 legs ca N /\ idle X ca w fo.

(** *** The same by calls of the public interface: a motion handed over, or the next change of the
    signals computed, which takes [timeBefore] ticks. *)
Inductive call := CPass (m : smotion sf) | CCalc.
Definition call_op (a : call) : c_op sf sf := match a with CPass m => OAppend m | CCalc => OCalc end.
Fixpoint c_passed (l : list call) : list (smotion sf) := match l with [] => [] | CCalc :: r => c_passed r | CPass m :: r => m :: c_passed r end.
Definition c_fed (X : sf_funs) (M : machine sf) (c0 : ctrl sf) (l : list call) : Prop :=
  forall a m b c recs, l = a ++ CPass m :: b -> c_run (sf_arith X) M c0 (map call_op a) = Ok (c, recs) -> c_state c = ms_running /\ (c_level c < 32)%N.
(** From [c0] on, with [l] and then any number of signals computed: before tick [N], after every
    call, the controller is on its way along [legs], at the time of the signals computed so
    far; from then on it has done them all, and is idle. *)
Definition called (X : sf_funs) (M : machine sf) (u : funit) (w fo : sf) (c0 : ctrl sf) (l : list call) (x0 : nat -> R) (legs : list leg) (N : nat) : Prop :=
  forall n a b, l ++ repeat CCalc n = a ++ b -> exists ca recs, c_run (sf_arith X) M c0 (map call_op a) = Ok (ca, recs) /\
    let t := N.to_nat (sum_times recs) in
    if (t <? N)%nat then under_way u x0 legs ca t else all_done u x0 legs ca N /\ idle X ca w fo.
