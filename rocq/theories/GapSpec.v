(** Motions slow enough for the steps of an axis to be apart. *)
Require Import List ZArith Reals.
From Verif Require Import Base Num NumSF MotionModel CtrlModel CtrlSpec FloatSpec FloatRunSpec FloatFlowSpec FloatArcSpec.
Import ListNotations.
Open Scope R_scope.

(** Rounding makes less than 1/40 of a step. *)
Definition fine_steps (u : funit) : Prop := 3 * slack (fu_B u) + fu_H u / 65000 < / 40.
(** No axis moves by more than 1/20 step from one tick to the next, nor by more than 1/100 step
    within the first and the last tick of the motion. *)
Definition slow (u : funit) (q : fmotion) : Prop := forall i, (i < 3)%nat ->
  let Q := last_gap (fu_W u) (fu_T u) in
  fu_k u i * (over * (fl_vm (fq_l q) * tick_gap (fu_W u) (fu_T u))) <= / 20 /\
  fu_k u i * (over * (fl_a (fq_l q) * (Q * Q))) <= / 100 /\ fu_k u i * (over * (fl_d (fq_l q) * (Q * Q))) <= / 100.
(** From [c0] on, no axis is stepped at two consecutive ticks. *)
Definition steps_apart (X : sf_funs) (M : machine sf) (c0 : ctrl sf) : Prop :=
  forall (j : nat) c1 c2 c3, ticks_run (sf_arith X) M j c0 = Ok c1 -> c_tick (sf_arith X) M c1 = Ok c2 -> c_tick (sf_arith X) M c2 = Ok c3 ->
  forall i, (i < 3)%nat -> nth i (c_pos c2) 0%Z = nth i (c_pos c1) 0%Z \/ nth i (c_pos c3) 0%Z = nth i (c_pos c2) 0%Z.

(** The same with motions handed over: between two ticks, [ms]. *)
Definition apart_fed (X : sf_funs) (M : machine sf) (c0 : ctrl sf) (ops : list fop) : Prop :=
  forall a ms b c1 c2 c3, ops = a ++ FTick :: map FPass ms ++ FTick :: b -> f_run X M c0 a = Ok c1 -> f_run X M c1 (FTick :: map FPass ms) = Ok c2 -> c_tick (sf_arith X) M c2 = Ok c3 ->
  forall i, (i < 3)%nat -> nth i (c_pos c2) 0%Z = nth i (c_pos c1) 0%Z \/ nth i (c_pos c3) 0%Z = nth i (c_pos c2) 0%Z.

(** *** For examples: 5 mm along X and 3 mm back, at 10 mm/s. *)
Definition ex_slow1 (X : sf_funs) : fmotion := mkFQ (line X [0; 0; 0]%Z [5; 0; 0]%Z 5 10) (line_path [0; 0; 0]%Z [5; 0; 0]%Z 5) (mkFL 200 200 600 10 5).
Definition ex_slow2 (X : sf_funs) : fmotion := mkFQ (line X [5; 0; 0]%Z [-3; 0; 0]%Z 3 10) (line_path [5; 0; 0]%Z [-3; 0; 0]%Z 3) (mkFL 200 200 600 10 3).
Definition ex_small : funit := mkFU (fun _ => 200) 4096 1001 (9162597 / 549755813888) 3.
