# Formal model of the Moovr CNC controller

`/repo` is read as text only.  Everything below is about a hand-written Gallina
model of that text; the model cites file and line for every definition.

## 1. Layout of `rocq/theories`

| File group | Content |
|---|---|
| `Base.v`, `Num.v`, `NumSF.v`, `NumR.v` | machine words (explicit mod 2^32), arrays, outcome type with undefined behaviour, the record of arithmetic operations and its two instances |
| `<Component>Model.v` | the model: total, executable functions, no proofs |
| `<Component>Spec.v` | small independent specifications used in the statements (abstract queue, pulse decoder, ...), where needed |
| `<Component>Proofs.v` | invariants and proofs, non-vacuity examples |
| `Properties*.v` | only `Theorem ... Proof. exact lemma. Qed.` and `Print Assumptions` |

## 2. Modelling decisions

* **Machine words.** `uint32_t` values are `N` with explicit `mod 2^32` on every
  operation that can wrap; `int32_t` step counters are `Z`, and leaving the
  range is an explicit *undefined behaviour* outcome.
* **Undefined behaviour** is a distinct outcome `UB` of the model functions
  (out-of-bounds array index, float-to-integer conversion out of range or of
  NaN, signed overflow).  A theorem saying that a result is `Ok ...` therefore
  includes "no undefined behaviour".
* **Arithmetic.**  The numeric code is written once over a record `num` of
  operations (`add`, `mul`, `sqrt`, `ltb`, ...) that is an explicit argument, so
  control-logic theorems hold for *every* arithmetic.  Two instances are used:
  * `NumSF.v`: IEEE-754 binary32/binary64 from the standard library's
    `SpecFloat` (computable, NaN, infinities, round to nearest even).  Used for
    refutations by `vm_compute`, and for statements about actual floats.
  * `NumR.v`: exact real arithmetic extended with +inf, -inf and NaN, used for
    "under exact arithmetic" properties.  The gap between the two (rounding
    error) is not covered by those theorems, and each says so.
  `Float*.v` bridge the two: a finite float stands for a real number, and each
  operation is the real operation rounded.
* **External functions.**  `strtod` on letter-free text of at most 15 characters
  is modelled exactly (decimal mantissa / power of ten, one correctly rounded
  division).  `sinf`, `cosf`, `atan2` are fields of the record; over the reals
  they are the true functions, over floats theorems quantify over them.
* **Concurrency.**  The timer interrupt and UART interrupts are modelled as
  atomic operations interleaved arbitrarily with the main loop's operations.
  `main.cpp` disables interrupts around `stepBuffer::write`.
* **Hardware.**  The PIT timer is modelled by one sentence of
  `stepbuffer.md`: a value put in the reload register during interrupt k is the
  period between interrupts k+1 and k+2.

## 3. Plan per property

| Id | Modelled | Proof method |
|---|---|---|
| C01, C02 | event ring buffer | refinement to a list queue, induction over operation lists |
| C03, C04, C05 | debounced input + constructor arguments in main.cpp | invariant linking the counter to the maximal suffix surplus; induction over sample lists |
| C06 | port register mapping | bit-level reasoning, `N.testbit` extensionality, for all register values |
| C07-C10 | host interface rings, UART interrupts, parser line buffer | refinement to byte lists, ghost history; refutation of C08 by a stuck invariant |
| C11-C14 | step buffer ring with two-entry time offset, timer | ghost history of writes; invariant on ring contents; refutations C12, C13 with witnesses and corrected versions |
| C15-C17 | step/dir signal pipeline, run-length output | per-axis bit simulation, induction over tick sequences |
| C18-C20 | step decision | real arithmetic with round-half-away, induction over trajectories |
| C21-C26 | motion controller: queue, sample time, nested loops | state invariant for every arithmetic, induction over operation lists, ghost traces |
| C27-C32 | speed profiles, planner, limits, trajectory | real analysis (stdlib Reals), case analysis, `nra`/`field` |
| C33 | whole chain parser -> planner -> controller on binary32 | refutation (zero-length motion, dwell) and conditional theorem |
| C34-C49 | g-code line splitting, collision table, parser | structural induction on strings, simulation, exact reals for geometry, `vm_compute` witnesses for refutations |
| C50-C53 | homing state machine and configuration tables | invariant over event lists |
| C51, C63 | main.cpp: setup and loop with debounced inputs, event buffer, homing, motion controller, step buffer (`SystemModel.v`) | witness run in binary32/64, invariant over all continuations |
| C54 | fill loop of main.cpp | invariant with minimal step spacing; refutation for dense streams |
| C55 | name tables | complete enumeration |
| C56, C75 | getMessage and sendMessage interrupted between statements | small-step versions of the two functions with the interrupt as a second process; witnesses; invariants per program point for the schedules without interrupts at half-updated variables (`HostRaceProofs.v`) |
| C57 | step commands with invalid axis numbers | case analysis; witness for axis = nmbrAxis |
| C58, C59, C61 | parser | witnesses in binary64; C61 by induction over programs |
| C64 | motion controller from queueing to pulses, whole runs and sequences of runs (`Run*.v`) | tick-by-tick simulation of chained real paths, induction over operation lists; composes C15, C18, C27-C32 |
| C65 | interpreter and motion controller together (`Program*.v`) | every good block makes an executable motion along the path its words ask for; induction over the lines; then C64. Separately, an independent reference interpreter over real numbers (`ReferenceSpec.v`: words, modes, feed, position, moves) and a simulation (`ReferenceProofs.v`): the machine does the moves the reference asks for |
| C66, C67 | the binary32 instance of sample clock and step decision (`Float*.v`) | every float operation is the rounded real operation (Flocq); error bounds; then as C18, C19 |
| C76 | the binary32 instance of planning and sampling one motion from standstill to standstill (`FloatErrProofs.v` to `FloatPlanProofs.v`) | error analysis of each ramp coefficient, of the three pieces and of the chosen speed against an exact plan (`plan_spec`); the exact plan's speed bound turns errors in time into errors in distance |
| C77 | the binary32 controller with its queue, clock and step decisions, fed with binary64 motions (`FloatRunSpec.v`, `FloatRunProofs.v`, `FloatStartProofs.v`, `FloatJobProofs.v`) | C76 for each motion, C66 for the clock, C67 for the decisions; invariant over ticks (`live`) with the time left over from one motion to the next, induction on the motions left |
| C78 | `limits`, `prof_setSpeed` in binary32 with directions from binary64 (`FloatRunSpec.v`, `FloatLimitProofs.v`) | relative error of direction and quotient; a float is finite or +infinity (`elow`), minimum over the axes; gives the hypotheses of C76/C77 from machine data |
| C79 | parser in binary64 (`GcodeModel.v`), controller in binary32 (`FloatProgSpec.v`, `FloatReadProofs.v`, `FloatTextProofs.v`) | relative error of decimals, unit conversion, differences, squares, sums and the root; rounded square roots of rounded squares do not go below the number; induction over the lines, then C78 for limits and C77 for the run |
| C80 | as C77 and C78 for circular and helical motions (`FloatArcSpec.v`, `FloatArcProofs.v`); `cosf`, `sinf` by a hypothesis on their error (`trig_ok`) | the tick invariant of C77 needs only that positions depend on the distance with a Lipschitz constant; error of the angle times the radius; the centripetal limit joins the minimum over the axes |
| C81 | as C79 for programs with arcs (`FloatBendSpec.v`, `FloatBendProofs.v`, `FloatWayProofs.v`, `FloatOffsetProofs.v`); `atan2` by a hypothesis on its error (`atan_ok`) | errors of the two directions, of the turn, of the length; whether 2 pi is added is decided as in exact arithmetic because the turn is not nearly nothing or a whole one, or the two directions are computed from the same numbers; then C80; polar coordinates show that every arc with offsets (or, C89, a radius) has the angles required (`FloatAskProofs.v`) |
| C82 | as C81, with motions appended during the run (`FloatFlowSpec.v`, `FloatFlowProofs.v`, `FloatPassProofs.v`); runs as lists of ticks and appended motions, and as lists of calls of the interface | the invariant of C77 with the queue growing at its end; an axis that stands still in two motions after each other stays exactly where it is, so joins do not add up; induction on the calls, and on the ticks left when no motion follows |
| C83 | the parser of C36-C49 (`GcodeStopSpec.v`, `GStopProofs.v`) | a line of stop words leaves the state; what the last line left in block and result is never read, so the line can be left out of any program |
| C84 | the parser of C36-C49 | witness programs; for G1 blocks from the case analysis of a line |
| C85 | the parser of C36-C49 and the planner | every stage of the parser commutes with setting the override switch; a program planned in binary32 |
| C86 | path limits, planning and positions over the reals | the speed of an axis is the path speed times the direction; bound on the derivative of such a product; a short arc planned by hand for the refutation |
| C87 | controller with queue and planning, any arithmetic | invariant over all operations: planning keeps the speeds at both ends, pairs of motions are joined with speed 0, only the first queued motion is planned from its present speed |
| C88 | parser in binary64, controller in binary32 | a session of four calls evaluated for the refutation; invariant of all histories that a stopped and flushed controller is idle, then C80 |
| C89 | `calcArcCenterAndRadius` in binary64 (`FloatRadiusSpec.v`, `FloatRadiusProofs.v`) | a half circle evaluated for the refutation; otherwise the rounding errors of each operation are bounded relative to the radius |
| C90 | the whole controller, `motion::set` (`MemorySpec.v`, `MemoryProofs.v`) | erasing the settings from all slots commutes with every function of the controller; induction on the calls |
| C91 | the whole controller with its ring of slots (`MemorySpec.v`, `MemoryProofs.v`) | simulation between two controllers that agree on the queue but not on the place of the queue in the ring or on the free slots; planning a move reads nothing old; a run with a dwell for the refutation |
| C92 | `c_getMachinePosition`, `h_motion` and `do_action` in binary32 and binary64 (`FloatHomeSpec.v`, `FloatHomeProofs.v`) | rounding error of the reported position; it passes unchanged through double precision; a motion of one axis as a straight motion with the limits of that axis; then the run of C88 |
| C93 | the whole controller (`OverrideSpec.v`, `OverrideProofs.v`) | computing a tick commutes with changing the override, by induction over ticks and calls; runs for override zero; `set_ready` and `ready_runs` of C64 for the next motion; infinity times a positive number in binary32 |
| C94 | `positionFromDistance` and `point` (`PointModel.v`, `PointProofs.v`) | one lemma that collects the axes in any arithmetic; truncation over the reals and in binary32; two computed witnesses |
| C95 | parser and controller as in C79, `hc_sMax` (`RangeSpec.v`, `RangeProofs.v`) | the run of C79; the distance covered is monotone by the mean value theorem, so each leg stays on its segment or 1/450000 of it beyond; a box is convex; with arcs the overshoot is bounded by the length of the path; induction over legs; streamed programs by the run of C82 |
| C96 | the controller in binary32 (`GapSpec.v`, `GapProofs.v`, `GapPulseProofs.v`, `GapFlowProofs.v`, `GapCallProofs.v`) | the run of C81; a step is due only within 1/20 step of the threshold, and after a step the next one is a hysteresis away; two ticks move the axis by less than that, also across the change from one motion to the next; ticks do not depend on the signals, so the commands of a run are spaced and C15 gives one pulse each; a motion handed over leaves the one being executed as it is |
| C68, C69 | output timer, its interrupt, step buffer and fill loop tick by tick (`Flow*.v`) | invariant: ticks left until the buffer runs low; counting argument for records per tick; witness runs, one with the binary32 controller |
| C70-C72 | whole program (`SystemModel.v`, `Safety*.v`) | invariant over all interleavings (which events homing can wait for; the position only counts); witness runs in binary arithmetic |
| C73 | stop and start of the motion controller (`Stop*.v`) | witness runs in binary arithmetic for the stops that go wrong; in exact arithmetic: the interrupted profile satisfies the plan specification (`StopPlanProofs`), an invariant carries it through braking, pause and resumption (`StopTickProofs`, `StopProofs`), sessions with any mixture of stops, starts and appended motions follow their paths (`StopRunProofs`), a stop with room is in time (`StopRoomProofs`); only for stops with room, which the witnesses show to be necessary |
| C74 | interpreter, controller, step signals, buffer and interrupt together (`Pace*.v`) | bound on how often an axis can turn round (`PaceSpeedProofs`: the axis speed is bounded and Lipschitz along all legs), hence on step commands per window (`PaceCountProofs`); the tick-by-tick trace of C64 (`ticked`), the buffer argument of C68, and a loop that keeps coming round is prompt (`PaceFlowProofs`) |
| C60, C62 | parser | from the characterisation of what a parsed block does |

Properties the code violates are settled by a theorem with the suffix
`_refuted` (a concrete witness run through the model), accompanied by the
strongest true variant found.

## 4. Trusted base

* Coq 8.16.1 kernel (and `vm_compute`).
* Standard-library axioms only, as listed by `Print Assumptions` under each
  theorem and collected in section 6: theorems about real numbers use
  `ClassicalDedekindReals.sig_forall_dec`, `sig_not_dec`,
  `functional_extensionality_dep` and mostly `Classical_Prop.classic`.
* Flocq is used as a library of proved lemmas about rounding (`Float*Proofs.v`);
  none of its files that rest on primitive floats is loaded and it adds no axiom.
* The faithfulness of the hand-written model to the C++ text.
* C++ semantics assumptions: IEEE-754 floats without excess precision or
  contraction, 32-bit `int`, enum-class values as listed.

## 5. Not modelled

Register-level set-up of the MCU, EEPROM/flash, the display library, the
`z_oldtest` code, `version`, compiler and linker.  The targets `plotter2axis`
(an unfinished copy of `cnc3axis` for two axes) and `native` (stubs for the unit
tests).  `mcuLoad` (a load meter nothing uses).  `mainController::handleMessages`,
`handleEvents` and `run` are commented out in the source, so there is nothing to
model: host commands have no effect there.

## 5a. How to read `seeded/LOG.jsonl`

- Each run edits one place of a scratch copy, then recompiles the files that the chosen `Properties*.v` files need. Theorems outside those files were not tried.
- The proofs are not adapted to the edit. A lemma whose script no longer compiles is listed in `lemmas_failed` and assumed for the rest of the run, in the scratch copy only.
- `theorems_failed` lists the theorems that depend on such a lemma. So it means "the committed proof no longer goes through", not "the statement was shown false": a theorem listed there may still hold of the edited program, above all when a lemma shared by many theorems broke.
- The runs that carry most information are those where a theorem of the named claim was tried and still went through: `claim_theorems_survived` lists these theorems. `claims_not_tried` lists named claims whose theorems were not among those compiled in that run; such a run says nothing about them.
- `theorems_tightened` is filled for three runs (ho05, mo23, gc05), where a theorem was added or strengthened.
- The other runs with survivors led to no change. Reading the statements, in mc15, mo08, mo13, gc20, hm15, hm12 and for C60 in mo23 the claim named in the entry is about another part of the code, or leaves the edited value open, so the edit does not make it false; the entry named the wrong claim. For hm12 this means that the order Z, X, Y of the default configuration is fixed by examples only. In hm06 the survivor is a refutation, which an additional fault does not touch.
- hm01 (Y waits for the X switch) makes the English of C53 false, and the C53 theorems survive: they compare the configured inputs with the switch events of the specification, not with the events homing waits for. That half is stated only by `C50_homing_follows_protocol`, which fails in hm01. C53 alone is weaker than its English and was not tightened.
- In mo24 (moving axes not stepped), mo30 (S-curves never used) and mo33 (feed ignored) only theorems about concrete cases failed. C64, proved later, speaks of following the path and of the feed. mo24 was run again against it as gm01, and the C64 theorems failed. Open: mo30 and mo33 were not run again. No theorem tried in mo30 bounds the jerk.
- `(timeout)` marks a lemma given up after 240 seconds or when the prover was killed. In each run with such a lemma, another lemma was rejected outright before it.
- Entries with the note `NO VERDICT` ended before any theorem was tried.
- Older runs were made against the model of their time, so names of lemmas may have changed since.

## 6. Axioms per theorem (output of `Print Assumptions`)

**No axioms** (closed under the global context):

`C01_event_fifo`, `C02_event_errors_and_highwater`, `C03_debounce_fires`,
`C04_debounce_settles`, `C04_debounce_silent_at_initial_level`,
`C05_events_alternate`, `C05_wiring`, `C06_input_pin`, `C06_pins_distinct`,
`C07_C09_host_refines`, `C07_rx_progress`, `C07_rx_roundtrip`,
`C08_rx_recovers_refuted`, `C09_tx_atomic`, `C09_tx_rests`,
`C10_long_line_overruns`, `C10_message_fits`, `C11_step_timing`,
`C12_late_is_reported_refuted`, `C13_buffered_time_formula`,
`C13_buffered_time_lower_bound`, `C13_buffered_time_refuted`,
`C14_construct_diverges`, `C14_construct_terminates`, `C14_ring_discipline`,
`C15_other_pins_low`, `C15_pulse_shape`, `C15_pulses`, `C15_waveform`,
`C16_records`, `C17_consecutive_refuted`, `C17_lost_steps`,
`C21_position_counts_steps`, `C21_pulses_are_commands`,
`C22_calc_terminates`, `C23_queue_counts`, `C23_queue_refines`,
`C24_stop_harmless_partial`, `C24_stop_harmless_refuted`,
`C25_stopped_stays`, `C31_replan_refuted`, `C33_dwell_refuted`,
`C33_zero_feed_refuted`, `C33_zero_length_refuted`, `C34_layout`,
`C35_any_text`, `C35_any_text_covers`, `C35_codes`, `C35_splitting`,
`C35_value_rounded`, `C36_ignored_words_refuted`, `C37_collision`,
`C38_group_words_partial`, `C38_group_words_refuted`,
`C39_errors_reported_refuted`, `C39_no_feed_partial`, `C40_dwell_refuted`,
`C40_modal`, `C40_values`, `C41_join`, `C42_unnamed_axes_partial`,
`C42_unnamed_axes_refuted`, `C43_absolute`, `C47_arc_partial`,
`C47_no_ub_partial`, `C47_no_ub_refuted`, `C48_dwell_position_partial`,
`C48_dwell_position_refuted`, `C49_announced_partial`,
`C49_announced_refuted`, `C50_homing_follows_protocol`, `C50_homing_order`,
`C51_homing_completes_partial`, `C51_homing_never_stuck_refuted`,
`C51_homing_waits_forever_refuted`, `C52_homing_motion`,
`C52_one_axis_per_tick`, `C52_one_axis_per_tick_general`,
`C53_limit_switches_partial`, `C53_limit_switches_refuted`,
`C54_fill_drops_refuted`, `C54_fill_no_drop`, `C55_distinct_names_partial`,
`C55_distinct_names_refuted`, `C56_rx_interrupt_during_read_refuted`,
`C56_rx_masked`, `C57_invalid_axis_ignored_above`,
`C57_invalid_axis_ignored_refuted`, `C58_standard_codes_refuted`,
`C59_arc_checked_refuted`, `C60_peripherals`, `C61_work_offsets_refuted`,
`C62_rejected_no_effect_refuted`, `C62_rejected_position`,
`C63_homing_issues_motions_at_rest_refuted`,
`C63_one_motion_per_stop_partial`, `C66_every_tick_refuted`,
`C68_controller_real_time`, `C68_lead_time_refuted`, `C68_real_time`,
`C68_real_time_records`, `C69_capacity_refuted`, `C69_records_needed`,
`C70_emergency_stop_refuted`, `C70_no_effect_refuted`,
`C71_limit_switch_partial`, `C71_limit_switch_refuted`,
`C72_homing_sets_position_refuted`, `C72_position_only_counts`,
`C73_resume_refuted`, `C73_stop_braking_refuted`,
`C73_stop_overshoot_refuted`, `C74_steady_is_prompt`,
`C75_tx_interrupt_adds_byte_refuted`, `C75_tx_interrupt_loses_byte_refuted`,
`C75_tx_masked`, `C83_program_stop_refuted`,
`C83_stop_word_harmless_partial`, `C84_feed_rate_refuted`,
`C84_g1_feed_partial`, `C84_inverse_time_partial`,
`C85_override_switch_refuted`, `C87_motions_meet_at_rest`,
`C88_restart_after_stop_refuted`, `C89_half_circle_refuted`,
`C90_carried_partial`, `C90_settings_refuted`, `C91_dwell_refuted`,
`C91_no_trace_partial`, `C93_takes_effect_refuted`, `C93_zero_lasts_refuted`,
`C93_zero_rapid_refuted`, `C94_other_axes_refuted`, `C94_steps_refuted`

**`ClassicalDedekindReals.sig_forall_dec`, `ClassicalDedekindReals.sig_not_dec`, `Classical_Prop.classic`, `FunctionalExtensionality.functional_extensionality_dep`** (all from the standard library):

`C18_tracking_error`, `C19_at_most_one_step`, `C19_exclusive`,
`C19_no_chatter`, `C20_pulse_spacing_refuted`, `C20_pulse_spacing_smooth`,
`C26_no_time_lost`, `C27_ramp_exact`, `C28_phases_fill`, `C28_plan`,
`C29_dip_speed`, `C29_peak_speed`, `C29_speed_after`, `C30_axis_speed`,
`C30_limits`, `C31_replan_continuous`, `C32_position`,
`C33_finite_motions_complete`, `C35_value`, `C44_feed`, `C44_straight`,
`C45_C46_offset_arc`, `C45_C46_radius_arc`, `C52_directions`,
`C64_lands_exactly`, `C64_pulses_follow`, `C64_run_follows`,
`C65_program_lands`, `C65_program_path`, `C65_program_runs`,
`C65_reference_lands`, `C65_reference_runs`, `C66_clock_accurate`,
`C66_never_back`, `C66_short_motion`, `C67_exclusive`, `C67_no_chatter`,
`C67_pulse_spacing`, `C67_tracking_error`, `C73_pulses_follow_partial`,
`C73_room_to_stop`, `C73_session_follows_partial`,
`C73_stops_in_time_partial`, `C74_program_in_real_time`,
`C76_planned_accurately`, `C77_job_followed`, `C78_axis_limits`,
`C79_coordinate`, `C79_feed`, `C79_program_followed`, `C79_value`,
`C80_axis_limits`, `C80_job_followed`, `C81_arc_asked`, `C81_circle`,
`C81_feed`, `C81_program_followed`, `C82_job_followed`,
`C82_program_streamed`, `C86_axis_acceleration_partial`,
`C86_axis_acceleration_refuted`, `C88_restart_where_it_is_partial`,
`C89_all_or_nothing_partial`, `C89_arc_asked_partial`, `C89_radius_partial`,
`C92_homing_motion`, `C92_no_jump`, `C92_reported`,
`C93_next_motion_partial`, `C94_on_path_partial`, `C94_single_partial`,
`C95_box_partial`, `C95_streamed_partial`, `C95_travel_refuted`,
`C95_way_partial`, `C96_own_pulse`, `C96_steps_apart`, `C96_streamed`,
`C96_streamed_pulse`

**`ClassicalDedekindReals.sig_forall_dec`, `ClassicalDedekindReals.sig_not_dec`, `FunctionalExtensionality.functional_extensionality_dep`** (all from the standard library):

`C32_arc_ends`, `C32_path`, `C77_no_step_lost`

**`ClassicalDedekindReals.sig_forall_dec`, `FunctionalExtensionality.functional_extensionality_dep`** (all from the standard library):

`C93_rapid_unaffected`
