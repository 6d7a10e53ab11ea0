{
 "claims": [
  {
   "property": "C01",
   "status": "proved",
   "theorems": [
    "C01_event_fifo",
    "C02_event_errors_and_highwater"
   ],
   "note": ""
  },
  {
   "property": "C02",
   "status": "proved",
   "theorems": [
    "C02_event_errors_and_highwater"
   ],
   "note": "refinement to the list queue of EventSpec.v"
  },
  {
   "property": "C03",
   "status": "proved",
   "theorems": [
    "C03_debounce_fires"
   ],
   "note": ""
  },
  {
   "property": "C04",
   "status": "proved",
   "theorems": [
    "C04_debounce_settles",
    "C04_debounce_silent_at_initial_level"
   ],
   "note": ""
  },
  {
   "property": "C05",
   "status": "proved",
   "theorems": [
    "C05_events_alternate",
    "C05_wiring"
   ],
   "note": ""
  },
  {
   "property": "C06",
   "status": "proved",
   "theorems": [
    "C06_input_pin",
    "C06_pins_distinct"
   ],
   "note": ""
  },
  {
   "property": "C07",
   "status": "proved",
   "theorems": [
    "C07_rx_roundtrip",
    "C07_rx_progress",
    "C07_C09_host_refines"
   ],
   "note": "interrupts are atomic with respect to getMessage here; see C56 for the race"
  },
  {
   "property": "C08",
   "status": "partial",
   "theorems": [
    "C08_rx_recovers_refuted",
    "C07_rx_progress"
   ],
   "note": "REFUTED: 256 bytes without a newline stop the receiver for good. True variant: whenever hasMessage() is true a line is delivered (C07_rx_progress)."
  },
  {
   "property": "C09",
   "status": "proved",
   "theorems": [
    "C09_tx_atomic",
    "C09_tx_rests",
    "C07_C09_host_refines"
   ],
   "note": ""
  },
  {
   "property": "C10",
   "status": "proved",
   "theorems": [
    "C10_message_fits",
    "C10_long_line_overruns"
   ],
   "note": "Composes the host interface model with the block splitter."
  },
  {
   "property": "C11",
   "status": "proved",
   "theorems": [
    "C11_step_timing"
   ],
   "note": ""
  },
  {
   "property": "C12",
   "status": "partial",
   "theorems": [
    "C12_late_is_reported_refuted",
    "C11_step_timing"
   ],
   "note": "REFUTED: reads at level 1 or 2 use a stale time without an error. True variant: C11."
  },
  {
   "property": "C13",
   "status": "partial",
   "theorems": [
    "C13_buffered_time_refuted",
    "C13_buffered_time_formula",
    "C13_buffered_time_lower_bound"
   ],
   "note": "REFUTED: the first two written times stay in the total for ever. True variants: exact formula and lower bound."
  },
  {
   "property": "C14",
   "status": "proved",
   "theorems": [
    "C14_ring_discipline",
    "C14_construct_terminates",
    "C14_construct_diverges"
   ],
   "note": ""
  },
  {
   "property": "C15",
   "status": "proved",
   "theorems": [
    "C15_pulses",
    "C15_pulse_shape",
    "C15_waveform",
    "C15_other_pins_low"
   ],
   "note": ""
  },
  {
   "property": "C16",
   "status": "proved",
   "theorems": [
    "C16_records"
   ],
   "note": ""
  },
  {
   "property": "C17",
   "status": "partial",
   "theorems": [
    "C17_consecutive_refuted",
    "C17_lost_steps"
   ],
   "note": "REFUTED: of steps on consecutive ticks only the last one makes a pulse. C17_lost_steps characterises exactly which are lost."
  },
  {
   "property": "C18",
   "status": "proved",
   "theorems": [
    "C18_tracking_error"
   ],
   "note": "exact real arithmetic; rounding of the commanded position in float is not covered here"
  },
  {
   "property": "C19",
   "status": "proved",
   "theorems": [
    "C19_exclusive",
    "C19_no_chatter",
    "C19_at_most_one_step"
   ],
   "note": "exact real arithmetic"
  },
  {
   "property": "C20",
   "status": "partial",
   "theorems": [
    "C20_pulse_spacing_refuted",
    "C20_pulse_spacing_smooth"
   ],
   "note": "REFUTED for trajectories that reverse. True when the rate changes by less than 0.1 step/tick per tick."
  },
  {
   "property": "C21",
   "status": "proved",
   "theorems": [
    "C21_position_counts_steps",
    "C21_pulses_are_commands",
    "C16_records"
   ],
   "note": "for every arithmetic"
  },
  {
   "property": "C22",
   "status": "proved",
   "theorems": [
    "C22_calc_terminates"
   ],
   "note": "for every arithmetic; the UB outcome is an int32 overflow in a conversion"
  },
  {
   "property": "C23",
   "status": "proved",
   "theorems": [
    "C23_queue_refines",
    "C23_queue_counts"
   ],
   "note": "for every arithmetic; histories where stop() is not called on an empty queue (see C24)"
  },
  {
   "property": "C24",
   "status": "partial",
   "theorems": [
    "C24_stop_harmless_refuted",
    "C24_stop_harmless_partial"
   ],
   "note": "REFUTED: stop() on an empty queue makes the level wrap to 2^32-1; every append is then refused. True for histories in which stop() is only called with motions queued."
  },
  {
   "property": "C25",
   "status": "proved",
   "theorems": [
    "C25_stopped_stays"
   ],
   "note": "for every arithmetic"
  },
  {
   "property": "C26",
   "status": "proved",
   "theorems": [
    "C26_no_time_lost"
   ],
   "note": "exact real arithmetic; runs shorter than 2^32 ticks per motion"
  },
  {
   "property": "C27",
   "status": "proved",
   "theorems": [
    "C27_ramp_exact"
   ],
   "note": "Exact real arithmetic. Both orders, all speeds >= 0 and limits: end points, derivatives, bounds, jerk. Rounding of binary32 is not covered."
  },
  {
   "property": "C28",
   "status": "proved",
   "theorems": [
    "C28_plan",
    "C28_phases_fill"
   ],
   "note": "Exact real arithmetic; maximize and minimize strategies, any override, replanning from any feasible point."
  },
  {
   "property": "C29",
   "status": "proved",
   "theorems": [
    "C29_peak_speed",
    "C29_dip_speed",
    "C29_speed_after"
   ],
   "note": "Exact real arithmetic."
  },
  {
   "property": "C30",
   "status": "proved",
   "theorems": [
    "C30_limits",
    "C30_axis_speed"
   ],
   "note": "Exact real arithmetic; linear and helical paths. Limits respected on every axis and maximal."
  },
  {
   "property": "C31",
   "status": "partial",
   "theorems": [
    "C31_replan_refuted",
    "C31_replan_continuous"
   ],
   "note": "REFUTED: re-planning in the first (left) phase makes the position jump, because left.vStart is overwritten before s(tNow) is evaluated (witness in binary32/64 through stop()). Proved continuous at every other time."
  },
  {
   "property": "C32",
   "status": "proved",
   "theorems": [
    "C32_position",
    "C32_path",
    "C32_arc_ends"
   ],
   "note": "Exact real arithmetic."
  },
  {
   "property": "C33",
   "status": "partial",
   "theorems": [
    "C33_dwell_refuted",
    "C33_zero_length_refuted",
    "C33_zero_feed_refuted",
    "C33_finite_motions_complete"
   ],
   "note": "REFUTED: dwell, zero length traverse (undefined behaviour) and zero feed. True for finite durations without a scheduled stop."
  },
  {
   "property": "C34",
   "status": "proved",
   "theorems": [
    "C34_layout"
   ],
   "note": "for every arithmetic"
  },
  {
   "property": "C35",
   "status": "proved",
   "theorems": [
    "C35_splitting",
    "C35_value",
    "C35_value_rounded",
    "C35_codes",
    "C35_any_text",
    "C35_any_text_covers"
   ],
   "note": "Splitting for every arithmetic; values exact over the reals, the code number of G/M words exact in binary64 for all codes 0.0 to 199.9."
  },
  {
   "property": "C36",
   "status": "partial",
   "theorems": [
    "C36_ignored_words_refuted",
    "C40_modal",
    "C40_values"
   ],
   "note": "REFUTED: unknown words are ignored without report, and so is everything after the 16th word. True: the known words among the first 16 take the effect C40 states."
  },
  {
   "property": "C37",
   "status": "proved",
   "theorems": [
    "C37_collision"
   ],
   "note": "for every arithmetic and state"
  },
  {
   "property": "C38",
   "status": "partial",
   "theorems": [
    "C38_group_words_refuted",
    "C38_group_words_partial"
   ],
   "note": "REFUTED for G59.1-G59.3 and M48/M49; proved for all other modal groups."
  },
  {
   "property": "C39",
   "status": "partial",
   "theorems": [
    "C39_errors_reported_refuted",
    "C39_no_feed_partial",
    "C37_collision"
   ],
   "note": "REFUTED: most errors are overwritten before parseBlock returns. Collisions and G1 without feed rate are reported."
  },
  {
   "property": "C40",
   "status": "partial",
   "theorems": [
    "C40_modal",
    "C40_values",
    "C40_dwell_refuted"
   ],
   "note": "REFUTED for blocks with a dwell, whose plane/unit/distance/coordinate words are lost; everything else proved for every arithmetic and program."
  },
  {
   "property": "C41",
   "status": "proved",
   "theorems": [
    "C41_join"
   ],
   "note": "for every arithmetic and program"
  },
  {
   "property": "C42",
   "status": "partial",
   "theorems": [
    "C42_unnamed_axes_refuted",
    "C42_unnamed_axes_partial"
   ],
   "note": "REFUTED in incremental mode, after a rejected block and after a change of units; proved for programs that avoid these."
  },
  {
   "property": "C43",
   "status": "proved",
   "theorems": [
    "C43_absolute"
   ],
   "note": "for every arithmetic and program"
  },
  {
   "property": "C44",
   "status": "proved",
   "theorems": [
    "C44_feed",
    "C44_straight"
   ],
   "note": "exact real arithmetic, every reachable parser state"
  },
  {
   "property": "C45",
   "status": "proved",
   "theorems": [
    "C45_C46_offset_arc",
    "C45_C46_radius_arc"
   ],
   "note": "exact real arithmetic, every reachable parser state; in the planes as this controller numbers them (see C58)"
  },
  {
   "property": "C46",
   "status": "proved",
   "theorems": [
    "C45_C46_offset_arc",
    "C45_C46_radius_arc"
   ],
   "note": "exact real arithmetic"
  },
  {
   "property": "C47",
   "status": "partial",
   "theorems": [
    "C47_no_ub_refuted",
    "C47_no_ub_partial",
    "C47_arc_partial"
   ],
   "note": "REFUTED: centre words on non-arc motions index outside the arrays, huge or negative G/M codes convert out of range. Proved for all programs without centre words and for arc blocks."
  },
  {
   "property": "C48",
   "status": "partial",
   "theorems": [
    "C48_dwell_position_refuted",
    "C48_dwell_position_partial"
   ],
   "note": "REFUTED in incremental mode and with axis words; proved otherwise."
  },
  {
   "property": "C49",
   "status": "partial",
   "theorems": [
    "C49_announced_refuted",
    "C49_announced_partial"
   ],
   "note": "REFUTED for G53; proved for all other blocks."
  },
  {
   "property": "C50",
   "status": "proved",
   "theorems": [
    "C50_homing_follows_protocol",
    "C50_homing_order"
   ],
   "note": "for every configuration, arithmetic and event history"
  },
  {
   "property": "C51",
   "status": "partial",
   "theorems": [
    "C51_homing_never_stuck_refuted",
    "C51_homing_waits_forever_refuted",
    "C51_homing_completes_partial"
   ],
   "note": "REFUTED: when the searching motion ends before the switch closes, homing waits for ever without homingError. True: it completes if every event keeps occurring."
  },
  {
   "property": "C52",
   "status": "proved",
   "theorems": [
    "C52_directions",
    "C52_homing_motion",
    "C52_one_axis_per_tick",
    "C52_one_axis_per_tick_general"
   ],
   "note": "directions in exact arithmetic; one axis per tick in binary arithmetic for the whole program"
  },
  {
   "property": "C53",
   "status": "partial",
   "theorems": [
    "C53_limit_switches_partial",
    "C53_limit_switches_refuted"
   ],
   "note": "REFUTED for X and Y at the negative end; true for the rest. These theorems tie the configured inputs to the switch events of the specification; that homing waits for those events is stated by C50_homing_follows_protocol, not here (mutation hm01 leaves the C53 theorems standing and breaks C50)."
  },
  {
   "property": "C54",
   "status": "partial",
   "theorems": [
    "C54_fill_drops_refuted",
    "C54_fill_no_drop"
   ],
   "note": "REFUTED for dense streams (a change every 2 ticks); proved for changes at least 3 ticks apart."
  },
  {
   "property": "C55",
   "status": "partial",
   "theorems": [
    "C55_distinct_names_partial",
    "C55_distinct_names_refuted"
   ],
   "note": "REFUTED for strategies, event buffer errors, two parse errors and three parse results; true for the rest."
  },
  {
   "property": "C56",
   "status": "partial",
   "theorems": [
    "C56_rx_interrupt_during_read_refuted",
    "C56_rx_masked"
   ],
   "note": "REFUTED: a byte arriving between the head and the level update in getMessage is lost. True (C56_rx_masked) when no byte arrives at the three points where a shared variable is half updated."
  },
  {
   "property": "C57",
   "status": "partial",
   "theorems": [
    "C57_invalid_axis_ignored_refuted",
    "C57_invalid_axis_ignored_above"
   ],
   "note": "REFUTED for axis = nmbrAxis (guard is <=), proved for larger numbers."
  },
  {
   "property": "C58",
   "status": "partial",
   "theorems": [
    "C58_standard_codes_refuted",
    "C45_C46_offset_arc",
    "C60_peripherals"
   ],
   "note": "REFUTED: G18 uses Y and Z, M8 is mist. True: C45_C46_offset_arc says which axes each plane word selects, C60_peripherals what each spindle and coolant word does."
  },
  {
   "property": "C59",
   "status": "partial",
   "theorems": [
    "C59_arc_checked_refuted",
    "C45_C46_offset_arc",
    "C45_C46_radius_arc"
   ],
   "note": "REFUTED in all four respects. True: the arc that is queued is the one determined by start, centre or radius, and end (C45_C46_*), so an arc with consistent words is right; nothing checks consistency."
  },
  {
   "property": "C60",
   "status": "proved",
   "theorems": [
    "C60_peripherals"
   ],
   "note": "for every arithmetic and program"
  },
  {
   "property": "C61",
   "status": "partial",
   "theorems": [
    "C61_work_offsets_refuted"
   ],
   "note": "REFUTED: the offsets are constant for every program."
  },
  {
   "property": "C62",
   "status": "partial",
   "theorems": [
    "C62_rejected_position",
    "C62_rejected_no_effect_refuted"
   ],
   "note": "REFUTED for modal state and parameter values; position proved unchanged."
  },
  {
   "property": "C63",
   "status": "partial",
   "theorems": [
    "C63_homing_issues_motions_at_rest_refuted",
    "C63_one_motion_per_stop_partial"
   ],
   "note": "REFUTED: stopping a finished motion reports motionStopped twice, so the next axis starts while the offset motion is running. True: homing issues at most one motion per reported stop, and one when started with the controller not running."
  },
  {
   "property": "C64",
   "status": "proved",
   "theorems": [
    "C64_run_follows",
    "C64_pulses_follow",
    "C64_lands_exactly"
   ],
   "note": "exact (real) arithmetic; motions executed from rest to rest as the code plans them"
  },
  {
   "property": "C65",
   "status": "proved",
   "theorems": [
    "C65_program_path",
    "C65_program_runs",
    "C65_program_lands",
    "C65_reference_runs",
    "C65_reference_lands"
   ],
   "note": "exact (real) arithmetic; C65_reference_* compare with a reference interpreter of the text (ReferenceSpec.v) that knows nothing of the controller; composition of C40-C46, C49 and C64. Motions that violate C59 (arcs whose end is off the circle), G53 motions (C49) and dwells are outside its hypotheses"
  },
  {
   "property": "C66",
   "status": "partial",
   "theorems": [
    "C66_clock_accurate",
    "C66_never_back",
    "C66_every_tick_refuted",
    "C66_short_motion"
   ],
   "note": "REFUTED: after 256 s in one motion two ticks can read the same time. Accuracy and monotonicity proved up to the wrap of the index; every tick advances the clock during the first 2 million ticks (33 s) of a motion."
  },
  {
   "property": "C67",
   "status": "proved",
   "theorems": [
    "C67_tracking_error",
    "C67_exclusive",
    "C67_no_chatter",
    "C67_pulse_spacing"
   ],
   "note": "binary32; C67_pulse_spacing: with the hypotheses of C20, less the slack, no two steps at consecutive ticks; exclusive up to 2^18 steps, tracking and no-chatter up to 2^20 steps"
  },
  {
   "property": "C68",
   "status": "partial",
   "theorems": [
    "C68_lead_time_refuted",
    "C68_real_time",
    "C68_real_time_records",
    "C68_controller_real_time"
   ],
   "note": "REFUTED for the configured lead time of 25 ms: after one delay of 12 ms the pins stand still for 20 hours, without an error. True with a lead time of 376 ticks (6.3 ms), for commands at no more than 83 of any 750 consecutive ticks: the pins are exactly the computed waveform, 952 ticks later."
  },
  {
   "property": "C69",
   "status": "partial",
   "theorems": [
    "C69_capacity_refuted",
    "C69_records_needed"
   ],
   "note": "REFUTED: a three-axis traverse at full speed (binary32, the machine of the code with a shorter acceleration) makes more than 254 records in 750 ticks; the buffer overflows and steps are lost. True for commands at no more than 83 of any 750 consecutive ticks."
  },
  {
   "property": "C70",
   "status": "partial",
   "theorems": [
    "C70_emergency_stop_refuted",
    "C70_no_effect_refuted"
   ],
   "note": "REFUTED: the machine goes on moving while the emergency stop is held; in general no event of the stop button, feed hold button or probe has any effect."
  },
  {
   "property": "C71",
   "status": "partial",
   "theorems": [
    "C71_limit_switch_refuted",
    "C71_limit_switch_partial"
   ],
   "note": "REFUTED: Z goes on moving towards its closed lower limit switch. True: exactly the switch homing is searching for stops the motion."
  },
  {
   "property": "C72",
   "status": "partial",
   "theorems": [
    "C72_homing_sets_position_refuted",
    "C72_position_only_counts"
   ],
   "note": "REFUTED: homing of Z completes at -2 steps; in general nothing ever sets the position, it only counts steps."
  },
  {
   "property": "C73",
   "status": "partial",
   "theorems": [
    "C73_stop_braking_refuted",
    "C73_stop_overshoot_refuted",
    "C73_resume_refuted",
    "C73_session_follows_partial",
    "C73_stops_in_time_partial",
    "C73_room_to_stop",
    "C73_pulses_follow_partial"
   ],
   "note": "REFUTED: a stop request during the deceleration (or a start after it) makes the controller go wrong, one too near the end of the acceleration overshoots the target.  Partial: in exact arithmetic and when every stop is asked for with room to stop, the machine follows the paths through stops and resumptions within the limits, stops in time and reaches every end point; for this, a theorem that says when there is room."
  },
  {
   "property": "C74",
   "status": "proved",
   "theorems": [
    "C74_program_in_real_time",
    "C74_steady_is_prompt"
   ],
   "note": "Exact arithmetic; programs of the subset of C65 (reference interpreter). The condition on speed is sufficient, not necessary; C69 shows that some condition is needed."
  },
  {
   "property": "C75",
   "status": "partial",
   "theorems": [
    "C75_tx_interrupt_loses_byte_refuted",
    "C75_tx_interrupt_adds_byte_refuted",
    "C75_tx_masked"
   ],
   "note": "REFUTED: a transmit interrupt between two instructions of sendMessage loses a queued byte or sends one that was not queued. True (C75_tx_masked) when no interrupt comes at the two points where shared variables are half read or updated. The UART interrupt handler itself is commented out in the source; the handlers it would call are modelled."
  },
  {
   "property": "C76",
   "status": "proved",
   "theorems": [
    "C76_planned_accurately"
   ],
   "note": "binary32; motions from standstill to standstill that are not replanned; inputs between 2^-14 and 2^20, j*vm <= 1000*a^2 (and d), j*L^2 <= 2^40*vm^3"
  },
  {
   "property": "C77",
   "status": "proved",
   "theorems": [
    "C77_job_followed",
    "C77_no_step_lost"
   ],
   "note": "binary32 controller, binary64 input; straight motions from rest, at most one step per tick; positions up to 2^20 steps, motions up to 2^18 steps; reach = 0.64 + rounding of positions + length/56000 steps"
  },
  {
   "property": "C78",
   "status": "proved",
   "theorems": [
    "C78_axis_limits"
   ],
   "note": "binary32 limits from binary64 motions; per-axis limits between 2^-13 and 500000; ratio conditions (gentle) so that C76 and C77 apply"
  },
  {
   "property": "C79",
   "status": "proved",
   "theorems": [
    "C79_value",
    "C79_coordinate",
    "C79_feed",
    "C79_program_followed"
   ],
   "note": "binary64 parser, binary32 controller. C79_value, C79_coordinate and C79_feed give positions and feeds from the text (absolute mode; feeds per minute), C79_program_followed goes from the positions and feeds of the motions to the counted steps (any distance mode). At most 32 straight motions, queued and then started from standstill; no dwells and no G53, bounds of C77 and C78"
  },
  {
   "property": "C80",
   "status": "proved",
   "theorems": [
    "C80_job_followed",
    "C80_axis_limits"
   ],
   "note": "binary32 controller, binary64 input. Hypothesis on the library: cosf and sinf within 2^-23 for angles up to 100 rad (trig_ok; shown to be satisfiable). Motions from standstill to standstill, |start angle| + 2 |turn| <= 98 rad; otherwise the bounds of C77 and C78. The limit on the acceleration is per component: along the path and towards the centre each within the limit"
  },
  {
   "property": "C81",
   "status": "proved",
   "theorems": [
    "C81_circle",
    "C81_feed",
    "C81_arc_asked",
    "C81_program_followed"
   ],
   "note": "binary64 parser, binary32 controller. Hypotheses on the library: cosf and sinf within 2^-23 (trig_ok), atan2 within 2^-50 (atan_ok); both shown to be satisfiable together. C81_circle, C81_feed and C81_arc_asked go from the words to the motion and to what is asked of it (offsets given for both axes), C81_program_followed from the motions to the counted steps, for whatever way the centre was given. The turn must be at least 10^-6 and at most 2 pi - 10^-6, or start and end the same (a whole turn). At most 32 motions, queued and then started from standstill; bounds of C77 and C78"
  },
  {
   "property": "C82",
   "status": "proved",
   "theorems": [
    "C82_job_followed",
    "C82_program_streamed"
   ],
   "note": "binary64 parser, binary32 controller; no limit on the number of motions. Every motion is appended while the controller is running and has room for it (less than 32 queued). Appended motions are planned from standstill to standstill, as queued ones are. Hypotheses on the library and bounds as in C81. f_fed and c_fed state the condition on appending; C82_hypotheses shows a program that meets it"
  },
  {
   "property": "C83",
   "status": "partial",
   "theorems": [
    "C83_program_stop_refuted",
    "C83_stop_word_harmless_partial"
   ],
   "note": "REFUTED, for every program: a line with M0, M1, M2, M30 or M60 changes neither the motions handed over nor the final state; nothing is paused or ended, and no error is reported. True (C83_stop_word_harmless_partial): such a line is accepted and has no other effect"
  },
  {
   "property": "C84",
   "status": "partial",
   "theorems": [
    "C84_feed_rate_refuted",
    "C84_g1_feed_partial",
    "C84_inverse_time_partial",
    "C39_no_feed_partial"
   ],
   "note": "REFUTED: motions continued without a motion word, G53 motions and arcs are accepted without a feed rate; in inverse time mode arcs and continued motions use the feed rate of an earlier block, and G1 one given in an earlier block without motion. True for blocks with a G1 word (C84_g1_feed_partial, C39_no_feed_partial), and in inverse time mode for a G1 block after a G1 motion (C84_inverse_time_partial)"
  },
  {
   "property": "C85",
   "status": "partial",
   "theorems": [
    "C85_override_switch_refuted"
   ],
   "note": "REFUTED: M48 and M49 do not change the motions of any program (first part, for every program), and the planner applies the feed override to every feed motion (second part, a concrete one). There is no variant that is true: the switch is stored and never read. That it is stored is C40_modal"
  },
  {
   "property": "C86",
   "status": "partial",
   "theorems": [
    "C86_axis_acceleration_refuted",
    "C86_axis_acceleration_partial"
   ],
   "note": "REFUTED (exact arithmetic): on an arc the acceleration along the path and the one towards the centre are limited separately, so that an axis gets more than 213 mm/s2 where its limit is 200. True (C86_axis_acceleration_partial): axes that move straight stay within the limit (the larger of acceleration and deceleration limit), axes of an arc within sqrt 2 times that"
  },
  {
   "property": "C87",
   "status": "proved",
   "theorems": [
    "C87_motions_meet_at_rest"
   ],
   "note": "any arithmetic, any history. The speeds are those the plan is made from; that a plan made from them has these speeds at its ends is C28 (exact arithmetic) and C76 (binary32). stop() is called only with motions queued (see C24)"
  },
  {
   "property": "C88",
   "status": "partial",
   "theorems": [
    "C88_restart_after_stop_refuted",
    "C88_restart_where_it_is_partial"
   ],
   "note": "REFUTED: the parser keeps the end of the last line it has read as its position, and nothing tells it where the machine was stopped; the next motion starts there, the controller counts one step per tick to catch up, and none of these reaches the motors (see C17). True (C88_restart_where_it_is_partial): motions that do start where the machine stands, to within 54/100 step, are followed as C80 says"
  },
  {
   "property": "C89",
   "status": "partial",
   "theorems": [
    "C89_half_circle_refuted",
    "C89_radius_partial",
    "C89_all_or_nothing_partial",
    "C89_arc_asked_partial",
    "C45_C46_radius_arc"
   ],
   "note": "REFUTED: a half circle from X10.1 to X20.3 with R5.1 is announced as a motion without an error, but its commanded positions are not numbers, because 4 r r - d d rounds to a negative number (binary64). True (C89_radius_partial, binary64): if the distance is at most 1.99975 radii and at least 1/1000 mm, and the radius at most 400 m, the centre is the one of the arc asked for to within 10^-9 mm + 2 10^-13 radii; up to and with two radii (C89_all_or_nothing_partial) it is this centre to within 10^-9 mm + 5 10^-8 radii, or not a number; the motion then meets what C81_program_followed asks of an arc (C89_arc_asked_partial); in exact arithmetic (C45_C46_radius_arc) up to and with half circles"
  },
  {
   "property": "C90",
   "status": "partial",
   "theorems": [
    "C90_settings_refuted",
    "C90_carried_partial",
    "C60_peripherals"
   ],
   "note": "REFUTED, for every history, machine and arithmetic: changing the spindle speed, spindle direction or coolant of any motions changes nothing that leaves the controller; the settings are stored with the motion and never read. True: the parser puts the programmed settings into each motion (C60_peripherals) and they stay with it while it is queued (C90_carried_partial)"
  },
  {
   "property": "C91",
   "status": "partial",
   "theorems": [
    "C91_dwell_refuted",
    "C91_no_trace_partial"
   ],
   "note": "REFUTED for dwells: a dwell keeps the stopping time left in its queue slot by an earlier motion, so the same calls run on or stop before the next motion, depending on the past. True (C91_no_trace_partial, any arithmetic): with an empty queue, whatever happened before, any further calls that append only moving motions have the same effects as on a controller without a past"
  },
  {
   "property": "C92",
   "status": "proved",
   "theorems": [
    "C92_reported",
    "C92_no_jump",
    "C92_homing_motion"
   ],
   "note": "in single precision, for every history that leaves the controller stopped. That the other axes end exactly where they were needs the bound reach < 15/16, so motions of up to some 16000 steps; without it they are within the same reach as the moving axis. Hypotheses met by the homing motions of the firmware from anywhere within 60 mm (C92_hypotheses), except the slow release over 60 mm, which is stopped by the switch long before its end"
  },
  {
   "property": "C93",
   "status": "partial",
   "theorems": [
    "C93_takes_effect_refuted",
    "C93_zero_rapid_refuted",
    "C93_zero_lasts_refuted",
    "C93_next_motion_partial",
    "C93_rapid_unaffected"
   ],
   "note": "REFUTED, for every arithmetic, machine and state: after a change of the override the main loop goes on exactly as without it, because plans are made only when a motion is queued, at start() and at stop(); with an override of zero a rapid motion is undefined behaviour (infinity times zero), and a motion with a feed stays stopped when the override is set back. True: motions queued after the change while running are planned with it (C93_next_motion_partial, exact arithmetic; an override set before a whole run is covered by C64), and rapid motions are the same for all positive overrides (C93_rapid_unaffected, binary32 and binary64)"
  },
  {
   "property": "C94",
   "status": "partial",
   "theorems": [
    "C94_other_axes_refuted",
    "C94_steps_refuted",
    "C94_on_path_partial",
    "C94_single_partial",
    "C32_position"
   ],
   "note": "REFUTED: axes that do not move keep what the point held before the call (a motion along X at Y5 reports Y0 in a new point), and the steps are cut off instead of rounded, so at the end of a motion to X0.265 (53 steps) 52 are reported (binary32). True: moving axes get their place on the path and its steps rounded towards zero (C94_on_path_partial, exact arithmetic); in binary32 the mm are those the controller follows and the steps at most 17/16 off (C94_single_partial). Only the unit tests of the repository call this function"
  },
  {
   "property": "C95",
   "status": "partial",
   "theorems": [
    "C95_travel_refuted",
    "C95_box_partial",
    "C95_way_partial",
    "C95_streamed_partial"
   ],
   "note": "REFUTED: the travel is used for homing only; a program that sends Z, with a travel of 60 mm, to 100 mm is accepted and Z is moved all the way (binary64 parser, binary32 controller, the machine of the firmware). True (C95_box_partial): a program of straight motions as in C79 whose positions are all in a box stays in it at every tick, to within a step (reach + rounding); C95_way_partial: with arcs, as in C81, when the ways asked for are in the box; C95_streamed_partial: programs of any length, handed over while they are executed, as in C82, after every call"
  },
  {
   "property": "C96",
   "status": "proved",
   "theorems": [
    "C96_steps_apart",
    "C96_own_pulse",
    "C96_streamed",
    "C96_streamed_pulse"
   ],
   "note": "Binary32 controller, any machine, queues of up to 32 straight motions, arcs and helices given to a stopped controller. Bounds: no axis moves by more than 1/20 step per tick (about 15 mm/s at 200 steps per mm and the tick of the firmware) and by more than 1/100 step within the first or last tick; rounding is below 1/40 step, which holds for motions within some 1500 steps of the origin. C96_steps_apart is about the counters at consecutive ticks; C96_own_pulse, from a controller just set up, says that the pulses on the pins add up to the counter, but for one pending; C96_streamed is C96_steps_apart for any number of motions handed over while others are executed, as in C82, and C96_streamed_pulse is C96_own_pulse for these, by calls."
  }
 ]
}