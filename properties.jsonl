{"id": "C01", "title": "Event queue delivers every accepted event once and in order", "statement": "For any history of pushEvent and popEvent calls after initialize(), the events returned by popEvent are exactly the non-'none' events whose push found fewer than 16 pending events, in push order and each once; an event pushed when 16 are pending is dropped and leaves the pending ones untouched; hasEvents() is true exactly when something is pending.", "quantifier": "every finite sequence of queue operations, of any length, with any events", "why_tests_cant": "The ring buffer wraps after 16 pushes and the number of interleavings of pushes and pops is unbounded.", "anchors": ["lib/event/eventbuffer.cpp: eventBuffer::pushEvent, popEvent, hasEvents, initialize"]}
{"id": "C02", "title": "Event queue error and high-water reporting is exact", "statement": "getLastError() returns the kind of the most recent overflow or underflow since the previous getLastError()/initialize() (and 'none' if there was none) and clears it; getLevelMax() returns the largest number of pending events reached since the last getLevelMax()/initialize() by a push, and clears it. Neither call changes the pending events.", "quantifier": "every finite sequence of queue operations", "why_tests_cant": "Depends on the entire history of pushes, pops and polls.", "anchors": ["lib/event/eventbuffer.cpp: eventBuffer::getLastError, getLevelMax, pushEvent, popEvent"]}
{"id": "C03", "title": "Debounced input reports a change exactly when the new level wins by five samples", "statement": "Starting from a settled input at some level, the first change event is reported at precisely the first sample where some run of most-recent samples contains at least five more samples of the new level than of the old one; before that sample no event is reported, whatever the bounce pattern.", "quantifier": "every finite sequence of raw samples and both settled levels", "why_tests_cant": "Bounce patterns are arbitrary bit strings; tests try a handful.", "anchors": ["lib/inputs/debouncedinput.cpp: debouncedInput::getEvent, initialize"]}
{"id": "C04", "title": "Debounced input follows any stable level within bounded time and then stays silent", "statement": "From every reachable internal state, five consecutive equal samples make getState() equal to that level, and every further equal sample produces no event. An input that has held its initial level since initialize() never produces an event.", "quantifier": "every reachable state, both levels, any number of further samples", "why_tests_cant": "Quantifies over all previous bounce histories.", "anchors": ["lib/inputs/debouncedinput.cpp: debouncedInput::getEvent, getState, initialize"]}
{"id": "C05", "title": "Open and close events of one input alternate and agree with the reported state", "statement": "Over any sample history the two events of an input strictly alternate, the first one being opposite to the initial level; after every call the last reported event determines isClosed()/isOpen(), which are always complementary. With the constructor arguments used in main.cpp the switch's '...Closed/Pressed' event is reported exactly when isClosed() becomes true.", "quantifier": "every sample history, both initial levels, every input wired in main.cpp", "why_tests_cant": "Alternation is a statement about unbounded histories.", "anchors": ["lib/inputs/debouncedinput.cpp: debouncedInput::getEvent, isClosed, isOpen", "src/cnc3axis/main.cpp: myInputs"]}
{"id": "C06", "title": "Each logical input reads exactly its own pin", "statement": "After sample(), get(i) for i in 0..11 equals the level of one fixed physical port pin (PD0-7 for 0-7, PE25 for 8, PE24 for 9, PA16/PA17 for 10/11), distinct for distinct i and independent of every other bit of the three port registers; get(i) for i >= 12 is false.", "quantifier": "all 2^96 values of the three port registers and every 32-bit index", "why_tests_cant": "The register space cannot be enumerated.", "anchors": ["lib_target/cnc3axis/inputs/switches.cpp: inputs::sample, inputs::get"]}
{"id": "C07", "title": "Received lines are delivered complete, unmodified and in order", "statement": "For any interleaving of received bytes and getMessage() calls guarded by hasMessage(), as long as no byte arrives while 256 bytes are pending, the concatenation of the returned messages plus the still pending bytes equals the received byte stream, every returned message ends with its only newline, and hasMessage() is true exactly when a complete line is pending.", "quantifier": "every byte stream and every interleaving of receive interrupts and reads, of any length", "why_tests_cant": "Schedules of interrupts versus main loop are unbounded.", "anchors": ["lib/hostinterface/hostinterface.cpp: hostInterface::getMessage, hasMessage", "lib_target/cnc3axis/hostinterface/hostinterface_uart.cpp: hostInterface::rxReady"]}
{"id": "C08", "title": "The receiver recovers from an over-long line", "statement": "Whatever bytes the host has sent, once it sends a newline-terminated line of moderate length the receiver eventually reports a message again (the interface never stops accepting input for good).", "quantifier": "every received byte stream", "why_tests_cant": "Liveness over all continuations after an overflow; a test shows one continuation only.", "anchors": ["lib_target/cnc3axis/hostinterface/hostinterface_uart.cpp: hostInterface::rxReady", "lib/hostinterface/hostinterface.cpp: hostInterface::hasMessage"]}
{"id": "C09", "title": "Messages to the host are sent whole or not at all, in order", "statement": "For any interleaving of sendMessage() and transmit interrupts, the bytes put on the line followed by the bytes still queued are the concatenation, in call order, of those messages that fitted in the free space when sendMessage() was called; a message that did not fit contributes no byte. At most 256 bytes are ever queued.", "quantifier": "every sequence of messages of any length and every interleaving of transmit interrupts", "why_tests_cant": "Unbounded schedules and message lengths.", "anchors": ["lib/hostinterface/hostinterface.cpp: hostInterface::sendMessage", "lib_target/cnc3axis/hostinterface/hostinterface_uart.cpp: hostInterface::txReady"]}
{"id": "C10", "title": "A line taken from the receiver can never overrun the parser's line buffer", "statement": "Any message obtained from the receiver when hasMessage() is true occupies at most 257 bytes including its terminator and, given to getBlockFromString(), never writes outside the 256-byte line buffer; a line with 256 or more significant characters (possible only by calling the parser directly) does.", "quantifier": "every received byte stream and every line", "why_tests_cant": "Memory safety for every input line, including those that fill the receive buffer.", "anchors": ["lib/hostinterface/hostinterface.cpp: hostInterface::getMessage", "lib/gcode/gcodeblock.cpp: gCodeBlock::getBlockFromString"]}
{"id": "C11", "title": "Step timing is reproduced exactly by the timer interrupt while three steps are buffered", "statement": "For any interleaving of write() and timer interrupts in which every read finds at least three buffered entries and no write finds the buffer full, interrupt k outputs the signals of write k and, with the timer's reload-one-event-late behaviour, the time between output k and output k+1 is exactly the timeBefore given to write k+1.", "quantifier": "every sequence of writes and reads satisfying the level condition, of any length, any values", "why_tests_cant": "The two-entry time offset interacts with ring wrap-around and with all interleavings.", "anchors": ["lib/outputs_stepper_motor/stepbuffer.cpp: stepBuffer::write, read", "lib/outputs_stepper_motor/stepbuffer.md", "src/cnc3axis/main.cpp: pit1_isr"]}
{"id": "C12", "title": "Wrong step timing is always reported as an underflow", "statement": "The timing guarantee holds whenever no stepBufferUnderflow is reported, i.e. if reads never find the buffer empty then every output is emitted with its written timeBefore.", "quantifier": "every interleaving of writes and reads without a reported underflow", "why_tests_cant": "Needs a history reaching levels 1 and 2 with particular stale contents.", "anchors": ["lib/outputs_stepper_motor/stepbuffer.cpp: stepBuffer::read, getLastError"]}
{"id": "C13", "title": "Reported buffered time is the time until the buffer runs out", "statement": "getTimeInTicks() equals the sum of the timeBefore values of the entries that are written and not yet output, so that needsFilling() == false guarantees at least the configured minimum time of buffered motion.", "quantifier": "every history of writes and reads", "why_tests_cant": "An accounting invariant over unbounded histories.", "anchors": ["lib/outputs_stepper_motor/stepbuffer.cpp: stepBuffer::getTimeInTicks, needsFilling, write, read"]}
{"id": "C14", "title": "Step buffer ring discipline", "statement": "The level reported is writes accepted minus successful reads and always within 0..256; a write into a full buffer changes nothing but the error; a read from an empty buffer changes nothing but the error and returns the fixed safe entry {1000,1000}; signals come out in the order written; getLastError() returns the most recent error and clears it; after initialize() with valid minimum settings the buffer needs no filling.", "quantifier": "every history of writes and reads", "why_tests_cant": "Unbounded histories with wrap-around.", "anchors": ["lib/outputs_stepper_motor/stepbuffer.cpp: stepBuffer::write, read, initialize, getLevel, getLastError"]}
{"id": "C15", "title": "Every commanded step becomes exactly one clean pulse with the right direction", "statement": "For any sequence of ticks in which no axis is stepped on two consecutive ticks, the pin waveform has for every axis exactly one one-tick-high step pulse per commanded step, one tick after the command, in command order, with the direction pin at the commanded direction already one tick before the rising edge and during the pulse; pins of axes that are not commanded keep their level and no other pin is driven.", "quantifier": "every sequence of per-tick step commands for all axes, of any length", "why_tests_cant": "Pulse shape depends on all interleavings of neighbouring commands of three axes.", "anchors": ["lib/outputs_stepper_motor/stepsignals.cpp: stepSignals::next, stepForward, stepBackward"]}
{"id": "C16", "title": "Emitted (time, signals) records reproduce the pin waveform exactly", "statement": "Replaying the records produced by output() (hold previous pins for timeBefore ticks, then set the new pins) reproduces the tick-by-tick pin waveform without loss, and consecutive records are at least 1 and at most max(1, setMaxTicks) ticks apart when polled every tick as the controller does.", "quantifier": "every sequence of step commands and every timeout setting", "why_tests_cant": "Run-length encoding correctness for every waveform.", "anchors": ["lib/outputs_stepper_motor/stepsignals.cpp: stepSignals::output, isModified, isTimedOut, next", "lib/motion/motionctrl.cpp: motionCtrl::calcNextStepperMotorSignals"]}
{"id": "C17", "title": "Steps commanded on consecutive ticks are not lost", "statement": "Every commanded step produces a rising edge on its step pin even when an axis is stepped on consecutive ticks.", "quantifier": "every sequence of step commands", "why_tests_cant": "Needs the exact overlap pattern of the three-tick pulse template.", "anchors": ["lib/outputs_stepper_motor/stepsignals.cpp: stepSignals::stepForward, stepBackward"]}
{"id": "C18", "title": "Commanded motor position follows the trajectory within 0.55 step", "statement": "If the commanded position of an axis changes by at most one step per tick and tracking starts within 0.55 step, then after every tick the step counter is within 0.55 step of the commanded position, for every trajectory.", "quantifier": "every real-valued trajectory of any length satisfying the rate bound", "why_tests_cant": "Continuous, unbounded input space.", "anchors": ["lib/motion/motionctrl.cpp: motionCtrl::move, needStepForward, needStepBackward, stepForward, stepBackward"]}
{"id": "C19", "title": "Hysteresis: no chatter, and forward/backward are never needed together", "statement": "needStepForward and needStepBackward are never both true, and after a step in one direction a step in the other direction requires the commanded position to move back by at least 0.1 step; so a commanded position oscillating by less than that causes at most one step.", "quantifier": "every commanded position, every step counter value, every trajectory", "why_tests_cant": "Real/float valued inputs.", "anchors": ["lib/motion/motionctrl.cpp: motionCtrl::needStepForward, needStepBackward"]}
{"id": "C20", "title": "Pulses of one axis keep a safe distance below half a step per tick", "statement": "If the commanded position changes by less than half a step per tick and tracking starts settled, no axis is ever stepped on two consecutive ticks (which is the condition for clean pulses).", "quantifier": "every trajectory satisfying the rate bound", "why_tests_cant": "Continuous, unbounded input space.", "anchors": ["lib/motion/motionctrl.cpp: motionCtrl::move", "lib/outputs_stepper_motor/stepsignals.cpp: stepSignals::stepForward"]}
{"id": "C21", "title": "Reported machine position equals the net number of steps sent", "statement": "After any history of controller calls the machine position in steps of each axis equals its value at the last reset plus forward steps minus backward steps commanded to the signal generator since then, and when no two steps of an axis are on consecutive ticks, plus/minus the direction-signed rising edges that appear on the pins (up to the fixed pipeline delay).", "quantifier": "every history of append/start/stop/flush/calc calls", "why_tests_cant": "Relates unbounded histories to the pin waveform.", "anchors": ["lib/motion/motionctrl.cpp: motionCtrl::stepForward, stepBackward, getMachinePosition, resetMachinePosition"]}
{"id": "C22", "title": "Computing the next motor signals always terminates within the idle timeout", "statement": "calcNextStepperMotorSignals() always returns, after at most max(1, max idle ticks) ticks, with timeBefore between 1 and that bound, whatever motions are queued.", "quantifier": "every controller state and every configured timeout below 2^32", "why_tests_cant": "Termination of a nested while(true) loop for every state.", "anchors": ["lib/motion/motionctrl.cpp: motionCtrl::calcNextStepperMotorSignals"]}
{"id": "C23", "title": "Motions are queued in order, bounded, and completed exactly once", "statement": "For any history in which stop() is only called when a motion is queued: the queue holds at most 32 motions, appending to a full queue only raises motionBufferOverflow, motions are completed oldest first, each completion raises exactly one motionCompleted, and allMotionsCompleted is raised exactly when the last one completes; the controller is never running with an empty queue.", "quantifier": "every such history of append/start/stop/flush/calc calls", "why_tests_cant": "Unbounded histories.", "anchors": ["lib/motion/motionbuffer.cpp: motionBuffer", "lib/motion/motionctrl.cpp: motionCtrl::append, start, stop, flushMotionBuffer, calcNextStepperMotorSignals"]}
{"id": "C24", "title": "Requesting a stop is harmless at any time", "statement": "Calling stop() in any state keeps the motion queue usable: afterwards motions can be appended and executed as before.", "quantifier": "every controller state", "why_tests_cant": "The damaging state (empty queue) needs a specific history followed by further use.", "anchors": ["lib/motion/motionctrl.cpp: motionCtrl::stop, calcNextStepperMotorSignals", "lib/motion/motionbuffer.cpp: motionBuffer::pop"]}
{"id": "C25", "title": "A stopped controller never moves a motor", "statement": "While the controller state is stopped, calcNextStepperMotorSignals() commands no step, raises no event, leaves position, time and queue unchanged, and after at most three ticks of pipeline drain only emits idle records.", "quantifier": "every stopped state and any number of calls", "why_tests_cant": "Unbounded number of calls from every state.", "anchors": ["lib/motion/motionctrl.cpp: motionCtrl::calcNextStepperMotorSignals"]}
{"id": "C26", "title": "No time is lost at motion boundaries", "statement": "Under exact arithmetic, while motions follow each other without stopping, time within the current motion plus the durations of the motions completed since the start equals the number of ticks since the start times the tick length.", "quantifier": "every sequence of motion durations and any number of ticks", "why_tests_cant": "Accumulation of offsets over unboundedly many motions.", "anchors": ["lib/motion/sampletime.cpp: sampleTime", "lib/motion/motionctrl.cpp: motionCtrl::calcNextStepperMotorSignals"]}
{"id": "C27", "title": "Acceleration/deceleration profile is kinematically exact", "statement": "Under exact arithmetic, for every admissible start/end speed and limits and both orders, the profile starts at 0 with vStart, ends at its length with vEnd, speed and distance are continuous, distance is the integral of speed and speed the integral of acceleration, speed stays between vStart and vEnd, acceleration stays within the given limits and (second order) changes at most at rate jMax.", "quantifier": "all real start/end speeds >= 0 and all positive limits, all times in the profile", "why_tests_cant": "Continuous parameter space; piecewise cubic with four regimes.", "anchors": ["lib/motion/speedprofileaccdec.cpp: speedProfileAccDec::calculate, s, v, a"]}
{"id": "C28", "title": "Planned motion covers exactly the trajectory within all limits", "statement": "Under exact arithmetic, for every motion and strategy with feasible end speeds, optimize() yields phases whose lengths are non-negative and add up to the trajectory length, s(0) = 0, s(duration) = length, speed never exceeds vMax nor vFeed x override (when start and end speeds do not), and is continuous across phases.", "quantifier": "all lengths, limits, speeds, overrides in the stated real ranges", "why_tests_cant": "Continuous parameter space, several nested cases.", "anchors": ["lib/motion/motionitem.cpp: motion::optimize, s, v, vTri"]}
{"id": "C29", "title": "Speed solving formulas satisfy the kinematic equations", "statement": "Under exact arithmetic vTri returns the peak (or dip) speed for which accelerating from vStart and decelerating to vEnd uses exactly the available length, and vOut returns the speed reached after the given length with the given acceleration, or 0 when it cannot be reached.", "quantifier": "all real parameters in range", "why_tests_cant": "Algebraic identity over continuous parameters.", "anchors": ["lib/motion/motionitem.cpp: motion::vTri, vOut"]}
{"id": "C30", "title": "Machine limits are respected on every axis", "statement": "Under exact arithmetic, for every linear or helical motion and any path speed/acceleration/deceleration within the limits computed for the motion, every axis' component stays within the machine's per-axis vMax, aMax and dMax, and on arcs the centripetal acceleration stays within aMax of both arc axes.", "quantifier": "all directions, radii and machine limits", "why_tests_cant": "Continuous parameter space.", "anchors": ["lib/motion/motionitem.cpp: motion::limit", "lib/motion/motiontrajectory.cpp: motionTrajectory::set"]}
{"id": "C31", "title": "Re-planning a motion while it executes does not move the machine", "statement": "When a running motion is re-optimised at time tNow (feed override or stop), the distance travelled and speed at tNow are the same before and after, so that position is continuous.", "quantifier": "every motion, time and strategy", "why_tests_cant": "Needs re-planning in the middle of an acceleration; continuous parameters.", "anchors": ["lib/motion/motionitem.cpp: motion::optimize(..., tNow)"]}
{"id": "C32", "title": "Trajectory geometry: motions start and end where they should and arcs stay on their circle", "statement": "Under exact arithmetic a linear axis is at startPosition + delta * (s/length) after distance s, so at startPosition for s=0 and startPosition+delta for s=length; arc axes stay at the radius from the centre for every s and sweep exactly deltaAngle from startAngle.", "quantifier": "every trajectory of non-zero length and every distance", "why_tests_cant": "Continuous parameter space.", "anchors": ["lib/motion/motionitem.cpp: motion::positionInMmFromDistanceTravelled", "lib/motion/motiontrajectory.cpp: motionTrajectory::set"]}
{"id": "C33", "title": "Every motion that is started completes", "statement": "Once a valid block has been parsed, appended and started, the controller eventually reports motionCompleted for it, for motions of any length including zero and for dwells.", "quantifier": "every motion the parser can produce", "why_tests_cant": "Non-termination for special float values is not observable by a finite test.", "anchors": ["lib/motion/motionitem.cpp: motion::optimize", "lib/motion/motiontrajectory.cpp: motionTrajectory::set", "lib/motion/motionctrl.cpp: motionCtrl::calcNextStepperMotorSignals"]}
{"id": "C34", "title": "Layout, comments and case never change a block's meaning", "statement": "Two lines that differ only in spaces, tabs, parenthesised comments, letter case, or text after the first newline/terminator give the same block (same words, counts and error verdict).", "quantifier": "every pair of such lines of any content", "why_tests_cant": "All byte strings.", "anchors": ["lib/gcode/gcodeblock.cpp: gCodeBlock::getBlockFromString"]}
{"id": "C35", "title": "Word splitting is faithful", "statement": "A line consisting of at most 16 words, each a letter followed by at most 15 non-letter characters, is split into exactly these words in order, each with the numeric value of its text.", "quantifier": "every list of words satisfying the bounds", "why_tests_cant": "All inputs.", "anchors": ["lib/gcode/gcodeblock.cpp: gCodeBlock::getBlockFromString"]}
{"id": "C36", "title": "No word is silently ignored", "statement": "Every word of a line either takes effect or makes the parser report an error; lines with more than 16 words and words the parser does not know are reported.", "quantifier": "every line", "why_tests_cant": "All inputs.", "anchors": ["lib/gcode/gcodeblock.cpp: gCodeBlock::getBlockFromString", "lib/gcode/gcode.cpp: gCode::parseBlock"]}
{"id": "C37", "title": "Conflicting words are rejected without side effects", "statement": "If a line contains two words of one modal group known to the collision table or two equal value letters, parseBlock() reports Error with the matching collision code and leaves modal state, parameter values and position unchanged.", "quantifier": "every line and every parser state", "why_tests_cant": "All word combinations.", "anchors": ["lib/gcode/gcode.cpp: gCode::parseBlock", "lib/gcode/gcodeblock.cpp: gCodeBlock::countModalGroupAndOthers, hasModalGroupViolation, hasLetterWordViolation"]}
{"id": "C38", "title": "All words of a modal group collide", "statement": "Any two different words that set the same modal state in one block are rejected as a modal group collision.", "quantifier": "every pair of supported words", "why_tests_cant": "Table completeness over all pairs.", "anchors": ["lib/gcode/gcodeblock.cpp: gCodeBlock::countModalGroupAndOthers"]}
{"id": "C39", "title": "Errors detected while parsing are reported", "statement": "If a block has an invalid line number, feed rate, spindle speed, a dwell without valid time, a G10 without parameters or leftover unsupported words, the result of parseBlock() is Error.", "quantifier": "every block and parser state", "why_tests_cant": "All inputs.", "anchors": ["lib/gcode/gcode.cpp: gCode::parseBlock, getLineNumberWord, setFeedrateValue, setSpindleSpeed"]}
{"id": "C40", "title": "Modal state persists and changes only by its own words", "statement": "Parsing a block changes a modal group's state only if the block contains a word of that group, and then to the value of that word; parameter values (F, S, axis words...) change only if their letter occurs (F also when the feed mode is set).", "quantifier": "every block and every parser state, hence every program", "why_tests_cant": "Programs are unbounded.", "anchors": ["lib/gcode/gcode.cpp: gCode::setUnitsMode, setArcPlane, setdistanceMode, setWCSMode, setSpindleMode, setCoolantMode, setOverrideMode, setFeedrateMode"]}
{"id": "C41", "title": "Consecutive motions join", "statement": "Each motion produced by the parser starts at the end position of the previously produced motion, its delta is the difference of end and start, and a block that produces no motion leaves the position unchanged.", "quantifier": "every program (sequence of blocks)", "why_tests_cant": "Programs are unbounded.", "anchors": ["lib/gcode/gcode.cpp: gCode::calcMotion, calcNextPosition, updatePosition"]}
{"id": "C42", "title": "Axes not named in a block do not move", "statement": "A motion block moves only the axes whose words it contains.", "quantifier": "every program", "why_tests_cant": "Needs histories mixing absolute, relative and unit modes.", "anchors": ["lib/gcode/gcode.cpp: gCode::calcNextPosition"]}
{"id": "C43", "title": "Absolute coordinates are independent of history", "statement": "In absolute mode (G90) and fixed units and coordinate system the end position of a motion on every named axis is word value times unit plus work offset, whatever was executed before.", "quantifier": "every program prefix and every motion block", "why_tests_cant": "All histories.", "anchors": ["lib/gcode/gcode.cpp: gCode::calcNextPosition"]}
{"id": "C44", "title": "Feed rate semantics", "statement": "Under exact arithmetic a feed motion in G94 has feed speed F/60 mm/s (F*25.4/60 in inch mode), and in G93 (inverse time) the planned feed speed makes the motion take 1/F minutes; a traverse has unlimited feed speed.", "quantifier": "every motion block, parser state, F > 0", "why_tests_cant": "Continuous parameters.", "anchors": ["lib/gcode/gcode.cpp: gCode::calcSpeedAndOrDuration"]}
{"id": "C45", "title": "Arc centre and radius are consistent", "statement": "Under exact arithmetic an arc given by R has a centre at distance |R| from both its start and its end point whenever the chord is not longer than 2|R| and start differs from end; an arc given by offsets has its centre at the given offset from the start and the radius is that distance.", "quantifier": "all end points, radii and offsets", "why_tests_cant": "Continuous parameters.", "anchors": ["lib/gcode/gcode.cpp: gCode::calcArcCenterAndRadius"]}
{"id": "C46", "title": "Arc sweep has the commanded rotation direction", "statement": "Clockwise arcs sweep an angle in [-2pi, 0), counter-clockwise arcs in (0, 2pi], and end at the angle of the end point; coincident start and end give a full circle.", "quantifier": "all start and end angles", "why_tests_cant": "Continuous parameters.", "anchors": ["lib/gcode/gcode.cpp: gCode::calcArcAngles"]}
{"id": "C47", "title": "No G-code line can cause out-of-bounds access or undefined conversion", "statement": "Parsing any line in any reachable parser state performs no out-of-bounds array access and no undefined numeric conversion.", "quantifier": "every program", "why_tests_cant": "Memory safety for every input; out-of-bounds reads usually go unnoticed in tests.", "anchors": ["lib/gcode/gcode.cpp: gCode::calcArcCenterAndRadius", "lib/gcode/gcodeblock.cpp: gCodeBlock::getBlockFromString"]}
{"id": "C48", "title": "A dwell does not change the position", "statement": "Executing a dwell (G4) leaves the programmed position unchanged.", "quantifier": "every program", "why_tests_cant": "Needs specific modal history.", "anchors": ["lib/gcode/gcode.cpp: gCode::parseBlock (G4), calcMotion"]}
{"id": "C49", "title": "Every motion the parser makes is announced", "statement": "parseBlock() returns a result announcing a motion exactly when it has produced a motion and advanced its position.", "quantifier": "every block and state", "why_tests_cant": "All blocks and histories.", "anchors": ["lib/gcode/gcode.cpp: gCode::parseBlock"]}
{"id": "C50", "title": "Homing visits the right axes in order and only those with a switch", "statement": "For any machine configuration and any event sequence, homing processes axes in the configured sequence, skipping entries without a limit switch on the homing side, each at most once per sequence entry; start() raises homingStarted if there is at least one such axis and otherwise homingError; homingCompleted is raised only after the last such axis has gone through closed, opened and offset.", "quantifier": "every event sequence and every configuration", "why_tests_cant": "Event interleavings are unbounded.", "anchors": ["lib/maincontroller/homing.cpp: homing::start, handleEvents, nextAxis, selectAxis, enterState"]}
{"id": "C51", "title": "Homing never gets stuck", "statement": "If a homing motion ends without the expected switch event, homing reports homingError (or otherwise makes progress) instead of waiting for ever.", "quantifier": "every event sequence", "why_tests_cant": "Liveness.", "anchors": ["lib/maincontroller/homing.cpp: homingController::handleEvents"]}
{"id": "C52", "title": "Homing moves one axis at a time, towards the switch, away from it, then by the offset", "statement": "Every motion issued by homing moves exactly the axis being homed: in the closing phase towards the switch over the full travel at homing speed, in the opening phase in the opposite direction at slow speed, and after release by the homing offset away from the switch when the offset is positive.", "quantifier": "every configuration and machine position", "why_tests_cant": "All configurations and start positions.", "anchors": ["lib/maincontroller/homing.cpp: homing::enterState", "lib/motion/simplifiedmotion.cpp: simplifiedMotion::set"]}
{"id": "C53", "title": "Limit switch configuration is consistent with the wiring", "statement": "For every axis and side the configured limit switch input is the one whose closed event homing waits for.", "quantifier": "all axes and sides", "why_tests_cant": "Finite, but ties three separate tables in different files together.", "anchors": ["lib_target/cnc3axis/general/machineproperties.h: limitMaxIndex, limitMinIndex", "src/cnc3axis/main.cpp: myInputs", "lib/maincontroller/homing.cpp: homing::selectAxis"]}
{"id": "C54", "title": "Filling the step buffer never drops a step", "statement": "The main loop's fill loop (compute next signals, write, repeat while needsFilling()) never writes into a full buffer, so no computed step is lost.", "quantifier": "every stream of computed steps with timeBefore >= 1 and every interleaving of timer reads", "why_tests_cant": "Requires long runs of dense steps that overflow 256 entries before the minimum time is reached.", "anchors": ["src/cnc3axis/main.cpp: loop", "lib/outputs_stepper_motor/stepbuffer.cpp: stepBuffer::needsFilling, write"]}
{"id": "C55", "title": "Names shown to the user are distinct", "statement": "Different events, states and strategies have different display names, so that the log identifies what happened.", "quantifier": "all enumeration values", "why_tests_cant": "Finite, settled by complete enumeration in the proof.", "anchors": ["lib/event/event.cpp: toString", "lib/motion/motionstrategy.cpp: toString"]}
{"id": "C56", "title": "A byte received while a line is being read is not lost", "statement": "If the receive interrupt occurs at any point during getMessage(), the received byte is appended to the pending bytes exactly as if it had arrived just before or just after the call.", "quantifier": "every interrupt point inside getMessage()", "why_tests_cant": "Needs an interrupt between two particular statements.", "anchors": ["lib/hostinterface/hostinterface.cpp: hostInterface::getMessage", "src/cnc3axis/main.cpp: uart0_status_isr (commented out)"]}
{"id": "C57", "title": "Step commands for axes that do not exist are ignored", "statement": "stepForward(axis) and stepBackward(axis) have no effect when axis is not one of the machine's axes.", "quantifier": "every axis number and every pipeline state", "why_tests_cant": "All axis numbers and states.", "anchors": ["lib/outputs_stepper_motor/stepsignals.cpp: stepSignals::stepForward, stepBackward"]}
{"id": "C58", "title": "G18, G19, M7 and M8 have their standard meaning", "statement": "As in RS274/NGC, G18 selects the plane of Z and X for arcs, G19 that of Y and Z, M7 switches mist and M8 flood coolant.", "quantifier": "every program", "why_tests_cant": "Needs arcs in every plane after every modal history; tests written from the code repeat its convention.", "anchors": ["lib/gcode/gcode.cpp: gCode::setArcPlane, setArcAxisFromPlane, setCoolantMode"]}
{"id": "C59", "title": "An arc is only accepted if its own words define it", "statement": "A G2/G3 block without a centre (I, J, K or R), with an end point not on the circle, or with a radius shorter than half the chord is reported as an error; an omitted offset counts as zero.", "quantifier": "every program and every parser state", "why_tests_cant": "Depends on values left behind by earlier blocks.", "anchors": ["lib/gcode/gcode.cpp: gCode::calcArcCenterAndRadius, parseBlock"]}
{"id": "C60", "title": "Motions carry the programmed spindle and coolant state", "statement": "Every motion made by the parser has spindle speed and direction and coolant flags of the modal state in force at the end of its block: speed 0 with M5, otherwise the S value with the direction of M3/M4.", "quantifier": "every program, every block, every arithmetic", "why_tests_cant": "Modal state has unbounded history.", "anchors": ["lib/gcode/gcode.cpp: gCode::calcPeripherals"]}
{"id": "C61", "title": "Work offsets can be set from G-code", "statement": "After G10 L2 Pn with axis words the offsets of coordinate system n have these values and absolute moves use them.", "quantifier": "every program", "why_tests_cant": "No test exercises G10; that no program whatsoever can change an offset needs induction over programs.", "anchors": ["lib/gcode/gcode.cpp: gCode::parseBlock (G10)", "lib/gcode/gcode.cpp: theState.WCSorigin"]}
{"id": "C62", "title": "A rejected block has no effect", "statement": "If a block is rejected (result Error) the position, the modal state and the remembered parameter values are those before the block.", "quantifier": "every program, every rejected block", "why_tests_cant": "All histories before the rejected block.", "anchors": ["lib/gcode/gcode.cpp: gCode::parseBlock"]}
{"id": "C63", "title": "Homing issues a motion only when the machine is at rest", "statement": "Whenever homing issues a motion, the previous homing motion has ended and the motion queue is empty.", "quantifier": "every interleaving of sampling, events, timer interrupts and buffer filling", "why_tests_cant": "Depends on when switch events arrive relative to the end of motions; all interleavings.", "anchors": ["lib/maincontroller/homing.cpp: homingController::handleEvents", "lib/motion/motionctrl.cpp: motionCtrl::calcNextStepperMotorSignals", "src/cnc3axis/main.cpp: loop"]}
{"id": "C64", "title": "A whole job runs along its programmed path and ends exactly at its target", "statement": "Queue motions, start, keep fetching step records and append further motions while running: at every moment each axis (step counter and pulses on the pins) is within 0.55 step, plus a tiny bounded amount per motion, of the point where the chained paths are at that time, each travelled from rest to rest within all axis limits and the feed, and no slower than necessary; the events announce start, each completion and the end; after the total time the controller is at rest again, ready for the next job; and after any number of jobs, each with its own feed override, a target on the step grid is met to the step.", "quantifier": "every sequence and number of executable lines, arcs and helices chained end to end, every number of jobs one after the other, every override, every moment of appending, every record size limit, no motion longer than 20 hours, every machine whose axes step at most once per tick (pulses: once per ten ticks)", "why_tests_cant": "Composition of planning, sampling, step generation and record output over runs of unbounded length; tests check single points of single motions.", "anchors": ["lib/motion/motionctrl.cpp: motionCtrl::append, start, optimize, calcNextStepperMotorSignals, move", "lib/motion/motionitem.cpp: motion::optimize", "lib/outputs_stepper_motor/stepsignals.cpp: stepSignals::output"]}
{"id": "C65", "title": "A G-code program is drawn as written, from its text to the step pins", "statement": "Read a program of lines and arcs line by line, pass every motion the interpreter announces to the controller, start, and keep fetching step records: the machine travels, one after the other, exactly the paths the words of the lines ask for (straight between the programmed points, or the arc in the active plane around the given centre or with the given radius, in the right direction), each from rest to rest within the limits and the programmed feed, and comes to rest where the interpreter says it is; a final position on the step grid is met to the step.", "quantifier": "every program (text of any length, any modal state) whose motions are lines of nonzero length and arcs that exist, with a feed in force and within the counters' range, without G53; every way of passing the motions on", "why_tests_cant": "Composes the interpreter, the planner, the sampler and the step generator over all programs; tests never connect the interpreter to the motion controller.", "anchors": ["lib/gcode/gcode.cpp: gCode::getBlock, parseBlock", "lib/motion/motionctrl.cpp: motionCtrl::append, start, calcNextStepperMotorSignals", "lib/outputs_stepper_motor/stepsignals.cpp: stepSignals::output"]}
{"id": "C66", "title": "In single precision the motion clock is accurate and every tick advances it", "statement": "Computed in single precision, the time used to sample a motion is start offset plus ticks times tick period to within a 2^22th part, never runs backwards, and every tick of the output timer advances it.", "quantifier": "every tick period between a microsecond and a second, every start offset below a tick, every number of ticks until the 32-bit index wraps", "why_tests_cant": "Four billion tick counts and all float periods and offsets; tests sample a handful of indices.", "anchors": ["lib/motion/sampletime.cpp: sampleTime::next, initialize, initializeNextMotion"]}
{"id": "C67", "title": "In single precision an axis still follows its commanded position within 0.55 step and does not chatter", "statement": "With positions, steps per mm, product, hysteresis, rounding and comparison all computed in single precision, an axis commanded by floats that move at most one step per tick stays within 0.55 step plus the rounding of the decision (at most 1/32 step up to 2^18 steps) of the exact value of the commanded float times steps per mm; a forward and a backward step are never due together; and a commanded position moving within less than 0.1 step minus twice the rounding never makes the axis step in both directions. No conversion is undefined.", "quantifier": "every list of finite floats up to 2^20 steps, every float steps-per-mm, every starting position", "why_tests_cant": "The point of the hysteresis is to absorb float rounding; tests use a few exactly representable positions.", "anchors": ["lib/motion/motionctrl.cpp: motionCtrl::needStepForward, needStepBackward, moveAxis", "lib_target/cnc3axis/general/machineproperties.h: hysteresis"]}
{"id": "C68", "title": "The step pins follow the commands in real time as long as the main loop is never late by more than the configured lead time", "statement": "If the main loop fills the step buffer at least once per lead time (25 ms), every timer tick shows on the pins exactly the level the motion controller computed for it, a constant start-up delay later, and no error is raised.", "quantifier": "every sequence of step commands of moderate density, every interleaving of timer ticks and passes of the fill loop within the lead time", "why_tests_cant": "Depends on the interleaving of interrupts and the main loop over arbitrarily long runs; on the target a late loop shows only as a stalled machine.", "anchors": ["lib/outputs_stepper_motor/stepbuffer.cpp: stepBuffer::read, write, needsFilling", "src/cnc3axis/main.cpp: loop, pit1_isr", "lib_target/cnc3axis/general/machineproperties.h: stepBuffer constants", "lib_target/cnc3axis/outputs/timers.cpp"]}
{"id": "C69", "title": "The step buffer is large enough for the machine's full speed", "statement": "While any motion within the machine's speed limits is executed and the main loop keeps up, the step buffer never overflows and no record is lost.", "quantifier": "every motion of up to three axes within the speed limits, every timing of the fill loop", "why_tests_cant": "Overflow needs seconds of coordinated three-axis motion at particular speed ratios; no test runs the controller against the buffer.", "anchors": ["lib/outputs_stepper_motor/stepbuffer.cpp: stepBuffer::write, needsFilling", "lib_target/cnc3axis/general/machineproperties.h: stepBufferLength, vMax, stepsPerMm", "src/cnc3axis/main.cpp: loop"]}
{"id": "C70", "title": "Pressing the emergency stop or feed hold button stops the machine", "statement": "Once the emergency stop button (or feed hold, or the probe) has been recognised as pressed and all pending events have been handled, the machine is stopped or stopping, and no further motion is started while the button is held.", "quantifier": "every state of the running firmware, every interleaving of sampling, events, interrupts and buffer filling", "why_tests_cant": "A safety property over all histories; no test connects the inputs to the motion controller.", "anchors": ["src/cnc3axis/main.cpp: loop, myInputs", "lib/maincontroller/homing.cpp: homingController::handleEvents", "lib/motion/motionctrl.cpp: motionCtrl::stop, hold"]}
{"id": "C71", "title": "A limit switch that closes stops the motion towards it", "statement": "When a limit switch closes and its event has been handled, the motion in progress is stopped.", "quantifier": "every limit switch, every state of the running firmware, every interleaving", "why_tests_cant": "A safety property over all histories; needs the whole program.", "anchors": ["src/cnc3axis/main.cpp: loop, myInputs", "lib/maincontroller/homing.cpp: homingController::handleEvents", "lib/motion/motionctrl.cpp: motionCtrl::stop"]}
{"id": "C72", "title": "Homing establishes the machine position", "statement": "When homing has completed, the machine position is the home position, whatever it was at power-up.", "quantifier": "every homing run, every starting position, every interleaving", "why_tests_cant": "Requires complete homing runs of the whole program with simulated switches; the unit tests of homing only look at its states.", "anchors": ["lib/maincontroller/homing.cpp: homingController::handleEvents, homingController::enterState", "lib/motion/motionctrl.cpp: motionCtrl::resetMachinePosition, motionCtrl::getMachinePosition", "src/cnc3axis/main.cpp: setup"]}
{"id": "C73", "title": "A program that is stopped can be resumed and still ends where it should", "statement": "A stop request while a program runs brings the machine to rest on the programmed path, without passing the end of the motion and within the machine's limits; a later start continues from there, the rest of the program is executed along its path and the machine ends at the programmed position.", "quantifier": "every program, every moment of the stop request, every length of the pause", "why_tests_cant": "The stop can come at any instant of any motion profile; the unit tests stop a few motions halfway.", "anchors": ["lib/motion/motionctrl.cpp: motionCtrl::stop, motionCtrl::start, motionCtrl::optimize", "lib/motion/motionitem.cpp: motion::optimize"]}
{"id": "C74", "title": "A slow program is drawn by the pins in real time", "statement": "For a program whose axes move slowly enough (at most as many steps per second as the step buffer can hold ahead), read from its text and executed by a main loop that keeps coming round, the step buffer never runs empty or overflows, and at every tick of the output timer the pulses that have appeared on each axis are within 1.55 steps (plus a tiny drift per motion) of where the program is a fixed 15.9 ms earlier; when the program is over the pulses amount to its final position.", "quantifier": "every program text, every schedule of the main loop and the timer interrupt that meets the conditions, every moment", "why_tests_cant": "It links interpreter, planner, step generator, buffer and interrupt over all programs and all timings; no test runs them together, and no test measures the pins in real time.", "anchors": ["lib/gcode/gcode.cpp: gCode::getBlock, gCode::parseBlock", "lib/motion/motionctrl.cpp: motionCtrl::calcNextStepperMotorSignals", "lib/outputs_stepper_motor/stepbuffer.cpp: stepBuffer::write, stepBuffer::read, needsFilling", "src/cnc3axis/main.cpp: loop, pit1_isr"]}
{"id": "C75", "title": "Bytes queued for the host while the transmitter is busy are all sent, once and in order", "statement": "When a message is queued while earlier bytes are being transmitted, the bytes on the wire are the earlier bytes followed by the message, none lost, none added, whenever the transmit interrupts come; a message that does not fit is left out as a whole.", "quantifier": "every content of the transmit buffer, every message, every moment of every transmit interrupt between two instructions of the call", "why_tests_cant": "The failure needs an interrupt between two particular instructions; unit tests call the function without interrupts.", "anchors": ["lib/hostinterface/hostinterface.cpp: hostInterface::sendMessage", "lib_target/cnc3axis/hostinterface/hostinterface_uart.cpp: txReady, sendMessage"]}
{"id": "C76", "title": "Speed profiles survive single precision", "statement": "A motion from standstill to standstill, planned and sampled with the single precision floats of the firmware, stays within a 65536th of its length of a motion that respects the speed, acceleration and deceleration limits and covers the length asked for, at every moment; its duration is right to within a 65536th, no operation overflows or produces a NaN, and it ends within a 32768th of its length of its end; it is not needlessly slow.", "quantifier": "every length, feed, override, acceleration, deceleration and jerk between 2^-14 and 2^20 with moderate ratios, every sample time", "why_tests_cant": "Rounding errors depend on every bit of five inputs and of the time; tests compare a handful of profiles with tolerances chosen by hand.", "anchors": ["lib/motion/motionitem.cpp: motion::optimize, motion::s, motion::vTri", "lib/motion/speedprofileaccdec.cpp: calculate, s"]}
{"id": "C77", "title": "In single precision a queue of straight motions is followed to the step", "statement": "Up to 32 straight motions, each beginning where the one before ends, are handed over, queued and started; with all planning, timing and positions computed in the floats of the firmware, the controller executes them one after the other from standstill to standstill within their limits. At every tick the counted position of each axis is within a stated distance (below one step for usual motions) of where an exact execution would be at that time; all motions complete in time, the controller is then ready for more, and an axis whose path ends on a whole step ends on exactly that step.", "quantifier": "every machine and tick with moderate values, every list of at most 32 straight motions that are long enough for a few ticks and slow enough for one step per tick, every tick of the run", "why_tests_cant": "Rounding errors of millions of samples, of the clock, of the left-over of each motion and of the positions interact; tests run a handful of short motions.", "anchors": ["lib/motion/motionctrl.cpp: motionCtrl::append, start, optimize, calcNextStepperMotorSignals", "lib/motion/sampletime.cpp: next, initializeNextMotion", "lib/motion/motionitem.cpp: motion::set, motion::optimize, motion::s, motion::getPosition"]}
{"id": "C78", "title": "In single precision straight motions respect the limits of every axis", "statement": "For a straight motion, the acceleration, deceleration and top speed computed in single precision keep every axis within the limits configured for that axis, to one part in 250000, and the motion within its feed times the override; they are not lower than that: for each there is an axis, or the feed, that is used to its limit. An axis that does not move imposes no limit.", "quantifier": "every machine with moderate limits, every straight motion (also along one or two axes only), every feed including the unlimited feed of a traverse, every override between 0.001 and 1000", "why_tests_cant": "Directions are quotients of doubles rounded to floats, and limits are floats divided by them, including divisions by zero; tests look at a few round values.", "anchors": ["lib/motion/motionitem.cpp: motion::set", "lib/motion/motionspeedprofile.cpp: set", "lib/motion/motiontrajectory.cpp: set"]}
{"id": "C79", "title": "From the text of a program to the counted steps in the arithmetic of the target", "statement": "The numbers in the text of a program mean their decimal values up to a rounding to double precision, the coordinates and feeds made of them are right up to a few roundings, and a program of at most 32 straight motions, read in double precision and executed in single precision, is followed: the controller goes straight from each programmed position to the next, with the programmed feed and within the limits of every axis, is at every tick where it should be at that time to within a step, and ends idle at the last programmed position, on exactly the programmed step where this is a whole number of steps.", "quantifier": "every text (with comments, blank lines, modal words and rejected lines) whose motions are straight and within the stated bounds, every machine and tick with moderate values, every state of the parser a program can lead to", "why_tests_cant": "Links the parser's doubles, the planner's and the clock's floats and the step counters over all texts; tests look at each part alone with a few round numbers.", "anchors": ["lib/gcode/gcode.cpp: gCode::getBlock, gCode::parseBlock, gCode::calcMotion", "lib/motion/motionctrl.cpp: motionCtrl::append, start, optimize, calcNextStepperMotorSignals", "lib/motion/motionitem.cpp: motion::set, motion::optimize"]}
{"id": "C80", "title": "In single precision circular and helical motions are followed to the step and within the limits", "statement": "Up to 32 straight, circular and helical motions in any order, each beginning where the one before ends, are queued and started; with planning, timing, angles and positions computed in the floats of the firmware, every axis is at every tick within a stated distance (below one step for usual motions) of where an exact execution along the lines and arcs would be at that time, and the controller ends idle at the end of the last one. The limits computed for a circular or helical motion keep every axis within its own, keep the acceleration towards the centre within the limits of both axes of the arc, and are no lower than that.", "quantifier": "every machine and tick with moderate values, every library whose cosine and sine are accurate to 2^-23 in the range used, every radius, centre, start angle and turn (up to some seven turns), every third-axis way, every tick of the run", "why_tests_cant": "Rounding errors of the angle grow with the turn and are multiplied by the radius; tests look at a few samples of a quarter circle.", "anchors": ["lib/motion/motionitem.cpp: motion::set, motion::limit, motion::getPosition", "lib/motion/motiontrajectory.cpp: set", "lib/motion/motionctrl.cpp: motionCtrl::append, start, optimize, calcNextStepperMotorSignals"]}
{"id": "C81", "title": "Programs with arcs in the arithmetic of the target, from the text to the counted steps", "statement": "For a circular or helical motion with its centre given by offsets, centre, radius and feed are those of the text up to a few roundings. A program of at most 32 straight, circular and helical motions, read in double precision and executed in single precision, is followed: the controller goes from each programmed position to the next, straight or round the arc asked for (the right way round, a whole turn if start and end are the same), with the programmed feed and within the limits of every axis, is at every tick where it should be at that time to within a step, and ends idle at the last programmed position, on exactly the programmed step where this is a whole number of steps.", "quantifier": "every text whose motions are straight, circular or helical and within the stated bounds, every library whose sine, cosine and arc tangent are accurate to a few units in the last place, every machine and tick with moderate values, every state of the parser a program can lead to", "why_tests_cant": "Start angle, turn and length come from arc tangents and a comparison with zero in doubles, are rounded to floats and multiplied with the radius; tests compare a few quarter circles with hand-chosen tolerances.", "anchors": ["lib/gcode/gcode.cpp: gCode::getBlock, gCode::parseBlock, gCode::calcMotion, gCode::calcArcCenterAndRadius, gCode::calcArcAngles, gCode::calcTrajectoryLength", "lib/motion/motionctrl.cpp: motionCtrl::append, start, optimize, calcNextStepperMotorSignals", "lib/motion/motionitem.cpp: motion::set, motion::getPosition"]}
{"id": "C82", "title": "Programs of any length handed over while they are executed, in the arithmetic of the target", "statement": "A program of any length, with straight, circular and helical motions, is executed the same whether its motions are queued at once or handed over one by one while the controller is running: the first ones (at most 32) are queued and started, each further one is appended while the controller runs and has room. After every call the counted position is, to within a step, the one due along the whole program at the time of the signals computed so far, with the programmed feeds and within the limits of every axis; errors do not add up with the number of motions; after enough calls the controller is idle at the last programmed position, on exactly the programmed step where this is a whole number of steps.", "quantifier": "every program with motions within the stated bounds, without a limit on their number, every way of interleaving the appending of motions with the computation of signals in which the controller is running and has room, every library with accurate sine, cosine and arc tangent, every machine and tick with moderate values", "why_tests_cant": "Long jobs could lose position by rounding at every join, or depend on when motions are appended; tests run a few motions queued in advance.", "anchors": ["lib/motion/motionctrl.cpp: motionCtrl::append, start, optimize, calcNextStepperMotorSignals", "lib/motion/motionitem.cpp: motion::set, motion::getPosition", "lib/gcode/gcode.cpp: gCode::getBlock, gCode::parseBlock, gCode::calcMotion"]}
{"id": "C83", "title": "Program stop and program end words stop the program", "statement": "After a line with M0, M1, M2, M30 or M60 no motion of a later line is handed over until the program is resumed or started again.", "quantifier": "every program, every line of it that consists of such words, every state of the parser and every continuation", "why_tests_cant": "Whether later motions are held back depends on all lines before and after; tests parse single lines.", "anchors": ["lib/gcode/gcode.cpp: gCode::parseBlock"]}
{"id": "C84", "title": "Every feed motion has a feed rate of its own", "statement": "A feed motion (straight or arc, named in the block or continued from an earlier one) is accepted only with a positive feed rate, and in inverse time mode (G93) only if the block itself gives one; otherwise the block is rejected and makes no motion.", "quantifier": "every program and every block with or without motion, axis, F, G93 and G94 words", "why_tests_cant": "A stale feed rate depends on the history of modes and F words; tests look at single G1 blocks.", "anchors": ["lib/gcode/gcode.cpp: gCode::parseBlock, gCode::setFeedrateValue, gCode::setFeedrateMode, gCode::calcSpeedAndOrDuration"]}
{"id": "C85", "title": "M49 switches the overrides off", "statement": "After M49 motions are executed at the programmed feed rate whatever the feed override is, until M48 switches the overrides on again.", "quantifier": "every program with M48 and M49 anywhere in it, every feed override", "why_tests_cant": "Needs that no later motion depends on the override; tests only look at the stored modal state.", "anchors": ["lib/gcode/gcode.cpp: gCode::setOverrideMode, gCode::calcMotion", "lib/motion/motionitem.cpp: motion::optimize", "lib/motion/overrides.h: overrides"]}
{"id": "C86", "title": "No axis is accelerated or decelerated beyond its limit", "statement": "At every moment of a planned motion, straight, circular or helical, the acceleration of each axis (the second derivative of its position with respect to time) is within the acceleration and deceleration limits of that axis.", "quantifier": "every machine, path, speed at either end, feed, override and strategy, and every moment at which the axis has an acceleration", "why_tests_cant": "Quantifies over a continuum of moments and over all paths; tests sample speeds along the path, not accelerations of axes.", "anchors": ["lib/motion/motionitem.cpp: motion::limit, motion::optimize, motion::getPosition", "lib/motion/speedprofileaccdec.cpp: calculate"]}
{"id": "C87", "title": "Every motion begins and ends at rest", "statement": "Corners are never taken at speed: whatever has been appended, started, stopped, resumed, discarded or overridden before, every motion in the queue is planned to end with speed zero, and every motion but the first in the queue to begin with speed zero; only the first, which may be under way, continues with the speed it has.", "quantifier": "every history of append, start, stop, flush, override, position reset and signal computation in which stop is called with motions queued, every machine and every arithmetic", "why_tests_cant": "Plans are made and remade by every start and stop in an order that depends on the number of queued motions and the state; tests look at single pairs of motions.", "anchors": ["lib/motion/motionctrl.cpp: motionCtrl::append, start, stop, optimize, optimizePair, vJunction", "lib/motion/motionitem.cpp: motion::set, motion::optimize", "lib/motion/motionspeedprofile.cpp: motionSpeedProfile::setSpeed"]}
{"id": "C88", "title": "After a stop the rest of the program can be discarded and work continued", "statement": "When a program has been stopped and what is left of it discarded, the next programmed motion starts from where the machine stands: no axis jumps, and the counted position remains the one given by the pulses sent.", "quantifier": "every program, every moment of the stop, every later program", "why_tests_cant": "Parser and controller each keep a position; whether they agree depends on the whole history before the stop.", "anchors": ["lib/motion/motionctrl.cpp: motionCtrl::stop, motionCtrl::flushMotionBuffer, calcNextStepperMotorSignals", "lib/gcode/gcode.cpp: gCode::updatePosition, gCode::parseBlock"]}
{"id": "C89", "title": "Arcs given by their radius are the arcs asked for, in the arithmetic of the target", "statement": "A block with G2 or G3, an end point and a radius word, in any plane and unit, makes a motion along the arc of this radius from the current position to the end point, turning in the direction asked for: the short arc for a positive, the long arc for a negative radius. This holds whenever such an arc exists, that is whenever the end point is at most two radii away.", "quantifier": "every program before the block, every start, end and radius for which the arc exists, both directions, every plane and unit", "why_tests_cant": "The centre comes from a root of a difference of squares that rounding can turn negative; which inputs are affected depends on the last bits of all coordinates. Tests use a few whole numbers.", "anchors": ["lib/gcode/gcode.cpp: gCode::calcArcCenterAndRadius, gCode::calcNextPosition", "lib/motion/motionitem.cpp: motion::set, motion::getPosition"]}
{"id": "C90", "title": "Spindle and coolant are switched as programmed", "statement": "The spindle speed, the spindle direction and the coolant programmed for a motion (M3, M4, M5, S, M7, M8, M9) are in effect on the machine while the motion is executed: programs that differ in them have different effects.", "quantifier": "every history of the controller, every machine and arithmetic, every two programs that differ only in these settings", "why_tests_cant": "A test can check that the settings are stored; that nothing ever acts on them is a statement about all histories.", "anchors": ["lib/motion/motionitem.cpp: motion::set", "lib/motion/motionperipherals.cpp: motionPeripherals::set", "lib/motion/motionctrl.cpp: motionCtrl::append, motionCtrl::calcNextStepperMotorSignals"]}
{"id": "C91", "title": "Earlier motions leave no trace", "statement": "Once all motions are completed or discarded, the controller does with whatever it is given next exactly what a freshly started controller at the same position would do: same pulses, same positions, same events, same state.", "quantifier": "every history of append, start, stop, flush, override, position reset and signal computation in which stop is called with motions queued, and every further such history", "why_tests_cant": "The slots of the motion queue and the clock are reused and partly overwritten; which old values survive depends on the history. Tests start from a new controller.", "anchors": ["lib/motion/motionitem.cpp: motion::set, motion::optimize", "lib/motion/motionspeedprofile.cpp: motionSpeedProfile::setSpeed, setDuration", "lib/motion/motionbuffer.cpp: motionBuffer", "lib/motion/motionctrl.cpp: motionCtrl::calcNextStepperMotorSignals, motionCtrl::flushMotionBuffer"]}
{"id": "C92", "title": "Motions start from the reported position without a jump and go where asked, in the arithmetic of the target", "statement": "The position in mm the controller reports is the counted number of steps over the steps per mm, to within one part in sixteen million; an axis sent to its reported position makes no step. A homing motion begun from the reported position goes along its axis by the distance and at the speed asked for, with the acceleration and deceleration of that axis; at every tick the counted steps are where they should be at that time, and at the end the axis has gone the steps asked for while the others are where they were.", "quantifier": "every history that leaves the controller stopped, every position up to a million steps, every machine, axis, distance, speed and override within stated bounds, in single precision", "why_tests_cant": "The position goes from steps to mm in single precision, to double precision, back to single precision and to steps; the rounding at each stage depends on the position. Tests start at zero.", "anchors": ["lib/motion/motionctrl.cpp: motionCtrl::getMachinePosition, motionCtrl::flushMotionBuffer, motionCtrl::calcNextStepperMotorSignals", "lib/maincontroller/homing.cpp: homing::handleEvents", "lib/motion/simplifiedmotion.cpp: simplifiedMotion::set"]}
{"id": "C93", "title": "A change of the feed override takes effect and only affects motions with a feed", "statement": "When the feed override is changed while a program runs, the motion in progress and the queued motions go on at their feed times the new override, within the limits of the machine. An override of zero holds the machine and any later positive value lets it go on. Rapid motions do not depend on the override.", "quantifier": "every history of the controller, every machine and arithmetic, every new value of the override", "why_tests_cant": "Tests plan a single motion with a given override; that a change is noticed depends on when motions are planned again in all histories.", "anchors": ["lib/motion/motionctrl.cpp: motionCtrl::append, motionCtrl::start, motionCtrl::optimize, motionCtrl::calcNextStepperMotorSignals", "lib/motion/motionitem.cpp: motion::optimize", "lib/motion/overrides.h: overrides"]}
{"id": "C94", "title": "A motion tells where the machine is after a given distance", "statement": "For any distance along a motion the position it reports is the place on the programmed path on every axis, in mm, and in steps the number of steps at which the controller rests there, whatever the point held before the call.", "quantifier": "every motion (straight, circular, helical), every distance along it, every machine, every previous content of the point, in exact and in single precision arithmetic", "why_tests_cant": "Tests use new points, motions that start at the origin and only look at the mm; which places are rounded to the wrong step depends on the last bit of the product.", "anchors": ["lib/motion/motionitem.cpp: motion::positionFromDistance, motion::isMoving", "lib/general/point.h: point"]}
{"id": "C95", "title": "No axis is sent beyond its travel", "statement": "Each axis has a length of travel (sMax). A program that sends an axis further than that, from where it is or by its motions together, is rejected with an error and the axis is not moved beyond its travel; a program whose positions are all within a box keeps every axis in this box at every moment.", "quantifier": "every program of motions, every box, every machine within stated bounds, every tick of the run, in the arithmetic of the target", "why_tests_cant": "Quantifies over all programs and all moments; tests look at the end points of single motions and never at the travel.", "anchors": ["lib/gcode/gcode.cpp: gCode::parseBlock, gCode::calcNextPosition", "lib/motion/motionctrl.cpp: motionCtrl::append, motionCtrl::calcNextStepperMotorSignals", "lib_target/cnc3axis/general/machineproperties.h: machineProperties::motors.sMax"]}
{"id": "C96", "title": "Slow motions are stepped with separate pulses", "statement": "While motions are run that are slow compared with the tick, no axis is stepped at two consecutive ticks, neither within a motion nor from one motion to the next, so that every step reaches its motor as a pulse of its own.", "quantifier": "every sequence of straight motions, arcs and helices within stated bounds of speed, size and rounding, queued at once or handed over while others are executed, every machine, every tick from the start on, in the arithmetic of the target", "why_tests_cant": "A step is decided by comparing a rounded position with the counter; whether rounding or the change from one motion to the next can produce two steps in a row depends on every tick of every run. Tests sample a few.", "anchors": ["lib/motion/motionctrl.cpp: motionCtrl::calcNextStepperMotorSignals, motionCtrl::needStepForward, motionCtrl::needStepBackward", "lib/outputs_stepper_motor/stepsignals.cpp: stepSignals"]}
