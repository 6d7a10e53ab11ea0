(** Events, inputs, host interface: C01-C09, C56. *)
Require Import List Arith NArith ZArith Bool.
From Verif Require Import Base EventModel EventSpec EventProofs InputModel InputSpec InputProofs
  HostModel HostSpec HostProofs HostRaceProofs.
Import ListNotations.
Open Scope N_scope.

(** C01 *)
Theorem C01_event_fifo : forall b ops, length (eb_arr b) = 16%nat -> no_init ops ->
  exists rest,
    accepted 0 ops = delivered (snd (eb_run (eb_initialize b) ops)) ops ++ rest /\
    (length rest <= 16)%nat /\
    snd (eb_run (fst (eb_run (eb_initialize b) ops)) (repeat EbPop (length rest))) = map OutEvent rest /\
    eb_hasEvents (fst (eb_run (eb_initialize b) ops)) = negb (match rest with [] => true | _ => false end).
Proof. exact event_fifo_lemma. Qed.
Print Assumptions C01_event_fifo.

(** C01, C02: every observable result, including getLastError and getLevelMax,
    is that of the list specification. *)
Theorem C02_event_errors_and_highwater : forall b ops, length (eb_arr b) = 16%nat ->
  snd (eb_run (eb_initialize b) ops) = snd (q_run q_empty ops).
Proof. exact eventbuffer_refines_queue. Qed.
Print Assumptions C02_event_errors_and_highwater.

(** C03: silence until the new level wins by five, then exactly one event. *)
Theorem C03_debounce_fires : forall d b l x,
  (forall l1 l2, l = l1 ++ l2 -> ~ wins (negb b) l1) ->
  (snd (db_run (db_initialize d b) l) = repeat ev_none (length l) /\
   db_getState (fst (db_run (db_initialize d b) l)) = b) /\
  (wins (negb b) (l ++ [x]) ->
   db_run (db_initialize d b) (l ++ [x]) =
     (db_initialize d (negb b),
      repeat ev_none (length l) ++ [if b then db_onOpen d else db_onClose d])).
Proof. exact debounce_fires_lemma. Qed.
Print Assumptions C03_debounce_fires.

(** C04 *)
Theorem C04_debounce_settles : forall d b0 hist b n,
  let d1 := fst (db_run (db_initialize d b0) hist) in
  db_getState (fst (db_run d1 (repeat b 5))) = b /\
  db_run (fst (db_run d1 (repeat b 5))) (repeat b n) =
    (fst (db_run d1 (repeat b 5)), repeat ev_none n).
Proof. exact db_settles_lemma. Qed.
Print Assumptions C04_debounce_settles.

Theorem C04_debounce_silent_at_initial_level : forall d b n,
  db_run (db_initialize d b) (repeat b n) = (db_initialize d b, repeat ev_none n).
Proof. exact debounce_silent_lemma. Qed.
Print Assumptions C04_debounce_silent_at_initial_level.

(** C05 *)
Theorem C05_events_alternate : forall d b0 hist,
  db_onOpen d <> ev_none -> db_onClose d <> ev_none -> db_onOpen d <> db_onClose d ->
  let '(d1, es) := db_run (db_initialize d b0) hist in
  (if b0 then alternates (db_onOpen d) (db_onClose d) (changes es)
   else alternates (db_onClose d) (db_onOpen d) (changes es)) /\
  db_isClosed d1 = negb (db_isOpen d1) /\
  (changes es = [] -> db_isOpen d1 = b0) /\
  (changes es <> [] ->
   (db_isClosed d1 = true <-> last (changes es) ev_none = db_onOpen d) /\
   (db_isOpen d1 = true <-> last (changes es) ev_none = db_onClose d)).
Proof. exact db_last_event_lemma. Qed.
Print Assumptions C05_events_alternate.

Theorem C05_wiring : forall d b0 hist, In d myInputs ->
  let '(d1, es) := db_run (db_initialize d b0) hist in
  changes es <> [] -> db_isClosed d1 = means_closed (last (changes es) ev_none).
Proof. exact wiring_lemma. Qed.
Print Assumptions C05_wiring.

(** C06 *)
Theorem C06_input_pin : forall gpioD gpioE gpioA i,
  inputs_get (inputs_sample gpioD gpioE gpioA) i =
  if i <? 12 then
    let (p, n) := pin_of i in
    match p with
    | PortA => N.testbit gpioA n | PortD => N.testbit gpioD n | PortE => N.testbit gpioE n
    end
  else false.
Proof. exact input_pin_lemma. Qed.
Print Assumptions C06_input_pin.

Theorem C06_pins_distinct : forall i j, i < 12 -> j < 12 -> pin_of i = pin_of j -> i = j.
Proof. exact pin_of_inj. Qed.
Print Assumptions C06_pins_distinct.

(** C07 *)
Theorem C07_rx_roundtrip : forall h ops,
  length (rx_arr h) = 256%nat -> length (tx_arr h) = 256%nat ->
  never_full (mkHS [] []) ops ->
  let '(h', xs) := host_run (host_initialize h) ops in
  exists pending,
    received ops = concat (map body (msgs xs)) ++ pending /\
    (length pending <= 256)%nat /\
    Forall is_line (msgs xs) /\
    (hasMessage h' = true <-> In LF pending).
Proof. exact rx_roundtrip_lemma. Qed.
Print Assumptions C07_rx_roundtrip.

Theorem C07_rx_progress : forall h ops,
  length (rx_arr h) = 256%nat -> length (tx_arr h) = 256%nat ->
  let h' := fst (host_run (host_initialize h) ops) in
  hasMessage h' = true ->
  exists m, snd (host_step h' HPoll) = HMsg m /\ is_line m /\ (length m <= 257)%nat.
Proof. exact rx_progress_lemma. Qed.
Print Assumptions C07_rx_progress.

(** All observable behaviour of the interface is that of two byte lists. *)
Theorem C07_C09_host_refines : forall h ops,
  length (rx_arr h) = 256%nat -> length (tx_arr h) = 256%nat ->
  snd (host_run (host_initialize h) ops) = snd (hs_run (mkHS [] []) ops).
Proof. exact host_refines_lemma. Qed.
Print Assumptions C07_C09_host_refines.

(** C08: refuted.  After 256 bytes without newline nothing the host sends ever
    produces a message again. *)
Theorem C08_rx_recovers_refuted :
  exists received_so_far, forall later,
  msgs (snd (host_run (fst (host_run (host_initialize host_zero) received_so_far)) later)) = [].
Proof. exact rx_recovers_refuted_lemma. Qed.
Print Assumptions C08_rx_recovers_refuted.

(** C09 *)
Theorem C09_tx_atomic : forall h ops,
  length (rx_arr h) = 256%nat -> length (tx_arr h) = 256%nat ->
  let '(h', xs) := host_run (host_initialize h) ops in
  exists queued,
    accepted_tx 0 ops = wire xs ++ queued /\ (length queued <= 256)%nat /\
    snd (host_run h' (repeat HTx (length queued))) = map HByte queued.
Proof. exact tx_lemma. Qed.
Print Assumptions C09_tx_atomic.

(** C09: the transmit interrupt comes to rest: after more interrupts than bytes
    can be queued it is disabled. *)
Theorem C09_tx_rests : forall h ops,
  length (rx_arr h) = 256%nat -> length (tx_arr h) = 256%nat ->
  let '(h', xs) := host_run (host_initialize h) ops in
  forall n, (256 < n)%nat -> tx_tie (fst (host_run h' (repeat HTx n))) = false.
Proof. exact tx_rest_lemma. Qed.
Print Assumptions C09_tx_rests.

(** C56: refuted.  A byte ('B' = 66) received while getMessage is copying a line
    ("A\n") is lost and a zero byte appears in its place. *)
Theorem C56_rx_interrupt_during_read_refuted :
  exists schedule,
  let g := g_run (g_start [65; LF] 1) schedule in
  In (GIrq 66) schedule /\ g_pc g = GDone /\ g_dest g = [65; LF; 0] /\
  contents 0 (g_arr g) 256 (g_head g) (g_level g) = [0].
Proof. exact rx_race_refuted_lemma. Qed.
Print Assumptions C56_rx_interrupt_during_read_refuted.

(** C56, what is true: when no byte arrives while the main program is updating the
    head and the number of bytes, or the number of lines, the caller gets exactly the
    first line, and the rest of the buffer, followed by everything that arrived in the
    meantime, stays waiting. *)
Theorem C56_rx_masked : forall g schedule line rest,
  length (g_arr g) = 256%nat -> g_head g < 256 -> g_level g <= 256 ->
  g_pc g = G19 -> g_dest g = [] ->
  g_lines g = N.of_nat (count_occ N.eq_dec (g_waiting g) LF) ->
  first_line (g_waiting g) = Some (line, rest) ->
  g_masked g schedule ->
  (length (g_waiting g) + length (g_arrivals schedule) <= 256)%nat ->
  (7 * length line + 2 <= g_mains schedule)%nat ->
  let g' := g_run g schedule in
  g_pc g' = GDone /\ g_dest g' = line ++ [0] /\
  g_waiting g' = rest ++ g_arrivals schedule /\
  g_lines g' = N.of_nat (count_occ N.eq_dec (g_waiting g') LF).
Proof. exact rx_whole_lemma. Qed.
Print Assumptions C56_rx_masked.
Example C56_masked_hypotheses :
  length (g_arr rx_w) = 256%nat /\ g_head rx_w < 256 /\ g_level rx_w <= 256 /\
  g_pc rx_w = G19 /\ g_dest rx_w = [] /\
  g_lines rx_w = N.of_nat (count_occ N.eq_dec (g_waiting rx_w) LF) /\
  first_line (g_waiting rx_w) = Some ([65; 66; LF], [67]) /\
  g_masked rx_w rx_w_schedule /\
  (length (g_waiting rx_w) + length (g_arrivals rx_w_schedule) <= 256)%nat /\
  (7 * 3 + 2 <= g_mains rx_w_schedule)%nat /\
  g_arrivals rx_w_schedule = [1; 2; 3; 4; LF; 5; 6].
Proof. exact rx_w_holds. Qed.

(** C75: refuted.  A transmit interrupt during sendMessage can make a byte that was
    queued disappear ... *)
Theorem C75_tx_interrupt_loses_byte_refuted :
  exists pending message schedule,
  let t := t_run (t_start pending message) schedule in
  t_pc t = TDone /\ t_waiting t = [] /\ (length pending + length message <= 256)%nat /\
  t_wire t <> pending ++ message /\
  exists b, In b (pending ++ message) /\ ~ In b (t_wire t).
Proof. exact tx_race_lemma. Qed.
Print Assumptions C75_tx_interrupt_loses_byte_refuted.
(** ... or send a byte that nobody queued. *)
Theorem C75_tx_interrupt_adds_byte_refuted :
  exists pending message schedule b,
  let t := t_run (t_start pending message) schedule in
  t_pc t = TDone /\ t_waiting t = [] /\ (length pending + length message <= 256)%nat /\
  t_wire t = pending ++ message ++ [b].
Proof. exact tx_extra_lemma. Qed.
Print Assumptions C75_tx_interrupt_adds_byte_refuted.

(** C75, what is true: when no transmit interrupt comes between reading the head and
    reading the level, or between reading and writing the level, what has been sent and
    what is still waiting is at every moment a beginning of the waiting bytes followed by
    the message; at the end of the call all of it is there (or, when there was no room,
    nothing of the message), and the interrupt is on as long as something is waiting. *)
Theorem C75_tx_masked : forall t schedule,
  length (t_arr t) = 256%nat -> t_head t < 256 -> t_level t <= 256 ->
  t_pc t = T44 -> t_wire t = [] -> t_masked t schedule ->
  let t' := t_run t schedule in
  let waiting := t_waiting t in
  let message := t_rest t in
  (exists todo, t_wire t' ++ t_waiting t' ++ todo = waiting ++ message) /\
  ((5 * length message + 3 <= t_mains schedule)%nat ->
     t_pc t' = TDone /\
     (t_wire t' ++ t_waiting t' = waiting ++ message \/
      t_wire t' ++ t_waiting t' = waiting /\ (256 < length waiting + length message)%nat) /\
     (t_tie t' = true \/ t_waiting t' = [])).
Proof. exact tx_whole_lemma. Qed.
Print Assumptions C75_tx_masked.
Example C75_masked_hypotheses :
  length (t_arr tx_w) = 256%nat /\ t_head tx_w < 256 /\ t_level tx_w <= 256 /\
  t_pc tx_w = T44 /\ t_wire tx_w = [] /\ t_masked tx_w tx_w_schedule /\
  t_waiting tx_w = [65; 66] /\ t_rest tx_w = [67; 68] /\ (5 * 2 + 3 <= t_mains tx_w_schedule)%nat /\
  t_wire (t_run tx_w tx_w_schedule) = [65; 66; 67] /\ t_waiting (t_run tx_w tx_w_schedule) = [68].
Proof. exact tx_w_holds. Qed.
