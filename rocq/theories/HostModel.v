(** Model of lib/hostinterface/hostinterface.{h,cpp} and of the UART target
    lib_target/cnc3axis/hostinterface/hostinterface_uart.cpp.  Bytes are [N]. *)
Require Import List Arith NArith Bool.
From Verif Require Import Base.
Import ListNotations.
Open Scope N_scope.

Definition LF : N := 10.                    (* '\n' *)
(** lib/hostinterface/hostinterface.h:27-28 *)
Definition rxBufferLength : N := 256.
Definition txBufferLength : N := 256.

(** hostinterface.h:31-38; [tx_tie] is the transmit-interrupt-enable bit of UART0_C2. *)
Record host := mkHost {
  rx_arr : list N; rx_head : N; rx_level : N; rx_lines : N;
  tx_arr : list N; tx_head : N; tx_level : N; tx_tie : bool }.

(** hostinterface.cpp:56-62 initialize() (hostInterfaceUart::initialize also
    programs the UART with TIE off, hostinterface_uart.cpp:36). *)
Definition host_initialize (h : host) : host :=
  mkHost (rx_arr h) 0 0 0 (tx_arr h) 0 0 false.

Definition host_zero : host :=
  mkHost (repeat 0 256) 0 0 0 (repeat 0 256) 0 0 false.

(** hostinterface.cpp:64-66 *)
Definition hasMessage (h : host) : bool := 0 <? rx_lines h.

(** hostinterface_uart.cpp:40-56 rxReady(): interrupt for one received byte. *)
Definition rxReady (h : host) (b : N) : host :=
  if rx_level h <? rxBufferLength then
    mkHost (rset (rx_arr h) ((add32 (rx_head h) (rx_level h)) mod rxBufferLength) b)
           (rx_head h) (add32 (rx_level h) 1)
           (if b =? LF then add32 (rx_lines h) 1 else rx_lines h)
           (tx_arr h) (tx_head h) (tx_level h) (tx_tie h)
  else h.

(** hostinterface.cpp:16-34 getMessage(): the loop runs at most rxBufferLevel
    times, which is the fuel.  Returns the bytes stored in the destination,
    including the terminating 0. *)
Fixpoint getMessage_loop (fuel : nat) (h : host) : host * list N :=
  match fuel with
  | O => (h, [0])
  | S f =>
      if 0 <? rx_level h then
        let b := rget 0 (rx_arr h) (rx_head h) in
        let h1 := mkHost (rx_arr h) ((add32 (rx_head h) 1) mod rxBufferLength) (sub32 (rx_level h) 1)
                         (rx_lines h) (tx_arr h) (tx_head h) (tx_level h) (tx_tie h) in
        if b =? LF then
          (mkHost (rx_arr h1) (rx_head h1) (rx_level h1) (sub32 (rx_lines h1) 1)
                  (tx_arr h1) (tx_head h1) (tx_level h1) (tx_tie h1), [b; 0])
        else let '(h2, r) := getMessage_loop f h1 in (h2, b :: r)
      else (h, [0])
  end.

Definition getMessage (h : host) : host * list N :=
  getMessage_loop (S (N.to_nat (rx_level h))) h.

(** hostinterface.cpp:42: the source is a C string; only the bytes before its
    first 0 count. *)
Fixpoint cstr (s : list N) : list N :=
  match s with
  | [] => []
  | b :: r => if b =? 0 then [] else b :: cstr r
  end.

Fixpoint tx_copy (h : host) (s : list N) : host :=
  match s with
  | [] => h
  | b :: r =>
      tx_copy (mkHost (rx_arr h) (rx_head h) (rx_level h) (rx_lines h)
                 (rset (tx_arr h) ((add32 (tx_head h) (tx_level h)) mod txBufferLength) b)
                 (tx_head h) (add32 (tx_level h) 1) (tx_tie h)) r
  end.

(** hostinterface.cpp:36-54 and hostinterface_uart.cpp:69-72 sendMessage(). *)
Definition sendMessage (h : host) (s : list N) : host :=
  let m := cstr s in
  let h1 := if N.of_nat (length m) <=? sub32 txBufferLength (tx_level h) then tx_copy h m else h in
  mkHost (rx_arr h1) (rx_head h1) (rx_level h1) (rx_lines h1)
         (tx_arr h1) (tx_head h1) (tx_level h1) true.

(** hostinterface_uart.cpp:58-67 txReady(): returns the byte put on the line. *)
Definition txReady (h : host) : host * option N :=
  if 0 <? tx_level h then
    (mkHost (rx_arr h) (rx_head h) (rx_level h) (rx_lines h)
            (tx_arr h) ((add32 (tx_head h) 1) mod txBufferLength) (sub32 (tx_level h) 1) (tx_tie h),
     Some (rget 0 (tx_arr h) (tx_head h)))
  else
    (mkHost (rx_arr h) (rx_head h) (rx_level h) (rx_lines h)
            (tx_arr h) (tx_head h) (tx_level h) false, None).

(** Operations: received byte (interrupt), guarded read as a main loop would do
    it (if hasMessage() then getMessage()), send, transmit interrupt. The
    transmit interrupt only fires while enabled. *)
Inductive host_op := HRx (b : N) | HPoll | HSend (s : list N) | HTx.
Inductive host_out := HNone | HMsg (m : list N) | HByte (b : N).

Definition host_step (h : host) (o : host_op) : host * host_out :=
  match o with
  | HRx b => (rxReady h b, HNone)
  | HPoll => if hasMessage h then let '(h', m) := getMessage h in (h', HMsg m) else (h, HNone)
  | HSend s => (sendMessage h s, HNone)
  | HTx => if tx_tie h then
             let '(h', ob) := txReady h in (h', match ob with Some b => HByte b | None => HNone end)
           else (h, HNone)
  end.

Fixpoint host_run (h : host) (ops : list host_op) : host * list host_out :=
  match ops with
  | [] => (h, [])
  | o :: r => let '(h1, x) := host_step h o in
              let '(h2, xs) := host_run h1 r in (h2, x :: xs)
  end.

(** ** Statement-level model of getMessage interrupted by rxReady.
    hostinterface.cpp:19-33, one program point per statement; [rxBufferLevel--]
    and [rxBufferLines--] are
    a load followed by a store (the members are plain volatile uint32_t and the Cortex-M compiles it to separate load and store instructions). *)
Inductive gpc := G19 | G20 | G21 | G22load | G22store (loaded : N) | G23 | G26
  | G27load | G27store (loaded : N) | GDone.

Record gstate := mkG {
  g_arr : list N; g_head : N; g_level : N; g_lines : N;
  g_pc : gpc; g_byte : N; g_dest : list N }.

(** One statement of the main program. *)
Definition g_main (g : gstate) : gstate :=
  let '(mkG arr head level lines pc byte dest) := g in
  match pc with
  | G19 => if 0 <? level then mkG arr head level lines G20 byte dest
           else mkG arr head level lines GDone byte (dest ++ [0])
  | G20 => mkG arr head level lines G21 (rget 0 arr head) dest
  | G21 => mkG arr ((add32 head 1) mod rxBufferLength) level lines G22load byte dest
  | G22load => mkG arr head level lines (G22store level) byte dest
  | G22store l => mkG arr head (sub32 l 1) lines G23 byte dest
  | G23 => mkG arr head level lines G26 byte (dest ++ [byte])
  | G26 => mkG arr head level lines (if byte =? LF then G27load else G19) byte dest
  | G27load => mkG arr head level lines (G27store lines) byte dest
  | G27store l => mkG arr head level (sub32 l 1) GDone byte (dest ++ [0])
  | GDone => g
  end.

(** The receive interrupt (atomic with respect to the main program). *)
Definition g_irq (g : gstate) (b : N) : gstate :=
  let '(mkG arr head level lines pc byte dest) := g in
  if level <? rxBufferLength then
    mkG (rset arr ((add32 head level) mod rxBufferLength) b) head (add32 level 1)
        (if b =? LF then add32 lines 1 else lines) pc byte dest
  else g.

Inductive gact := GMain | GIrq (b : N).
Definition g_step (g : gstate) (a : gact) : gstate :=
  match a with GMain => g_main g | GIrq b => g_irq g b end.
Definition g_run (g : gstate) (l : list gact) : gstate := fold_left g_step l g.

(** ** Statement-level model of sendMessage interrupted by txReady.
    hostinterface.cpp:36-54 and hostinterface_uart.cpp:58-72.  The string is given
    as the list of its bytes up to the terminator (lines 41-43 only measure it).
    Line 48 reads txBufferHead, then txBufferLevel, then writes the byte; line 49,
    [txBufferLevel++], is a load followed by a store.  txBufferHead is not volatile:
    the model gives the code the benefit of the doubt and has it read anew for
    every byte. *)
Inductive tpc := T44 | T46 | T48level (loaded_head : N) | T48store (position : N)
  | T49load | T49store (loaded : N) | T71 | TDone.

Record tstate := mkT {
  t_arr : list N; t_head : N; t_level : N; t_tie : bool;
  t_pc : tpc; t_rest : list N (* bytes of the string not yet copied *);
  t_wire : list N (* bytes given to the UART so far *) }.

(** One statement of the main program. *)
Definition t_main (t : tstate) : tstate :=
  let '(mkT arr head level tie pc rest wire) := t in
  match pc with
  | T44 => mkT arr head level tie
             (if N.of_nat (length rest) <=? sub32 txBufferLength level then T46 else T71) rest wire
  | T46 => mkT arr head level tie (match rest with [] => T71 | _ => T48level head end) rest wire
  | T48level h => mkT arr head level tie (T48store ((add32 h level) mod txBufferLength)) rest wire
  | T48store j => mkT (rset arr j (nth 0 rest 0)) head level tie T49load rest wire
  | T49load => mkT arr head level tie (T49store level) rest wire
  | T49store l => mkT arr head (add32 l 1) tie T46 (tl rest) wire
  | T71 => mkT arr head level true TDone rest wire
  | TDone => t
  end.

(** The transmit interrupt, when it is enabled (atomic with respect to the main
    program).  hostinterface_uart.cpp:58-67 *)
Definition t_irq (t : tstate) : tstate :=
  let '(mkT arr head level tie pc rest wire) := t in
  if tie then
    if 0 <? level then
      mkT arr ((add32 head 1) mod txBufferLength) (sub32 level 1) tie pc rest (wire ++ [rget 0 arr head])
    else mkT arr head level false pc rest wire
  else t.

Inductive tact := TMain | TIrq.
Definition t_step (t : tstate) (a : tact) : tstate :=
  match a with TMain => t_main t | TIrq => t_irq t end.
Definition t_run (t : tstate) (l : list tact) : tstate := fold_left t_step l t.
