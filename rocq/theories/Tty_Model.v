(** Model of the terminal's line discipline: kernel/tty/tty_input.c,
    kernel/tty/tty_ctrl_handlers.c.h and tty_ioctl_tcsets() of
    kernel/tty/tty_ioctl.c.

    One terminal, one open file handle on it, one reader inside
    tty_read_int().  Key events are atomic with respect to the reader (they
    run in a worker thread, which the scheduler prefers to processes), while
    the reader may be interrupted by key events between any two of its steps;
    a step is at most one access to the input queue.

    The input ring buffer is a list of at most TTY_INPUT_BS bytes, oldest
    first: C01 proves that kernel/ringbuf.c is such a queue.  The condition
    variables carry no state (both waits have a timeout and re-check), so a
    waiting reader is one that may re-check at any time.  A failed ASSERT or an
    access outside the handle's read buffer is the outcome [None].  The counter
    end_line_delim_count does not wrap. *)
From Verif Require Import Lib.

(** config/kernel/mod_console.h:35 and kernel/tty/tty_int.h:14 *)
Definition INPUT_BS : Z := 1024.
Definition READ_BS : Z := 4096.

(** The fields of struct termios that tty_input.c looks at (the echo flags are
    in the section Echo below). *)
Record tconf := Tc {
  icanon : bool; isig : bool; iexten : bool;                     (* c_lflag *)
  echo : bool; echoe : bool; echok : bool; echonl : bool; echoctl : bool;
  igncr : bool; icrnl : bool; inlcr : bool; ixon : bool;         (* c_iflag *)
  vmin : Z; verase : Z; veof : Z; veol : Z; veol2 : Z;           (* c_cc *)
  vintr : Z; vquit : Z; vsusp : Z; vstart : Z; vstop : Z;
  vreprint : Z; vdiscard : Z; vlnext : Z; vkill : Z; vwerase : Z
}.

(** kernel/tty/tty_ioctl.c:18-48, default_termios *)
Definition default_conf : tconf := {|
  icanon := true; isig := true; iexten := true;
  echo := true; echoe := true; echok := true; echonl := false; echoctl := true;
  igncr := false; icrnl := true; inlcr := false; ixon := true;
  vmin := 1; verase := 127; veof := 4; veol := 0; veol2 := 0;
  vintr := 3; vquit := 28; vsusp := 26; vstart := 17; vstop := 19;
  vreprint := 18; vdiscard := 15; vlnext := 22; vkill := 21; vwerase := 23
|}.

(** kernel/tty/tty_int.h:16-21, struct tty_handle_extra: [hbuf] is the part
    [0, read_buf_used) of read_buf, [hpos] is read_pos, [halw] is
    read_allowed_to_return; [hnb] is O_NONBLOCK in the handle's fl_flags. *)
Record handle := Hn { hbuf : list Z; hpos : Z; halw : bool; hnb : bool }.

(** Where the reader is inside tty_read_int(): [PTop] the EAGAIN check at the
    top of the do-loop (line 581), [PWait] the loop waiting for data (593-620),
    [PDrain] the loop moving bytes to the read buffer (628-630), [PFlush] the
    rest of the iteration (632-637). *)
Inductive pc := PTop | PWait | PDrain | PFlush.

(** [rsz] the caller's size, [rout] the bytes already stored in the caller's
    buffer, [rdb] the variable delim_break *)
Record reader := Rd { rpc : pc; rsz : Z; rout : list Z; rdb : bool }.

Inductive result :=
| RBytes (l : list Z)
| REagain | REintr | REio.

(** [q] input_ringbuf, [cnt] end_line_delim_count, [wr] the byte a blocked
    writer is trying to store, and whether it is a delimiter still to be
    counted; [sg]: the reader's process has a pending signal. *)
Record st := St {
  cf : tconf; q : list Z; cnt : Z; wr : option (Z * bool);
  hh : handle; rd : option reader; sg : bool
}.

Definition set_q s x := St (cf s) x (cnt s) (wr s) (hh s) (rd s) (sg s).
Definition set_cnt s x := St (cf s) (q s) x (wr s) (hh s) (rd s) (sg s).
Definition set_wr s x := St (cf s) (q s) (cnt s) x (hh s) (rd s) (sg s).
Definition set_h s x := St (cf s) (q s) (cnt s) (wr s) x (rd s) (sg s).
Definition set_rd s x := St (cf s) (q s) (cnt s) (wr s) (hh s) x (sg s).
Definition set_sg s x := St (cf s) (q s) (cnt s) (wr s) (hh s) (rd s) x.
Definition set_cf s x := St x (q s) (cnt s) (wr s) (hh s) (rd s) (sg s).

(** tty_input_init, kernel/tty/tty_input.c:672-678; the handle is fresh
    (tty_create_extra, kernel/tty/tty.c:90-100) *)
Definition tty_init (k : tconf) (nb : bool) : st :=
  St k [] 0 None (Hn [] 0 false nb) None false.

(** *** Input side *)

Inductive ctrl :=
| CStop | CStart | CIntr | CSusp | CQuit | CEof | CEol | CEol2
| CReprint | CDiscard | CLnext.

(** tty_set_ctrl_handler, kernel/tty/tty_ctrl_handlers.c.h:146-162, applied in
    the order of tty_update_ctrl_handlers, kernel/tty/tty_input.c:656-670: a
    handler with character 0 is not installed, a later one replaces an earlier
    one. *)
Definition ctrl_handler (k : tconf) (c : Z) : option ctrl :=
  if c =? 0 then None
  else if c =? vlnext k then Some CLnext
  else if c =? vdiscard k then Some CDiscard
  else if c =? vreprint k then Some CReprint
  else if c =? veol2 k then Some CEol2
  else if c =? veol k then Some CEol
  else if c =? veof k then Some CEof
  else if c =? vquit k then Some CQuit
  else if c =? vsusp k then Some CSusp
  else if c =? vintr k then Some CIntr
  else if c =? vstart k then Some CStart
  else if c =? vstop k then Some CStop
  else None.

(** tty_is_line_delim_char, kernel/tty/tty_input.c:262-268 *)
Definition is_delim (k : tconf) (c : Z) : bool :=
  (c =? 10) || (c =? veof k) || (c =? veol k) || (c =? veol2 k).

(** tty_inbuf_reset, kernel/tty/tty_input.c:145-153 *)
Definition inbuf_reset (s : st) : st := set_cnt (set_q s []) 0.

(** tty_inbuf_write_elem, kernel/tty/tty_input.c:197-234, followed by
    `end_line_delim_count++` when [after] holds.  When the buffer is full and
    [block] is set the writer stays in the loop: [wr]. *)
Definition inbuf_write (s : st) (c : Z) (block after : bool) : st :=
  if zlen (q s) <? INPUT_BS then
    let s1 := set_q s (q s ++ [c]) in
    if after then set_cnt s1 (cnt s1 + 1) else s1
  else if block then set_wr s (Some (c, after))
  else if after then set_cnt s (cnt s + 1) else s.

(** One more iteration of the same loop for a writer that is blocked in it *)
Definition writer_step (s : st) : st :=
  match wr s with
  | None => s
  | Some (c, after) =>
      if zlen (q s) <? INPUT_BS then
        let s1 := set_wr (set_q s (q s ++ [c])) None in
        if after then set_cnt s1 (cnt s1 + 1) else s1
      else s
  end.

(** tty_inbuf_drop_last_written_elem, kernel/tty/tty_input.c:168-194 *)
Definition inbuf_drop_last (s : st) : st := set_q s (removelast (q s)).

(** tty_ctrl_eof, tty_ctrl_eol, tty_ctrl_eol2,
    kernel/tty/tty_ctrl_handlers.c.h:68-100: counted first, then written *)
Definition ctrl_delim (s : st) (c : Z) (block : bool) : st * bool :=
  if icanon (cf s) then
    (inbuf_write (set_cnt s (cnt s + 1)) c block false, true)
  else (s, false).

(** tty_handle_special_controls, kernel/tty/tty_ctrl_handlers.c.h:164-173, and
    the handlers, 9-144; the boolean is the handler's result.  The signal sent
    by Ctrl+C and Ctrl+\ is not part of the state: see [OSig]. *)
Definition special_controls (s : st) (c : Z) (block : bool) : st * bool :=
  let k := cf s in
  match ctrl_handler k c with
  | None => (s, false)
  | Some CStop | Some CStart => (s, ixon k)
  | Some CIntr | Some CQuit =>
      if isig k then (inbuf_reset s, true) else (s, false)
  | Some CSusp => (s, isig k)
  | Some CEof => ctrl_delim s (veof k) block
  | Some CEol => ctrl_delim s (veol k) block
  | Some CEol2 => ctrl_delim s (veol2 k) block
  | Some CReprint => (s, icanon k || iexten k)
  | Some CDiscard => (s, false)
  | Some CLnext => (s, iexten k)
  end.

(** tty_keypress_handle_canon_mode, kernel/tty/tty_input.c:271-286 *)
Definition canon_key (s : st) (c : Z) (block : bool) : st :=
  if c =? verase (cf s) then inbuf_drop_last s
  else inbuf_write s c block (is_delim (cf s) c).

(** tty_send_keyevent, kernel/tty/tty_input.c:288-319; [None] as the mapped
    character: the key is ignored (line 296) *)
Definition map_cr (k : tconf) (c : Z) : option Z :=
  if c =? 13 then
    if igncr k then None else if icrnl k then Some 10 else Some 13
  else if c =? 10 then if inlcr k then Some 13 else Some 10
  else Some c.

Definition send_keyevent (s : st) (c0 : Z) (block : bool) : st :=
  match map_cr (cf s) c0 with
  | None => s
  | Some c =>
      let (s1, done) := special_controls s c block in
      if done then s1
      else if icanon (cf s1) then canon_key s1 c block
      else inbuf_write s1 c block false
  end.

(** *** The reader *)

(** tty_flush_read_buf, kernel/tty/tty_input.c:428-445 *)
Definition flush (h : handle) (size : Z) : option (handle * list Z) :=
  let rem := zlen (hbuf h) - hpos h in
  if rem <? 0 then None                                      (* line 433 *)
  else
    let m := Z.min rem size in
    let out := firstn (Z.to_nat m) (skipn (Z.to_nat (hpos h)) (hbuf h)) in
    let pos := hpos h + m in
    if pos =? zlen (hbuf h) then Some (Hn [] 0 (halw h) (hnb h), out)
    else Some (Hn (hbuf h) pos (halw h) (hnb h), out).

(** tty_read_ready_int, kernel/tty/tty_input.c:503-513 *)
Definition read_ready (s : st) : bool :=
  if icanon (cf s) then halw (hh s) || (0 <? cnt s)
  else vmin (cf s) <=? zlen (q s).

Definition set_alw (h : handle) (b : bool) : handle :=
  Hn (hbuf h) (hpos h) b (hnb h).
Definition set_buf (h : handle) (l : list Z) : handle :=
  Hn l (hpos h) (halw h) (hnb h).

Definition at_pc (s : st) (r : reader) (p : pc) : st :=
  set_rd s (Some (Rd p (rsz r) (rout r) (rdb r))).

(** tty_internal_should_read_return, kernel/tty/tty_input.c:484-501 *)
Definition should_return (s : st) (n : Z) (db : bool) : bool :=
  if icanon (cf s) then
    db || ((0 <? cnt s) &&
           ((zlen (hbuf (hh s)) =? READ_BS) || (n =? INPUT_BS)))
  else vmin (cf s) <=? n.

(** tty_read_int up to the loop, kernel/tty/tty_input.c:515-577.  [ok]: the
    process may read from this terminal (lines 526-545). *)
Definition read_begin (s : st) (size : Z) (ok : bool)
  : option (st * option result) :=
  if negb ok then Some (s, Some REio)
  else if size =? 0 then Some (s, Some (RBytes []))
  else
    let h := hh s in
    let go := Some (set_rd (set_h s (set_alw h false))
                           (Some (Rd PTop size [] false)), None) in
    if zlen (hbuf h) =? 0 then go
    else if negb (hnb h) then
      match flush h size with
      | None => None
      | Some (h', out) => Some (set_h s h', Some (RBytes out))
      end
    else if halw h then
      match flush h size with
      | None => None
      | Some (h', out) =>
          let h2 := if zlen (hbuf h') =? 0 then set_alw h' false else h' in
          Some (set_h s h2, Some (RBytes out))
      end
    else go.

(** tty_internal_read_single_char_from_kb, kernel/tty/tty_input.c:452-482,
    with the loop around it (628-630): [c] was read, the queue is now [q'] *)
Definition read_single (s : st) (r : reader) (c : Z) (q' : list Z)
  : option st :=
  let k := cf s in
  let s1 := set_h (set_q s q') (set_buf (hh s) (hbuf (hh s) ++ [c])) in
  if icanon k then
    if is_delim k c then
      if cnt s <=? 0 then None                               (* line 465 *)
      else
        let s2 := set_cnt s1 (cnt s1 - 1) in
        let s3 := if c =? veof k then set_h s2 (hh s) else s2 in
        Some (set_rd s3 (Some (Rd PFlush (rsz r) (rout r) true)))
    else Some s1
  else
    if vmin k <=? zlen (hbuf (hh s1)) then Some (at_pc s1 r PFlush)
    else Some s1.

(** Lines 632-637, and 639-653 when the loop ends *)
Definition finish (s : st) (r : reader) : option (st * option result) :=
  let fl := if negb (hnb (hh s)) || negb (icanon (cf s))
            then flush (hh s) (rsz r - zlen (rout r))
            else Some (hh s, []) in
  match fl with
  | None => None
  | Some (h1, o1) =>
      let out := rout r ++ o1 in
      let s1 := set_h s h1 in
      if cnt s <? 0 then None                                (* line 635 *)
      else if should_return s1 (zlen out) (rdb r) then
        if hnb h1 then
          match flush h1 (rsz r - zlen out) with
          | None => None
          | Some (h2, o2) =>
              let h3 := if zlen (hbuf h2) =? 0 then h2 else set_alw h2 true in
              Some (set_rd (set_h s h3) None, Some (RBytes (out ++ o2)))
          end
        else Some (set_rd s1 None, Some (RBytes out))
      else Some (set_rd s1 (Some (Rd PTop (rsz r) out (rdb r))), None)
  end.

(** One step of the reader *)
Definition read_step (s : st) : option (st * option result) :=
  match rd s with
  | None => Some (s, None)
  | Some r =>
      match rpc r with
      | PTop =>                                              (* line 581 *)
          if hnb (hh s) && negb (read_ready s)
          then Some (set_rd s None, Some REagain)
          else Some (at_pc s r PWait, None)
      | PWait =>                                             (* 593-626 *)
          if read_ready s then
            if negb (hnb (hh s)) &&
               negb ((zlen (hbuf (hh s)) =? 0) && (hpos (hh s) =? 0))
            then None
            else Some (set_rd s (Some (Rd PDrain (rsz r) (rout r) false)), None)
          else if sg s then Some (set_rd s None, Some REintr)
          else Some (s, None)
      | PDrain =>                                            (* 628-630 *)
          match q s with
          | [] => Some (at_pc s r PFlush, None)
          | c :: q' =>
              if zlen (hbuf (hh s)) <? READ_BS then
                match read_single s r c q' with
                | None => None
                | Some s' => Some (s', None)
                end
              else Some (at_pc s r PFlush, None)
          end
      | PFlush => finish s r
      end
  end.

(** *** Operations *)

(** tty_ioctl_tcsets, kernel/tty/tty_ioctl.c:97-115 (the copy succeeds);
    [fl]: TCSETSF, lines 338-340 *)
Definition tcsets (s : st) (k : tconf) (fl : bool) : st :=
  let s1 := if fl then inbuf_reset s else s in
  let s2 := set_cf s1 k in
  if Bool.eqb (icanon k) (icanon (cf s)) then s2 else set_cnt s2 0.

Inductive op :=
| OKey (c : Z) (block : bool)       (* tty_send_keyevent *)
| OWr                               (* a blocked writer tries again *)
| OBegin (size : Z) (ok : bool)     (* read() is called *)
| OStep                             (* the reader runs for a step *)
| OSig (b : bool)                   (* a signal becomes (or stops being) pending *)
| OSetc (k : tconf) (fl : bool)     (* TCSETS, TCSETSF *)
| ONb (b : bool).                   (* fcntl(F_SETFL) *)

Definition step (s : st) (o : op) : option (st * option result) :=
  match o with
  | OKey c b => Some (send_keyevent s c b, None)
  | OWr => Some (writer_step s, None)
  | OBegin n ok =>
      match rd s with
      | Some _ => Some (s, None)
      | None => read_begin s n ok
      end
  | OStep => read_step s
  | OSig b => Some (set_sg s b, None)
  | OSetc k f => Some (tcsets s k f, None)
  | ONb b => Some (set_h s (Hn (hbuf (hh s)) (hpos (hh s)) (halw (hh s)) b), None)
  end.

Fixpoint run (s : st) (os : list op) : option (st * list result) :=
  match os with
  | [] => Some (s, [])
  | o :: os' =>
      match step s o with
      | None => None
      | Some (s1, r) =>
          match run s1 os' with
          | None => None
          | Some (s2, rs) =>
              Some (s2, match r with None => rs | Some x => x :: rs end)
          end
      end
  end.

(** *** Echo *)

(** A u8 seen as a (signed, on x86) char *)
Definition sch (c : Z) : Z := if c <? 128 then c else c - 256.

(** tty_char_echoed_as_caret, kernel/tty/tty_input.c:34-43 *)
Definition as_caret (k : tconf) (c : Z) : bool :=
  ((sch c <? 32) || (sch c =? 127)) && echoctl k &&
  negb (sch c =? 9) && negb (sch c =? 10) &&
  negb (sch c =? vstart k) && negb (sch c =? vstop k).

(** tty_echo_width, kernel/tty/tty_input.c:50-53 *)
Definition echo_width (k : tconf) (c : Z) : Z := if as_caret k c then 2 else 1.

(** tty_keypress_echo, kernel/tty/tty_input.c:55-132, in text mode (line 59):
    the bytes sent to the terminal's write function *)
Definition key_echo (k : tconf) (c : Z) : list Z :=
  if (c =? 10) && echonl k then [c]
  else if negb (echo k) then []
  else if icanon k && (sch c =? veof k) then []
  else if icanon k && echok k && (sch c =? vkill k) then [c]
  else if icanon k && echoe k &&
          ((sch c =? vwerase k) || (sch c =? verase k)) then [c]
  else if as_caret k c then [94; (c + 64) mod 256]
  else [c].

(** The echo of tty_inbuf_drop_last_written_elem (lines 185-191) when it drops
    the byte [c] *)
Definition drop_echo (k : tconf) (c : Z) : list Z :=
  concat (repeat (key_echo k (verase k)) (Z.to_nat (echo_width k c))).

(** tty_on_dup_extra, kernel/tty/tty.c:102-117: the duplicate of a handle has
    its own copy of the read buffer *)
Definition dup_extra (h : handle) : handle :=
  Hn (hbuf h) (hpos h) (halw h) (hnb h).
