(** C64, C65: the terminal line discipline and its echo. *)
From Verif Require Import Lib Tty_Model Tty_Spec Tty_Proofs Tty_Proofs2 Tty_Proofs3 Tty_Refuted.

(** Canonical mode, from every state reachable by typing and reading: every operation ends without failing an assertion; a read returns only from the oldest complete line (or what an earlier read left of it), its first bytes, without the end-of-file character; EAGAIN only for a non-blocking handle, EINTR only with a signal pending, and either only when there is nothing to read. Missing: one handle and one reader; and what [may] excludes, which is refuted below. *)
Theorem C64_canonical_partial : forall k nb s a o, sane k -> icanon k = true -> creach k nb s a ->
  may s a o -> exists s' r, step s o = Some (s', r) /\ good s a o r.
Proof. exact canon_reads. Qed.
Print Assumptions C64_canonical_partial.

(** The ring buffer holds exactly the complete lines, in order, and the line being typed; the counter of line ends is the number of complete lines. *)
Theorem C64_lines_counted_partial : forall k nb s a, sane k -> icanon k = true -> creach k nb s a ->
  quiet s -> q s = concat (lines a) ++ cur a /\ cnt s = zlen (lines a).
Proof. exact canon_counter. Qed.
Print Assumptions C64_lines_counted_partial.

(** poll() reports input on an idle handle exactly when a complete line is there, or, on a non-blocking handle, the rest of one (the rest is not seen on a blocking handle: refuted below). *)
Theorem C64_poll_partial : forall k nb s a, sane k -> icanon k = true -> creach k nb s a ->
  rd s = None ->
  read_ready s = true <-> (lines a <> [] \/ (nb = true /\ pend a <> [])).
Proof. exact canon_ready. Qed.
Print Assumptions C64_poll_partial.

(** With a complete line there, a read in progress returns it after finitely many steps. *)
Theorem C64_progress_partial : forall k nb s a r, sane k -> icanon k = true -> creach k nb s a ->
  rd s = Some r -> lines a <> [] ->
  exists n s' b, steps n s = Some (s', Some (RBytes b)).
Proof. exact canon_progress. Qed.
Print Assumptions C64_progress_partial.

(** Raw mode: every operation ends without failing an assertion; a read returns the oldest bytes typed, VMIN of them (one if VMIN is 0 and there is one), in order. Missing: reads of fewer bytes than VMIN (refuted below); VTIME. *)
Theorem C64_raw_partial : forall k nb s b o, sane k -> icanon k = false -> rreach k nb s b ->
  rmay s o -> exists s' r, step s o = Some (s', r) /\ raw_good s b o r.
Proof. exact raw_reads. Qed.
Print Assumptions C64_raw_partial.

(** poll() reports input exactly when there are at least VMIN bytes. *)
Theorem C64_raw_poll_partial : forall k nb s b, sane k -> icanon k = false -> rreach k nb s b ->
  quiet s -> (read_ready s = true <-> vmin k <= zlen b) /\ b = q s.
Proof. exact raw_ready. Qed.
Print Assumptions C64_raw_poll_partial.

(** With VMIN bytes there, a read in progress returns after finitely many steps. *)
Theorem C64_raw_progress_partial : forall k nb s b r, sane k -> icanon k = false -> rreach k nb s b ->
  rd s = Some r -> vmin k <= zlen b ->
  exists n s' x, steps n s = Some (s', Some (RBytes x)).
Proof. exact raw_progress. Qed.
Print Assumptions C64_raw_progress_partial.

(** a, Enter, Backspace: the line end is erased but stays counted; the read that follows never returns, not even on a signal, not even on a non-blocking handle. *)
Theorem C64_erase_crosses_line_refuted : forall nb g, exists s,
  run (tty_init default_conf nb) erase_ops = Some (s, []) /\
  never_returns (set_sg s g).
Proof. exact erase_ref. Qed.
Print Assumptions C64_erase_crosses_line_refuted.

(** 1024 characters and Enter: the line end is dropped but counted; reading 100 bytes fails an assertion. *)
Theorem C64_overflow_assert_refuted : exists s n,
  run (tty_init default_conf false) overflow_ops = Some (s, []) /\ steps n s = None.
Proof. exact overflow_assert. Qed.
Print Assumptions C64_overflow_assert_refuted.

(** The same, reading everything: the next read never returns. *)
Theorem C64_overflow_spin_refuted : exists l s,
  run (tty_init default_conf false)
      (keys (afull ++ [10]) ++ [OBegin READ_BS true] ++ l ++ [OBegin 100 true]) =
  Some (s, [RBytes afull]) /\ forall g, never_returns (set_sg s g).
Proof. exact overflow_spin. Qed.
Print Assumptions C64_overflow_spin_refuted.

(** A serial line, 1024 characters and Enter: the writer waits for room and the reader for the line end, for ever. *)
Theorem C64_serial_deadlock_refuted : exists s,
  run (tty_init default_conf false) (bkeys (afull ++ [10]) ++ [OBegin 100 true]) = Some (s, []) /\
  forall l, Forall (fun o => o = OWr \/ o = OStep) l ->
    exists s', run s l = Some (s', []) /\ wr s' = Some (10, true) /\ rd s' <> None.
Proof. exact serial_ref. Qed.
Print Assumptions C64_serial_deadlock_refuted.

(** Raw mode, VMIN 3, reading 2 bytes: an assertion fails. *)
Theorem C64_vmin_assert_refuted : run (tty_init (raw_conf 3) false)
      (keys [97; 98; 99] ++ [OBegin 2 true] ++ rsteps 8 ++ keys [100; 101; 102] ++ [OStep]) = None.
Proof. exact vmin_assert. Qed.
Print Assumptions C64_vmin_assert_refuted.

(** The same, non-blocking: EAGAIN, and the first two bytes are lost. *)
Theorem C64_vmin_eagain_refuted : exists s,
  run (tty_init (raw_conf 3) true) (keys [97; 98; 99] ++ [OBegin 2 true] ++ rsteps 7) =
  Some (s, [REagain]) /\ q s = [] /\ skipn (Z.to_nat (hpos (hh s))) (hbuf (hh s)) = [99].
Proof. exact vmin_lost. Qed.
Print Assumptions C64_vmin_eagain_refuted.

(** A complete line, then raw mode and back: the line is there, but a read waits for ever. *)
Theorem C64_mode_switch_refuted : exists s,
  run (tty_init default_conf false)
      (keys [97; 10] ++ [OSetc (raw_conf 1) false; OSetc default_conf false; OBegin 100 true; OStep]) =
  Some (s, []) /\ q s = [97; 10] /\ never_returns s.
Proof. exact switch_ref. Qed.
Print Assumptions C64_mode_switch_refuted.

(** A blocking handle with the rest of a line: not ready for poll(), though read() returns at once. *)
Theorem C64_poll_leftover_refuted : exists s s',
  run (tty_init default_conf false) (keys [97; 98; 10] ++ [OBegin 1 true] ++ rsteps 6) =
  Some (s, [RBytes [97]]) /\
  read_ready s = false /\ step s (OBegin 1 true) = Some (s', Some (RBytes [98])).
Proof. exact poll_ref. Qed.
Print Assumptions C64_poll_leftover_refuted.

(** The rest of a line, then O_NONBLOCK by F_SETFL: EAGAIN. *)
Theorem C64_setfl_leftover_refuted : exists s,
  run (tty_init default_conf false)
      (keys [97; 98; 10] ++ [OBegin 1 true] ++ rsteps 6 ++ [ONb true; OBegin 1 true; OStep]) =
  Some (s, [RBytes [97]; REagain]).
Proof. exact setfl_ref. Qed.
Print Assumptions C64_setfl_leftover_refuted.

(** The rest of a line is read twice after dup(). *)
Theorem C64_dup_leftover_refuted : exists s s1 s2,
  run (tty_init default_conf false) (keys [97; 98; 10] ++ [OBegin 1 true] ++ rsteps 6) =
  Some (s, [RBytes [97]]) /\
  step s (OBegin 1 true) = Some (s1, Some (RBytes [98])) /\
  step (set_h s1 (dup_extra (hh s))) (OBegin 1 true) = Some (s2, Some (RBytes [98])).
Proof. exact dup_ref. Qed.
Print Assumptions C64_dup_leftover_refuted.

(** A NUL ends the line though VEOL is disabled. *)
Theorem C64_nul_ends_line_refuted : exists s,
  run (tty_init default_conf false) (bkeys [97; 0] ++ [OBegin 100 true] ++ rsteps 5) =
  Some (s, [RBytes [97; 0]]).
Proof. exact nul_ref. Qed.
Print Assumptions C64_nul_ends_line_refuted.

(** VKILL and VWERASE do nothing but appear in the input. *)
Theorem C64_kill_werase_refuted : exists s,
  run (tty_init default_conf false)
      (keys [97; vkill default_conf; 98; vwerase default_conf; 10] ++ [OBegin 100 true] ++ rsteps 8) =
  Some (s, [RBytes [97; 21; 98; 23; 10]]).
Proof. exact kill_ref. Qed.
Print Assumptions C64_kill_werase_refuted.

(** Typing characters and erasing them all leaves the screen line as it was, control characters (two cells) included. *)
Theorem C65_echo_erase : forall k l cells, 0 <= verase k < 128 -> echo k = true -> icanon k = true ->
  echoe k = true -> verase k <> 10 -> verase k <> veof k ->
  Forall (plain_echo k) l ->
  scr k cells (typed_echo k l ++ erased_echo k l) = cells.
Proof. exact echo_erase. Qed.
Print Assumptions C65_echo_erase.

(** A character is drawn as itself, a control character as a caret and a letter. *)
Theorem C65_echo_typed : forall k c cells, plain_echo k c -> 0 <= verase k -> echo k = true ->
  scr k cells (key_echo k c) =
  (if as_caret k c then [(c + 64) mod 256; 94] else [c]) ++ cells.
Proof. exact echo_cells. Qed.
Print Assumptions C65_echo_typed.

(** Erasing takes away as many cells as typing drew. *)
Theorem C65_echo_dropped : forall k c cells, 0 <= verase k < 128 -> echo k = true -> icanon k = true ->
  echoe k = true -> verase k <> 10 -> verase k <> veof k ->
  scr k cells (drop_echo k c) =
  if as_caret k c then tl (tl cells) else tl cells.
Proof. exact drop_cells. Qed.
Print Assumptions C65_echo_dropped.

(** With ECHO and ECHONL off nothing is echoed. *)
Theorem C65_echo_off : forall k l, echo k = false -> echonl k = false ->
  typed_echo k l = [] /\ erased_echo k l = [].
Proof. exact echo_off. Qed.
Print Assumptions C65_echo_off.

(** Ctrl+D is not echoed, but erasing it removes a cell. *)
Theorem C65_eof_refuted : exists cells,
  scr default_conf cells
    (key_echo default_conf (veof default_conf) ++ drop_echo default_conf (veof default_conf)) <> cells.
Proof. exact echo_eof_ref. Qed.
Print Assumptions C65_eof_refuted.

(** A byte above 127 (here 0xC3, the first byte of a UTF-8 letter) is echoed as a caret and a control character. *)
Theorem C65_high_byte_refuted : key_echo default_conf 195 = [94; 3].
Proof. exact echo_high_ref. Qed.
Print Assumptions C65_high_byte_refuted.

(** A DEL that is not the erase character is echoed as a caret and the byte 0xBF, not a question mark. *)
Theorem C65_del_refuted : exists k, verase k = 8 /\ key_echo k 127 = [94; 191].
Proof. exact echo_del_ref. Qed.
Print Assumptions C65_del_refuted.

(** The default settings are sane *)
Example C64_sane_nonvacuous : sane default_conf /\ icanon default_conf = true.
Proof. split; [exact default_sane | reflexivity]. Qed.

(** h, x, Backspace, i, Enter, j, Enter, then reads of 2, 100 and 100 bytes *)
Example C64_nonvacuous : exists s,
  run (tty_init default_conf false)
      (keys [104; 120; 127; 105; 13; 106; 13] ++ [OBegin 2 true] ++ rsteps 6 ++
       [OBegin 100 true] ++ [OBegin 100 true] ++ rsteps 5) =
  Some (s, [RBytes [104; 105]; RBytes [10]; RBytes [106; 10]]).
Proof. eexists. vm_compute. reflexivity. Qed.

(** Ctrl+D on an empty line: a read of no bytes *)
Example C64_eof_nonvacuous : exists s,
  run (tty_init default_conf false) (keys [4] ++ [OBegin 100 true] ++ rsteps 4) = Some (s, [RBytes []]).
Proof. eexists. vm_compute. reflexivity. Qed.

(** Three bytes at a time *)
Example C64_raw_nonvacuous : exists s,
  run (tty_init (raw_conf 3) false)
      (keys [1; 2; 3; 4; 5] ++ [OBegin 100 true] ++ rsteps 7 ++ [OBegin 100 true] ++ rsteps 3 ++
       keys [6] ++ rsteps 5) =
  Some (s, [RBytes [1; 2; 3]; RBytes [4; 5; 6]]).
Proof. eexists. vm_compute. reflexivity. Qed.

Example C65_nonvacuous :
  typed_echo default_conf [104; 1] = [104; 94; 65] /\
  erased_echo default_conf [104; 1] = [127; 127; 127].
Proof. vm_compute. split; reflexivity. Qed.

