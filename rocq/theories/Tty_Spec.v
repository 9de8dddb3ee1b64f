(** What a terminal in canonical mode should do, for C64: keys edit a line,
    complete lines queue up, and each read() takes from the oldest line only. *)
From Verif Require Import Lib Tty_Model.

(** *** What a key means *)

Inductive meaning :=
| MNone                  (* swallowed *)
| MFlush                 (* Ctrl+C, Ctrl+\: the typed input is thrown away *)
| MErase                 (* erase one character of the current line *)
| MEnd (c : Z)           (* ends the line *)
| MData (c : Z).         (* one more character *)

(** A special character of value 0 is disabled *)
Definition is_cc (v c : Z) : bool := negb (v =? 0) && (c =? v).

(** The meaning of a key in canonical mode, in the order of the standard:
    carriage returns, signals, flow control, line editing, line ends. *)
Definition canon_meaning (k : tconf) (c0 : Z) : meaning :=
  if (c0 =? 13) && igncr k then MNone
  else
    let c := if (c0 =? 13) && icrnl k then 10
             else if (c0 =? 10) && inlcr k then 13 else c0 in
    if isig k && (is_cc (vintr k) c || is_cc (vquit k) c) then MFlush
    else if isig k && is_cc (vsusp k) c then MNone
    else if ixon k && (is_cc (vstart k) c || is_cc (vstop k) c) then MNone
    else if is_cc (vreprint k) c || (iexten k && is_cc (vlnext k) c) then MNone
    else if is_cc (verase k) c then MErase
    else if (c =? 10) || is_cc (veof k) c || is_cc (veol k) c || is_cc (veol2 k) c
         then MEnd c
    else MData c.

(** The special characters, and a sane setting: those in use are pairwise
    different and none of them is a newline or a carriage return; erase and
    end-of-file are in use. *)
Definition specials (k : tconf) : list Z :=
  [verase k; veof k; veol k; veol2 k; vintr k; vquit k; vsusp k; vstart k;
   vstop k; vreprint k; vdiscard k; vlnext k].

Definition in_use (k : tconf) : list Z :=
  filter (fun v => negb (v =? 0)) (specials k).

Definition sane (k : tconf) : Prop :=
  NoDup (in_use k) /\ ~ In 10 (in_use k) /\ ~ In 13 (in_use k) /\
  verase k <> 0 /\ veof k <> 0 /\ 0 <= vmin k <= 255.

(** *** The line queue *)

(** [pend]: bytes of a line of which an earlier read took the beginning;
    [lines]: complete lines, oldest first, each with the character that ended
    it; [cur]: the line being typed. *)
Record tab := Ab { pend : list Z; lines : list (list Z); cur : list Z }.

Definition ab_init : tab := Ab [] [] [].

(** A key; [full]: the input buffer is full, more characters are dropped *)
Definition ab_key (a : tab) (m : meaning) (full : bool) : tab :=
  match m with
  | MNone => a
  | MFlush => Ab (pend a) [] []
  | MErase => Ab (pend a) (lines a) (removelast (cur a))
  | MEnd c => Ab (pend a) (lines a ++ [cur a ++ [c]]) []
  | MData c => if full then a else Ab (pend a) (lines a) (cur a ++ [c])
  end.

(** What the reader sees of a line: everything but an end-of-file character *)
Definition shown (k : tconf) (l : list Z) : list Z :=
  if last l 0 =? veof k then removelast l else l.

Definition has_input (a : tab) : Prop := pend a <> [] \/ lines a <> [].

(** A read of [n] bytes when there is input *)
Definition ab_read (k : tconf) (a : tab) (n : Z) : list Z * tab :=
  match pend a with
  | [] =>
      match lines a with
      | [] => ([], a)
      | l :: ls =>
          let b := shown k l in
          (firstn (Z.to_nat n) b, Ab (skipn (Z.to_nat n) b) ls (cur a))
      end
  | p => (firstn (Z.to_nat n) p, Ab (skipn (Z.to_nat n) p) (lines a) (cur a))
  end.

(** *** Executions *)

Definition is_full (s : st) : bool := negb (zlen (q s) <? INPUT_BS).

(** The reader is not in the middle of taking a line *)
Definition quiet (s : st) : Prop :=
  match rd s with
  | None => True
  | Some r => rpc r = PTop \/ rpc r = PWait
  end.

(** What may happen: no NUL is typed; with the input buffer full nothing that
    ends a line is typed and no writer waits; erase only with a current line to
    erase from, or with nothing buffered at all; Ctrl+C not in the middle of a
    read taking a line; the settings stay. *)
Definition may (s : st) (a : tab) (o : op) : Prop :=
  match o with
  | OKey c b =>
      0 < c < 256 /\
      match canon_meaning (cf s) c with
      | MNone => True
      | MFlush => quiet s
      | MErase => cur a <> [] \/ q s = []
      | MEnd _ => is_full s = false
      | MData _ => is_full s = false \/ b = false
      end
  | OWr => False
  | OBegin n _ => 0 <= n /\ rd s = None
  | OStep => rd s <> None
  | OSig _ => True
  | OSetc _ _ => False
  | ONb _ => False
  end.

(** The size the current or starting read was called with *)
Definition size_of (s : st) (o : op) : Z :=
  match o with
  | OBegin n _ => n
  | _ => match rd s with Some r => rsz r | None => 0 end
  end.

(** The line queue after an operation with that result *)
Definition ab_step (s : st) (a : tab) (o : op) (r : option result) : tab :=
  match o with
  | OKey c _ => ab_key a (canon_meaning (cf s) c) (is_full s)
  | _ => match r with
         | Some (RBytes _) =>
             if size_of s o =? 0 then a else snd (ab_read (cf s) a (size_of s o))
         | _ => a
         end
  end.

(** The result an operation may have *)
Definition good (s : st) (a : tab) (o : op) (r : option result) : Prop :=
  match r with
  | None => True
  | Some (RBytes b) =>
      let n := size_of s o in
      if n =? 0 then b = []
      else has_input a /\ b = fst (ab_read (cf s) a n)
  | Some REagain => hnb (hh s) = true /\ ~ has_input a
  | Some REintr => sg s = true /\ ~ has_input a
  | Some REio => match o with OBegin _ ok => ok = false | _ => False end
  end.

(** States reachable from a fresh terminal in canonical mode, with the line
    queue that the keys and reads so far amount to *)
Inductive creach (k : tconf) (nb : bool) : st -> tab -> Prop :=
| creach0 : creach k nb (tty_init k nb) ab_init
| creachS s a o s' r :
    creach k nb s a -> may s a o -> step s o = Some (s', r) ->
    creach k nb s' (ab_step s a o r).

(** [n] steps of the reader *)
Fixpoint steps (n : nat) (s : st) : option (st * option result) :=
  match n with
  | O => Some (s, None)
  | S n' =>
      match step s OStep with
      | None => None
      | Some (s', Some r) => Some (s', Some r)
      | Some (s', None) => steps n' s'
      end
  end.

(** *** Raw mode: a plain queue of bytes *)

(** What may happen in raw mode: as above, and no read asks for fewer bytes
    than VMIN. *)
Definition rmay (s : st) (o : op) : Prop :=
  match o with
  | OKey c b => 0 < c < 256 /\ (is_full s = false \/ b = false) /\
                (quiet s \/ isig (cf s) = false)
  | OWr => False
  | OBegin n _ => rd s = None /\ 0 <= n /\ (n = 0 \/ vmin (cf s) <= n)
  | OStep => rd s <> None
  | OSig _ => True
  | OSetc _ _ => False
  | ONb _ => False
  end.

Definition raw_meaning (k : tconf) (c0 : Z) : meaning :=
  if (c0 =? 13) && igncr k then MNone
  else
    let c := if (c0 =? 13) && icrnl k then 10
             else if (c0 =? 10) && inlcr k then 13 else c0 in
    if isig k && (is_cc (vintr k) c || is_cc (vquit k) c) then MFlush
    else if isig k && is_cc (vsusp k) c then MNone
    else if ixon k && (is_cc (vstart k) c || is_cc (vstop k) c) then MNone
    else if iexten k && (is_cc (vreprint k) c || is_cc (vlnext k) c) then MNone
    else MData c.

(** [b]: the bytes typed and not yet returned *)
Definition raw_key (b : list Z) (m : meaning) (full : bool) : list Z :=
  match m with
  | MFlush => []
  | MData c => if full then b else b ++ [c]
  | _ => b
  end.

Definition raw_step (s : st) (b : list Z) (o : op) (r : option result) : list Z :=
  match o with
  | OKey c _ => raw_key b (raw_meaning (cf s) c) (is_full s)
  | _ => match r with
         | Some (RBytes x) => skipn (length x) b
         | _ => b
         end
  end.

Definition raw_good (s : st) (b : list Z) (o : op) (r : option result) : Prop :=
  match r with
  | None => True
  | Some (RBytes x) =>
      if size_of s o =? 0 then x = []
      else x = firstn (length x) b /\
           (zlen x = Z.max 1 (vmin (cf s)) \/ (vmin (cf s) = 0 /\ x = []))
  | Some REagain => hnb (hh s) = true /\ zlen b < vmin (cf s)
  | Some REintr => sg s = true /\ zlen b < vmin (cf s)
  | Some REio => match o with OBegin _ ok => ok = false | _ => False end
  end.

Inductive rreach (k : tconf) (nb : bool) : st -> list Z -> Prop :=
| rreach0 : rreach k nb (tty_init k nb) []
| rreachS s b o s' r :
    rreach k nb s b -> rmay s o -> step s o = Some (s', r) ->
    rreach k nb s' (raw_step s b o r).

(** *** Echo: what is on the screen line *)

(** Cells drawn so far, last one first: the erase character removes a cell, any
    other byte draws one. *)
Fixpoint scr (k : tconf) (cells : list Z) (out : list Z) : list Z :=
  match out with
  | [] => cells
  | c :: out' => scr k (if c =? verase k then tl cells else c :: cells) out'
  end.

(** A character whose echo has a width: typed into the line, not one of those
    with a special echo. *)
Definition plain_echo (k : tconf) (c : Z) : Prop :=
  0 <= c < 256 /\ c <> verase k /\ sch c <> veof k /\ sch c <> vkill k /\
  sch c <> vwerase k /\ (c = 10 -> echonl k = false) /\
  (as_caret k c = true -> verase k <> 94 /\ verase k <> (c + 64) mod 256).

(** The echo of typing [l], then of erasing all of it *)
Definition typed_echo (k : tconf) (l : list Z) : list Z := concat (map (key_echo k) l).
Definition erased_echo (k : tconf) (l : list Z) : list Z :=
  concat (map (drop_echo k) (rev l)).

(** *** For the refutations *)

(** However long the reader runs, it does not return *)
Definition never_returns (s : st) : Prop :=
  forall n, exists s', steps n s = Some (s', None).

(** A terminal in raw mode, reading at least [v] bytes at a time *)
Definition raw_conf (v : Z) : tconf := {|
  icanon := false; isig := false; iexten := false;
  echo := false; echoe := false; echok := false; echonl := false; echoctl := false;
  igncr := false; icrnl := false; inlcr := false; ixon := false;
  vmin := v; verase := 127; veof := 4; veol := 0; veol2 := 0;
  vintr := 3; vquit := 28; vsusp := 26; vstart := 17; vstop := 19;
  vreprint := 18; vdiscard := 15; vlnext := 22; vkill := 21; vwerase := 23
|}.

Definition keys (l : list Z) : list op := map (fun c => OKey c false) l.
Definition bkeys (l : list Z) : list op := map (fun c => OKey c true) l.
Definition rsteps (n : nat) : list op := repeat OStep n.
