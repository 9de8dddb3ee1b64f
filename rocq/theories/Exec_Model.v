(** Starting a program: the arguments and environment on the new stack
    (kernel/user.c:289-479, kernel/process.c:771-786, kernel/execve.c:58-92) and scripts
    (kernel/execve.c:163-214, 246-269, 328-396).

    Simplifications: pointers are numbers; the strings a pointer leads to are given by a
    function, except those in the headers.  The new stack is one array of bytes: its pages
    are mapped.  A store or load outside the header, or outside the row of argv_stack, of
    the current script is an outcome of its own ([SOob]). *)
From Verif Require Import Lib User_Model.

Definition E2BIG := -7.
Definition ENOEXEC := -8.
Definition ELOOP := -40.

(** * The new stack *)

Definition stk := Z -> Z.
(** memcpy to the stack *)
Fixpoint store (m : stk) (a : Z) (l : list Z) : stk :=
  match l with [] => m | b :: l => store (fupd m a b) (a + 1) l end.

(** A word in memory *)
Fixpoint wbytes (n : nat) (v : Z) : list Z :=
  match n with O => [] | S n => v mod 256 :: wbytes n (v / 256) end.

(** push_on_user_stack, kernel/user.c:380-385 *)
Definition push (c : cfg) (s : stk * Z) (v : Z) : stk * Z :=
  let sp := (snd s - word c) mod modulus c in (store (fst s) sp (wbytes (Z.to_nat (word c)) v), sp).

(** push_string_on_user_stack, kernel/user.c:387-404; [str] without its terminator *)
Definition push_str (c : cfg) (s : stk * Z) (str : list Z) : stk * Z :=
  let z := str ++ [0] in
  let len := zlen z in
  let al := len / 16 * 16 in
  let rem := len - al in
  let sp := (snd s - (al + (if 0 <? rem then 16 else 0))) mod modulus c in
  let m := store (fst s) sp (firstn (Z.to_nat al) z) in
  ((if 0 <? rem
    then store m (sp + al) (skipn (Z.to_nat al) z ++ repeat 0 (Z.to_nat (16 - rem)))
    else m), sp).

(** The loops that push strings, kernel/user.c:424-433: and the pointers *)
Fixpoint push_strs (c : cfg) (s : stk * Z) (l : list (list Z)) : stk * Z * list Z :=
  match l with
  | [] => (s, [])
  | x :: l => let s1 := push_str c s x in
              let '(s2, ps) := push_strs c s1 l in (s2, snd s1 :: ps)
  end.
Definition pushes (c : cfg) (s : stk * Z) (l : list Z) : stk * Z := fold_left (push c) l s.

(** push_args_on_user_stack, kernel/user.c:406-479; AT_PAGESZ is 6, AT_NULL 0 *)
Definition push_args (c : cfg) (s : stk * Z) (argv env : list (list Z)) : Z * (stk * Z) :=
  if 32 <? zlen argv then (E2BIG, s)
  else if 96 <? zlen env then (E2BIG, s)
  else
    let '(s1, ps) := push_strs c s argv in
    let '(s2, es) := push_strs c s1 env in
    let len := (2 + 2 + 1 + zlen env + 1 + zlen argv + 1) * word c in
    let al := (len + 15) / 16 * 16 in
    let s3 := pushes c s2 (repeat 0 (Z.to_nat ((al - len) / word c))) in
    let s4 := pushes c s3 [0; 0; 4096; 6] in
    let s5 := push c s4 0 in
    let s6 := pushes c s5 (rev es) in
    let s7 := push c s6 0 in
    let s8 := pushes c s7 (rev ps) in
    (0, push c s8 (zlen argv)).

(** USERMODE_STACK_MAX, config/kernel/config_mm.h:48-49 *)
Definition stack_max (c : cfg) : Z := (base c - 1) / 16 * 16.

(** * Copies of the old program's arguments *)

(** The bytes before the first 0 *)
Fixpoint cstr (l : list Z) : list Z :=
  match l with [] => [] | b :: l => if b =? 0 then [] else b :: cstr l end.

(** What the copies (kernel/user.c:213-287) are, as strings: [ps] are offsets from the
    beginning of the array of pointers, [data] follows it *)
Definition copied (c : cfg) (ps data : list Z) : list (list Z) :=
  map (fun o => cstr (skipn (Z.to_nat (o - word c * (zlen ps + 1))) data)) ps.

(** duplicate_user_argv, kernel/user.c:337-362; [None]: the copy stores outside the
    buffer (or has no fuel).  The error, or the strings and *written_ptr *)
Inductive dres := DErr (rc : Z) | DOk (strs : list (list Z)) (w : Z).
Definition dup_argv (c : cfg) (rd : mem) (fuel : nat) (dest arr size w : Z) : option dres :=
  if size <=? w then Some (DErr E2BIG)
  else match copy_str_array c rd fuel (dest + w) arr (size - w) with
       | Res rc _ ps data k =>
           if rc <? 0 then Some (DErr EFAULT) else if 0 <? rc then Some (DErr E2BIG)
           else Some (DOk (copied c ps data) (w + k))
       | _ => None
       end.

(** execve_get_args, kernel/execve.c:58-92: [buf]: args_copybuf, of 4096 bytes; a NULL
    pointer means the default (None) *)
Inductive gres := GErr (rc : Z) | GOk (argv env : option (list (list Z))).
Definition get_args (c : cfg) (rd : mem) (fuel : nat) (buf ua ue : Z) : option gres :=
  let fin (a : option (list (list Z))) (w : Z) :=
    if ue =? 0 then Some (GOk a None)
    else match dup_argv c rd fuel buf ue 4096 w with
         | None => None
         | Some (DErr rc) => Some (GErr rc)
         | Some (DOk e _) => Some (GOk a (Some e))
         end in
  if ua =? 0 then fin None 0
  else match dup_argv c rd fuel buf ua 4096 0 with
       | None => None
       | Some (DErr rc) => Some (GErr rc)
       | Some (DOk a w) => fin (Some a) w
       end.

(** * Scripts *)

Definition hsize := 128.      (* ELF_RAW_HEADER_SIZE *)
Definition slots := 32.       (* USERAPP_MAX_ARGS_COUNT *)

(** kernel/execve.c:175-178: the number of arguments; [None]: too many *)
Fixpoint nargs (argv : Z -> Z) (fuel : nat) (i : Z) : option Z :=
  match fuel with
  | O => None
  | S fuel => if argv i =? 0 then Some i
              else if slots - 2 <=? i then None
              else nargs argv fuel (i + 1)
  end.

(** kernel/execve.c:183: the first byte that is not a space.  [None]: outside the header *)
Fixpoint skip_sp (fuel : nat) (h : list Z) (p : Z) : option Z :=
  match fuel with
  | O => None
  | S fuel => match aget h p with
              | None => None
              | Some b => if b =? 32 then skip_sp fuel h (p + 1) else Some p
              end
  end.

(** The loop, kernel/execve.c:189-210, up to the newline.  [hd]: hdr; [l] as in the code *)
Inductive scan_res := NoLine | Oob | Line (h : list Z) (l : option Z).
Fixpoint scan (fuel : nat) (h : list Z) (hd p : Z) (l : option Z) : scan_res :=
  match fuel with
  | O => Oob
  | S fuel =>
      match aget h p with
      | None => Oob
      | Some b =>
          if (b =? 0) || (hd + hsize <=? p) then NoLine
          else
            let blank := (b =? 32) && (match l with None => true | _ => false end) in
            match (if blank then aset h p 0 else Some h) with
            | None => Oob
            | Some h1 =>
                let p1 := if blank then p + 1 else p in
                let l1 := if blank then Some (p + 1) else l in
                match aget h1 p1 with
                | None => Oob
                | Some b1 =>
                    if b1 =? 10
                    then match aset h1 p1 0 with None => Oob | Some h2 => Line h2 l1 end
                    else scan fuel h1 hd (p1 + 1) l1
                end
            end
      end
  end.

(** execve_handle_script, kernel/execve.c:163-214, up to the call of do_execve_int.  [hb]:
    address of the header [h]; [row]: ctx->argv_stack[ctx->reclvl] *)
Inductive sres := SErr (rc : Z) | SOob | SRun (h row : list Z).
Definition handle_script (hb : Z) (h row : list Z) (path : Z) (argv : Z -> Z) : sres :=
  match aset h (hsize - 1) 0 with
  | None => SOob
  | Some h =>
    match nargs argv 40 0 with
    | None => SErr E2BIG
    | Some n =>
      match skip_sp 200 h 2 with
      | None => SOob
      | Some hd =>
        if znth 0 h hd =? 0 then SErr ENOEXEC
        else
          match scan 200 h hd hd None with
          | NoLine => SErr ENOEXEC
          | Oob => SOob
          | Line h l =>
              let pre := match l with None => [hb + hd] | Some l => [hb + hd; hb + l] end in
              match mem_write row 0 (pre ++ map (fun i => argv (Z.of_nat i)) (seq 0 (Z.to_nat n)) ++ [0]) with
              | None => SOob
              | Some row =>
                  match aset row (match l with None => 1 | _ => 2 end) path with
                  | None => SOob
                  | Some row => SRun h row
                  end
              end
          end
      end
    end
  end.

(** load_elf_program as seen from here: the program was loaded, or the error and the first
    128 bytes of the file, padded with 0 (kernel/execve.c:246-255, kernel/elf.c:241-262) *)
Inductive lres := LOk | LErr (rc : Z) (h : list Z).

(** The arguments up to NULL, at most 33 of them, kernel/process.c:782-783 *)
Fixpoint arg_ptrs (fuel : nat) (argv : Z -> Z) (i : Z) : list Z :=
  match fuel with
  | O => []
  | S fuel => if argv i =? 0 then [] else argv i :: arg_ptrs fuel argv (i + 1)
  end.

(** do_execve_int and execve_load_elf, kernel/execve.c:246-269, 328-362, for a process that
    is not killed by handle_noexec: the path and arguments the new program starts with.
    [hb], [rows]: addresses of the headers, contents of argv_stack; [sm]: strings in memory *)
Inductive xres := XErr (rc : Z) | XOob | XRun (path : list Z) (argv : list (list Z)).
Fixpoint exec_int (more : nat) (load : list Z -> lres) (hb : Z -> Z) (rows : Z -> list Z) (lvl : Z)
  (sm : Z -> list Z) (path : Z) (argv : Z -> Z) : xres :=
  match load (sm path) with
  | LOk =>
      let ps := arg_ptrs 33 argv 0 in
      if 32 <? zlen ps then XErr E2BIG else XRun (sm path) (map sm ps)
  | LErr rc h =>
      if (rc =? ENOEXEC) && (znth 0 h 0 =? 35) && (znth 0 h 1 =? 33) then
        match more with
        | O => XErr ELOOP
        | S more =>
            match handle_script (hb lvl) h (rows lvl) path argv with
            | SErr rc => XErr rc
            | SOob => XOob
            | SRun h row =>
                let sm' p := if (hb lvl <=? p) && (p <? hb lvl + hsize)
                             then cstr (skipn (Z.to_nat (p - hb lvl)) h) else sm p in
                exec_int more load hb rows (lvl + 1) sm' (znth 0 row 0)
                  (fun i => if i <? slots then znth 0 row i else znth 0 (rows (lvl + 1)) (i - slots))
            end
        end
      else XErr rc
  end.
(** MAX_SCRIPT_REC is 2 *)
Definition exec := exec_int 2.
