(** C70, C71: arguments of a new program, scripts. *)
From Verif Require Import Lib User_Model User_Spec Exec_Model Exec_Spec Exec_Proofs Exec_Proofs2 Exec_Proofs3 Exec_Proofs4 Exec_Proofs5 Exec_Refuted.

(** What execve copies from the old program: both arrays of strings when they are readable and fit 4096 bytes together, an error otherwise; memory outside the buffer is not written. *)
Theorem C70_copied : forall c rd fuel, good_cfg c -> paged rd -> (forall a b, rd a = Some b -> 0 <= b < 256) -> (0 < fuel)%nat ->
  forall buf ua ue,
  0 <= ua -> ua + word c < modulus c -> 0 <= ue -> ue + word c < modulus c -> 0 <= buf ->
  short_array c rd (buf + 4096) ua -> short_array c rd (buf + 4096) ue ->
  base c < word c * Z.of_nat fuel ->
  exists r, get_args c rd fuel buf ua ue = Some r /\
    match r with
    | GOk a e => given c rd ua a /\ given c rd ue e /\ fit c a e
    | GErr rc => (rc = EFAULT \/ rc = E2BIG) /\ forall a e, given c rd ua a -> given c rd ue e -> ~ fit c a e
    end.
Proof. exact get_args_ok. Qed.
Print Assumptions C70_copied.

(** The new stack: below the old stack pointer the count, the arguments, NULL, the environment, NULL and the auxiliary vector; every pointer leads to its string; the stack pointer is a multiple of 16; nothing else is written. *)
Theorem C70_stack : forall c m sp argv env,
  good_cfg c -> sp mod 16 = 0 -> used c argv env <= sp < modulus c ->
  zlen argv <= 32 -> zlen env <= 96 ->
  exists m', push_args c (m, sp) argv env = (0, (m', sp - used c argv env)) /\
    (sp - used c argv env) mod 16 = 0 /\ layout c m' (sp - used c argv env) sp argv env /\
    forall x, ~ (sp - used c argv env <= x < sp) -> m' x = m x.
Proof. exact args_ok. Qed.
Print Assumptions C70_stack.

(** More than 32 arguments or 96 variables: E2BIG, and nothing is written. *)
Theorem C70_too_many : forall c s argv env,
  32 < zlen argv \/ 96 < zlen env -> push_args c s argv env = (E2BIG, s).
Proof. exact args_big. Qed.
Print Assumptions C70_too_many.

(** Both together: the strings of the old program are what the new one finds, within the two pages below the kernel. *)
Theorem C70_exec : forall c rd fuel buf ua ue m argv env,
  good_cfg c -> 8192 <= base c -> paged rd ->
  (forall a b, rd a = Some b -> 0 <= b < 256) ->
  0 < ua -> ua + word c < modulus c -> 0 < ue -> ue + word c < modulus c -> 0 <= buf ->
  short_array c rd (buf + 4096) ua -> short_array c rd (buf + 4096) ue -> base c < word c * Z.of_nat fuel ->
  strings_at c rd ua argv -> strings_at c rd ue env -> fit c (Some argv) (Some env) ->
  zlen argv <= 32 -> zlen env <= 96 ->
  get_args c rd fuel buf ua ue = Some (GOk (Some argv) (Some env)) /\
  exists m' sp, push_args c (m, stack_max c) argv env = (0, (m', sp)) /\
    sp mod 16 = 0 /\ base c - 8192 <= sp /\ layout c m' sp (stack_max c) argv env /\
    forall x, ~ (sp <= x < stack_max c) -> m' x = m x.
Proof. exact exec_stack. Qed.
Print Assumptions C70_exec.

(** Running a script runs its interpreter with its argument, the path of the script and the arguments, through at most two scripts. *)
Theorem C71_starts : forall load hb rows sm path argv p strs q strs',
  buffers hb rows -> starts load 2 p strs q strs' ->
  points sm argv strs -> sm path = p -> path <> 0 -> outside hb path ->
  (forall i, 0 <= i < zlen strs -> outside hb (argv i)) ->
  exec load hb rows 0 sm path argv = XRun q strs'.
Proof. exact exec_runs. Qed.
Print Assumptions C71_starts.

(** Three scripts, one the interpreter of the other: ELOOP. *)
Theorem C71_nested : forall load hb rows sm path argv p strs,
  buffers hb rows -> deep load 2 p strs ->
  points sm argv strs -> sm path = p -> path <> 0 -> outside hb path ->
  (forall i, 0 <= i < zlen strs -> outside hb (argv i)) ->
  exec load hb rows 0 sm path argv = XErr ELOOP.
Proof. exact exec_deep. Qed.
Print Assumptions C71_nested.

(** What is neither a program nor begins with #! fails with the error of the loader. *)
Theorem C71_error : forall load hb rows sm path argv rc h,
  load (sm path) = LErr rc h ->
  rc <> ENOEXEC \/ znth 0 h 0 <> 35 \/ znth 0 h 1 <> 33 -> exec load hb rows 0 sm path argv = XErr rc.
Proof. exact exec_err. Qed.
Print Assumptions C71_error.

(** One script: the new arguments are pointers into the header, cut at the blank and at the end of the line. *)
Theorem C71_header : forall hb h row path argv n interp arg,
  script h interp arg -> zlen row = slots ->
  1 <= n -> n + zlen (extra arg) <= 30 -> (forall i, 0 <= i < n -> argv i <> 0) -> argv n = 0 ->
  exists h' hd la junk, handle_script hb h row path argv =
      SRun h' ((hb + hd) :: (match arg with None => [] | Some _ => [hb + la] end) ++
               path :: ptrs (fun i => argv (i + 1)) (n - 1) ++ 0 :: junk) /\
    0 <= hd < hsize /\ 0 <= la < hsize /\ cstr (skipn (Z.to_nat hd) h') = interp /\
    (forall a, arg = Some a -> cstr (skipn (Z.to_nat la) h') = a).
Proof. exact script_ok. Qed.
Print Assumptions C71_header.

(** 31 arguments or more: E2BIG. *)
Theorem C71_too_many : forall hb h row path argv,
  zlen h = hsize -> (forall i, 0 <= i <= 30 -> argv i <> 0) ->
  handle_script hb h row path argv = SErr E2BIG.
Proof. exact script_many. Qed.
Print Assumptions C71_too_many.

(** A script only runs with a complete first line in the first 127 bytes (a NUL right behind the first blank is taken as an empty argument). *)
Theorem C71_only_lines : forall hb h row path argv h' row',
  zlen h = hsize -> znth 0 h 0 = 35 -> znth 0 h 1 = 33 ->
  handle_script hb h row path argv = SRun h' row' ->
  exists k interp arg rest, h = line k interp arg ++ rest /\ zlen (line k interp arg) < hsize /\
    Forall (fun b => b <> 0 /\ b <> 10 /\ b <> 32) interp /\
    (forall y a, arg = Some (y :: a) -> y <> 10 /\ Forall (fun b => b <> 0 /\ b <> 10) a).
Proof. exact script_only. Qed.
Print Assumptions C71_only_lines.

(** A script called with an empty argument array: the path overwrites the NULL at the end, and the new array goes on with what the row held before. *)
Theorem C71_no_args_refuted : forall hb h row path argv interp arg,
  script h interp arg -> zlen row = slots -> argv 0 = 0 ->
  exists h' hd la, handle_script hb h row path argv =
    SRun h' ((hb + hd) :: (match arg with None => [] | Some _ => [hb + la] end) ++
             path :: skipn (match arg with None => 2 | Some _ => 3 end) row).
Proof. exact no_args. Qed.
Print Assumptions C71_no_args_refuted.

(** 30 arguments and an interpreter with an argument: a store behind the row of 32 pointers. *)
Theorem C71_row_overflow_refuted : forall hb h row path argv interp a,
  script h interp (Some a) -> zlen row = slots ->
  (forall i, 0 <= i < 30 -> argv i <> 0) -> argv 30 = 0 -> handle_script hb h row path argv = SOob.
Proof. exact row_overflow. Qed.
Print Assumptions C71_row_overflow_refuted.

(** With up to 30 arguments the only error is ENOEXEC. *)
Theorem C71_errors : forall hb h row path argv rc n,
  0 <= n <= 30 -> argv n = 0 -> handle_script hb h row path argv = SErr rc -> rc = ENOEXEC.
Proof. exact script_errs. Qed.
Print Assumptions C71_errors.

(** Nothing but blanks after "#!": ENOEXEC. *)
Theorem C71_blank : forall hb k rest row path argv n,
  0 <= n <= 30 -> argv n = 0 -> 2 + Z.of_nat k + 1 + zlen rest = hsize ->
  handle_script hb ([35; 33] ++ repeat 32 k ++ 0 :: rest) row path argv = SErr ENOEXEC.
Proof. exact script_blank. Qed.
Print Assumptions C71_blank.

(** A first blank at byte 126: the scan steps over the terminator at byte 127 and leaves the header. *)
Theorem C71_header_overrun_refuted : forall hb k interp x row path argv n,
  interp <> [] ->
  Forall (fun b => b <> 0 /\ b <> 10 /\ b <> 32) interp ->
  2 + Z.of_nat k + zlen interp = 126 -> 0 <= n <= 30 -> (forall i, 0 <= i < n -> argv i <> 0) -> argv n = 0 ->
  handle_script hb ([35; 33] ++ repeat 32 k ++ interp ++ [32; x]) row path argv = SOob.
Proof. exact header_overrun. Qed.
Print Assumptions C71_header_overrun_refuted.

(** "sh" with "A=1" below 4096: count 1, a pointer to each string, page size *)
Example C70_nonvacuous :
  let '(rc, (m, sp)) := push_args i386 (fun _ => 255, 4096) [[115; 104]] [[65; 61; 49]] in
  (rc, sp) = (0, 4016) /\
  map (fun i => word_at i386 m (sp + 4 * i)) [0; 1; 2; 3; 4; 5; 6; 7; 8] = [1; 4080; 0; 4064; 0; 6; 4096; 0; 0] /\
  map m [4080; 4081; 4082] = [115; 104; 0] /\ map m [4064; 4065; 4066; 4067; 4015] = [65; 61; 49; 0; 255].
Proof. vm_compute. do 3 (split; [reflexivity |]). reflexivity. Qed.

(** "s" begins with "#! i x"; called as "s 1" it runs "i x s 1"; a script that is its own interpreter: ELOOP *)
Example C71_nonvacuous :
  let pad l := l ++ repeat 0 (128 - length l) in
  let load p := match p with [105] => LOk | [115] => LErr ENOEXEC (pad [35; 33; 32; 105; 32; 120; 10])
                | _ => LErr ENOEXEC (pad ([35; 33] ++ p ++ [10])) end in
  let hb l := 1000 + 128 * l in let rows _ := repeat 7 32 in
  let argv i := if i =? 0 then 10 else if i =? 1 then 20 else 0 in
  let sm p := if p =? 20 then [49] else if p =? 30 then [115] else [116] in
  exec load hb rows 0 sm 30 argv = XRun [105] [[105]; [120]; [115]; [49]] /\
  exec load hb rows 0 sm 10 argv = XErr ELOOP.
Proof. vm_compute. split; reflexivity. Qed.

