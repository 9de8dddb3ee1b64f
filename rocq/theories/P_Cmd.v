(** C75: the kernel's command line. *)
From Coq Require Import String Ascii.
From Verif Require Import Lib Itoa_Model Cmd_Model Cmd_Spec Cmd_Proofs4 Cmd_Refuted.

(** No line of bytes, with any table of options, leads outside the buffer of a word, args_buf or cmd_args. *)
Theorem C75_safe : forall w tbl dv junk buf line,
  clean line -> zlen junk = 4096 -> zlen buf = 256 -> (forall i, plain (dv i)) -> parse w tbl dv junk buf line <> Oob.
Proof. exact cmd_safe. Qed.
Print Assumptions C75_safe.

(** Only the first 255 bytes of each word count; spaces and what was in the buffers do not. *)
Theorem C75_words : forall w tbl dv junk buf buf' line line' ws ws',
  split line ws -> split line' ws' -> map trunc ws = map trunc ws' -> clean line -> clean line' -> zlen buf = 256 -> zlen buf' = 256 ->
  parse w tbl dv junk buf line = parse w tbl dv junk buf' line'.
Proof. exact cmd_words. Qed.
Print Assumptions C75_words.

(** A line of options with values: each variable has the last value given, the rest their defaults; no arguments: /initrd/bin/init. *)
Theorem C75_options : forall w tbl dv junk buf line its wss,
  check tbl = true -> Forall named tbl -> zlen junk = 4096 -> zlen buf = 256 -> (forall i, plain (dv i)) -> clean line ->
  split line (concat wss) -> Forall2 (item_is w tbl) its wss -> Forall (fun x => zlen x <= 255) (concat wss) -> costs (map cost its) < PAGE ->
  exists s, parse w tbl dv junk buf line = Ok s /\ (forall i, value s i = fold_left effect its (fun j => plain_value (dv j)) i) /\ argv s = [init_path].
Proof. exact cmd_options. Qed.
Print Assumptions C75_options.

(** After "--" or "-cmd": up to 15 words, as long as there is room, become the arguments unchanged, options before them keep their values; otherwise panic. *)
Theorem C75_arguments : forall w tbl dv junk buf line its wss x ys,
  check tbl = true -> Forall named tbl -> zlen junk = 4096 -> zlen buf = 256 -> (forall i, plain (dv i)) -> clean line ->
  split line (concat wss ++ x :: ys) -> Forall2 (item_is w tbl) its wss -> sep x -> Forall (fun x => zlen x <= 255) (concat wss ++ ys) -> costs (map cost its) < PAGE ->
  (zlen ys <= 15 -> costs (map cost its) + costs (map size1 ys) < PAGE ->
   exists s, parse w tbl dv junk buf line = Ok s /\ (forall i, value s i = fold_left effect its (fun j => plain_value (dv j)) i) /\ argv s = match ys with [] => [init_path] | _ => ys end) /\
  (15 < zlen ys \/ PAGE <= costs (map cost its) + costs (map size1 ys) -> parse w tbl dv junk buf line = Panic).
Proof. exact cmd_args. Qed.
Print Assumptions C75_arguments.

(** Without a separator no line panics. *)
Theorem C75_no_panic : forall w tbl dv junk buf line ws,
  split line ws -> clean line -> zlen junk = 4096 -> zlen buf = 256 -> (forall i, plain (dv i)) -> (forall x, In x ws -> ~ sep x) ->
  exists s, parse w tbl dv junk buf line = Ok s /\ argv s = [init_path].
Proof. exact cmd_no_panic. Qed.
Print Assumptions C75_no_panic.

(** In a table that passes the check of the debug build a word means one option. *)
Theorem C75_unique : forall tbl i j al al' t t' n,
  check tbl = true -> given tbl i al t n -> given tbl j al' t' n -> i = j.
Proof. exact cmd_unique. Qed.
Print Assumptions C75_unique.

(** There an option is no separator and no value. *)
Theorem C75_not_separator : forall tbl i al t n,
  check tbl = true -> Forall named tbl -> given tbl i al t n -> ~ sep n /\ ~ In n [w_0; w_1; w_true; w_false].
Proof. exact cmd_not_sep. Qed.
Print Assumptions C75_not_separator.

(** After validation ttys is in range, 1 with sercon; nothing else changes; names of self tests up to 246 bytes fit. *)
Theorem C75_validate : forall w tbl dv junk buf line s it ist isc tc mt z b,
  clean line -> zlen junk = 4096 -> zlen buf = 256 -> (forall i, plain (dv i)) -> parse w tbl dv junk buf line = Ok s ->
  1 <= tc <= mt -> it <> ist -> it <> isc -> value s it = ANum z -> value s isc = ABool b ->
  (forall x, value s ist = AStr (Some x) -> zlen x <= 246) ->
  exists s', validate it ist isc tc mt s = Ok s' /\ argv s' = argv s /\ (forall i, i <> it -> value s' i = value s i) /\
    value s' it = ANum (if b then 1 else if (1 <=? z) && (z <=? mt) then z else tc).
Proof. exact cmd_validate. Qed.
Print Assumptions C75_validate.

(** A self test with a name of 247 bytes overflows the buffer on the stack. *)
Theorem C75_selftest_refuted : exists s, clean (line_s 247) /\ boot (line_s 247) = Ok s /\ validate 0 1 3 3 9 s = Oob.
Proof. exact selftest_overflow. Qed.
Print Assumptions C75_selftest_refuted.

(** A value after an unknown word goes to the option before it. *)
Theorem C75_stray_value_refuted : unknown opts (tx "foo") /\ val_of (boot (tx "-sercon foo")) 3 = Some (ABool true) /\ val_of (boot (tx "-sercon foo false")) 3 = Some (ABool false).
Proof. exact stray_value. Qed.
Print Assumptions C75_stray_value_refuted.

(** Letters after a number are accepted. *)
Theorem C75_garbage_refuted : val_of (boot (tx "-ttys 5x")) 0 = Some (ANum 5).
Proof. exact garbage. Qed.
Print Assumptions C75_garbage_refuted.

(** The table of the source; options, aliases, values, arguments; 16 arguments; validation *)
Example C75_nonvacuous :
  check opts = true /\ Forall named opts /\
  (let r := boot (tx "  -ttys 5 -sercon -sat true -sercon false -selftest abc   -pk foo -- /bin/sh -c ls") in
   val_of r 0 = Some (ANum 5) /\ val_of r 1 = Some (AStr (Some (tx "abc"))) /\ val_of r 2 = Some (ABool true) /\ val_of r 3 = Some (ABool false) /\
   val_of r 8 = Some (ABool true) /\ val_of r 9 = Some (ABool false) /\ argv_of r = Some [tx "/bin/sh"; tx "-c"; tx "ls"]) /\
  argv_of (boot (tx "-noacpi")) = Some [init_path] /\
  boot (tx "-cmd a b c d e f g h i j k l m n o p") = Panic /\
  (exists s, boot (tx "-ttys 90") = Ok s /\ val_of (validate 0 1 3 3 9 s) 0 = Some (ANum 3)) /\
  item_is 32 opts (SetNum 0 false 5 (tx "5")) [tx "-ttys"; tx "5"] /\
  item_is 32 opts (SetBool 2 true true w_true) [tx "-sat"; w_true].
Proof.
  split; [vm_compute; reflexivity|]. split. { repeat constructor; vm_compute; congruence. } split. { vm_compute. repeat split. }
  split; [vm_compute; reflexivity|]. split; [vm_compute; reflexivity|]. split. { eexists. split; vm_compute; reflexivity. }
  split. { exists (tx "-ttys"), KLong. split; [eexists; split; [vm_compute; reflexivity|split; [reflexivity|split; [reflexivity|discriminate]]]|]. split; [|reflexivity]. eexists. vm_compute. reflexivity. }
  exists (tx "-sat"). split; [|split; [right; left; reflexivity|reflexivity]]. eexists. split; [vm_compute; reflexivity|split; [reflexivity|split; [reflexivity|discriminate]]].
Qed.

