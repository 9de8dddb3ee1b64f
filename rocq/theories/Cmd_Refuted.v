(** The options of the source, and command lines with surprising results. *)
From Coq Require Import String Ascii.
From Verif Require Import Lib Itoa_Model Cmd_Model Cmd_Spec.
From Coq Require Import ssreflect.

Definition tx (s : string) : list Z := map (fun c => Z.of_nat (nat_of_ascii c)) (list_ascii_of_string s).
(** include/tilck/common/cmdline_opts.h:17-33 *)
Definition opts : list kopt := map (fun '(n, a, t) => Kopt (tx n) (tx a) t)
  [("ttys", "", KLong); ("selftest", "", KWord); ("sched_alive_thread", "sat", KBool); ("sercon", "", KBool); ("noacpi", "", KBool);
   ("fb_no_opt", "", KBool); ("fb_no_wc", "", KBool); ("no_fpu_memcpy", "", KBool); ("panic_kb", "pk", KBool); ("panic_nobt", "nobt", KBool);
   ("panic_regs", "pr", KBool); ("panic_mmap", "pm", KBool); ("big_scroll_buf", "bb", KBool); ("ps2_log", "plg", KBool); ("ps2_selftest", "pse", KBool)]%string.
Definition dv0 (i : nat) : val := match i with O => VNum 3 | S O => VPtr PNull | _ => VBool false end.
Definition junk0 : list Z := repeat 255 (Z.to_nat 4096).
Definition buf0 : list Z := repeat 7 (Z.to_nat 256).
Definition boot (l : list Z) : out ps := parse 32 opts dv0 junk0 buf0 l.
Definition val_of (o : out ps) (i : nat) : option aval := match o with Ok s => Some (value s i) | _ => None end.
Definition argv_of (o : out ps) : option (list (list Z)) := match o with Ok s => Some (argv s) | _ => None end.

(** "-selftest aaa…", [n] letters *)
Definition line_s (n : Z) : list Z := tx "-selftest " ++ repeat 97 (Z.to_nat n).
Lemma selftest_overflow : exists s, clean (line_s 247) /\ boot (line_s 247) = Ok s /\ validate 0 1 3 3 9 s = Oob.
Proof.
  eexists. split; [|split; [vm_compute; reflexivity|vm_compute; reflexivity]].
  have E : forallb (fun c => negb (c =? 0)) (line_s 247) = true by vm_compute. move => I. rewrite forallb_forall in E. by move: (E _ I).
Qed.
Lemma stray_value : unknown opts (tx "foo") /\ val_of (boot (tx "-sercon foo")) 3 = Some (ABool true) /\ val_of (boot (tx "-sercon foo false")) 3 = Some (ABool false).
Proof.
  split; [|split; vm_compute; reflexivity]. split; [by cbn => -[|[|[|[|]]]]|split; [by case|]].
  have E : forallb (fun k => negb (eqw (tx "foo") (45 :: kname k)) && negb (eqw (tx "foo") (45 :: kalias k))) opts = true by vm_compute.
  move => k I. split; by [].
Qed.
Lemma garbage : val_of (boot (tx "-ttys 5x")) 0 = Some (ANum 5).
Proof. vm_compute; reflexivity. Qed.
