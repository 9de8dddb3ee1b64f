(** C31: brk. *)
From Verif Require Import Lib Brk_Model Brk_Spec Brk_Proofs.

(** After any history: every byte of the heap is mapped; the pages held are exactly those mapped at the heap's addresses, each once and nowhere else (nothing leaks, nothing is freed too early); the break is aligned, and the length of the region agrees with it. *)
Theorem C31_heap_is_mapped : forall max s, reach max s ->
  (forall a, heap s a -> read s a <> None) /\ (forall p, In p (owned s) <-> exists v, aligned v /\ heap s v /\ tab s v = Some p) /\ NoDup (owned s) /\
  (forall v v' p, aligned v -> heap s v -> tab s v = Some p -> tab s v' = Some p -> v' = v) /\ br_len s = brk s - br_vaddr s /\ aligned (brk s) /\ initial_brk s <= brk s.
Proof. exact exactly_mapped. Qed.
Print Assumptions C31_heap_is_mapped.

(** One call: the break is returned; only the pages between the old and the new break change; an invalid request changes nothing; a lower break is reached and its pages are gone; a higher break is reached as far as there are pages, or refused if something is mapped there. *)
Theorem C31_one_call : forall max s new ans s' r, reach max s -> fresh s [] ans -> sys_brk max s new ans = (s', r) ->
  r = brk s' /\ initial_brk s' = initial_brk s /\
  (forall v, ~ (aligned v /\ Z.min (brk s) (brk s') <= v < Z.max (brk s) (brk s')) -> tab s' v = tab s v) /\
  (~ valid max s new -> s' = s) /\
  (valid max s new -> new < brk s -> brk s' = new /\ forall v, aligned v -> new <= v < brk s -> tab s' v = None) /\
  (valid max s new -> brk s <= new -> room s new -> brk s' = Z.min new (brk s + PAGE * pages ans)) /\
  (valid max s new -> brk s <= new -> ~ room s new -> s' = s).
Proof. exact brk_call. Qed.
Print Assumptions C31_one_call.

(** A byte of the heap keeps its value until it is written or the break goes below it. *)
Theorem C31_contents_kept : forall max s o a, reach max s -> allowed s o -> heap s a -> heap (step max s o) a -> (forall v, o <> Write a v) -> read (step max s o) a = read s a.
Proof. exact contents_kept. Qed.
Print Assumptions C31_contents_kept.

(** What is written is read. *)
Theorem C31_write_read : forall max s a v, reach max s -> heap s a -> read (step max s (Write a v)) a = Some v.
Proof. exact write_read. Qed.
Print Assumptions C31_write_read.

(** The new bytes are not zero: they are what the kernel left in the page. *)
Theorem C31_zeroed_refuted : exists max s new ans a, reach max s /\ allowed s (Brk new ans) /\ ~ heap s a /\ read (step max s (Brk new ans)) a = Some 77.
Proof. exact not_zeroed. Qed.
Print Assumptions C31_zeroed_refuted.

(** Growing by three pages when only two can be had, then shrinking by one. *)
Example C31_nontrivial :
  let s0 := St (fun v => if v =? 4096 then Some 1 else None) 8192 8192 4096 4096 (fun _ _ => 0) [] in
  let s1 := fst (sys_brk 1000000 s0 20480 [Page 11; Page 12; NoMap 13]) in
  let s2 := step 1000000 (step 1000000 s1 (Write 8200 5)) (Brk 12288 []) in
  (brk s1, owned s1, tab s1 8192, tab s1 12288, tab s1 16384) = (16384, [12; 11], Some 11, Some 12, None) /\
  (brk s2, owned s2, tab s2 12288, read s2 8200, read s2 8201, br_len s2) = (12288, [11], None, Some 5, Some 0, 8192).
Proof. vm_compute. split; reflexivity. Qed.

