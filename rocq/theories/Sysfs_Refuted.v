(** Histories where the code does not do what its comments or its names say. *)
From Coq Require Import ssreflect.
From Verif Require Import Lib List_Model Itoa_Model Sysfs_Model Sysfs_Spec.

(** one property of 8 bytes *)
Definition sz8 : Z -> Z := fun _ => 8.
Definition empty : Z -> list Z := fun _ => [].
Definition abc : list Z := [97; 98; 99].
Notation go junk := (run 32 sz8 junk (init empty)).

(** two writes, as by any program whose output is longer than its buffer *)
Definition two_writes : list op := [Open 0; Write 1 abc; Write 1 abc; Fsync 1; Close 1; Open 0; Read 2 8].
Definition results (r : option (list ret * st)) : option (list ret) := option_map fst r.
Definition contents (r : option (list ret * st)) : option (list Z) := option_map (fun x => props (snd x) 0) r.
Lemma two_writes_lost junk : results (go junk two_writes) = Some [Num 1; Num 3; Num 3; Unit; Unit; Num 2; Bytes []] /\
  contents (go junk two_writes) = Some [] /\ go junk (two_writes ++ [Syncfs]) = None.
Proof. by vm_compute. Qed.
(** syncfs, then fsync and close *)
Definition synced : list op := [Open 0; Write 1 abc; Syncfs; Fsync 1; Close 1; Open 0; Read 2 8].
Lemma syncfs_loses junk : results (go junk synced) = Some [Num 1; Num 3; Unit; Unit; Unit; Num 2; Bytes []] /\ contents (go junk synced) = Some [].
Proof. by vm_compute. Qed.
(** dup does not write the data: the two handles of one program see different files; and at
    the position of the old handle the new one fails an assertion *)
Definition dupped : list op := [Open 0; Write 1 abc; Dup 1; Seek 2 0 0; Read 2 8].
Lemma dup_stale junk : results (go junk dupped) = Some [Num 1; Num 3; Num 2; Num 0; Bytes []] /\
  go junk [Open 0; Write 1 abc; Dup 1; Read 2 8] = None.
Proof. by vm_compute. Qed.
(** a duplicate is closed after the handle it comes from: freed memory is read *)
Lemma dup_freed junk : go junk [Open 0; Dup 1; Read 2 8; Close 1; Close 2] = None.
Proof. by vm_compute. Qed.
(** seek behind the end *)
Lemma seek_behind junk : go junk [Open 0; Seek 1 2 0; Read 1 1] = None /\
  results (go junk [Open 0; Seek 1 0 2; Write 1 abc; Seek 1 0 0; Read 1 8]) =
  Some [Num 1; Num 2; Num 3; Num 0; Bytes [junk 0%nat; junk 1%nat; 97; 98; 99]].
Proof. by vm_compute. Qed.

(** property types *)
Lemma long_overflow w sgn v mem n : 32 < n -> num_store w sgn v mem n = None.
Proof.
  move=> H. rewrite /num_store /mem_read. case E: ((0 <=? 0) && (0 <=? Z.max n 31) && (0 + Z.max n 31 <=? zlen mem)) => //.
  rewrite /mem_write zlen_firstn zlen_skipn {2}/zlen repeat_length. case E2: (_ && _) => //. lia.
Qed.
Lemma short_overread w sgn v mem n : zlen mem < 31 -> num_store w sgn v mem n = None.
Proof.
  move=> H. rewrite /num_store /mem_read. case E: ((0 <=? 0) && (0 <=? Z.max n 31) && (0 + Z.max n 31 <=? zlen mem)) => //. lia.
Qed.
(** writing "5" alone: what an earlier write left behind it is part of the number *)
Definition stale : list Z := [53; 52; 50; 10] ++ repeat 0 60.
Lemma stale_digits : num_store 64 false 0 stale 1 = Some 542.
Proof. reflexivity. Qed.
Lemma bool_never_true : bool_store false [49; 10] = Some false /\ bool_store false [49; 0] = Some false.
Proof. done. Qed.
(** data without newline or NUL in a buffer of just that size *)
Lemma config_overread sz mem : zlen mem < sz -> ~ In 0 mem -> ~ In 10 mem -> config_store sz mem (zlen mem) = None.
Proof.
  move=> H H1 H2. rewrite /config_store. have -> : Z.min (zlen mem) (sz - 1) = zlen mem by lia.
  rewrite /zlen Nat2Z.id. elim: mem {H} H1 H2 => [|c mem IH] //= H1 H2.
  have -> : (c =? 0) || (c =? 10) = false by lia. rewrite IH //; tauto.
Qed.
