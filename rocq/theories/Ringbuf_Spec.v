(** Specification for C01 and C02: a bounded FIFO of elements, each element a
    list of bytes, oldest first.  Independent of the model except for the
    names of the operations and of the results. *)
From Verif Require Import Lib Ringbuf_Model.

(** Which operations a client may issue on a buffer of [esize]-byte elements:
    elements have that size and the byte-stream calls need 1-byte elements. *)
Definition op_ok (esize : Z) (o : rb_op) : Prop :=
  match o with
  | OpWrite d => zlen d = esize
  | OpWrite1 _ | OpRead1 | OpWriteBytes _ => esize = 1
  | OpReadBytes n => esize = 1 /\ 0 <= n
  | OpRead | OpUnwrite | OpReset | OpCount => True
  end.

Definition fifo_step (cap : Z) (q : list (list Z)) (o : rb_op)
  : list (list Z) * rb_out :=
  match o with
  | OpWrite d => if zlen q <? cap then (q ++ [d], RBool true) else (q, RBool false)
  | OpWrite1 v => if zlen q <? cap then (q ++ [[v]], RBool true) else (q, RBool false)
  | OpRead | OpRead1 =>
      match q with
      | [] => ([], RElem None)
      | e :: q' => (q', RElem (Some e))
      end
  | OpUnwrite =>
      match rev q with
      | [] => ([], RElem None)
      | e :: q' => (rev q', RElem (Some e))
      end
  | OpWriteBytes d =>
      let n := Z.min (zlen d) (cap - zlen q) in
      (q ++ map (fun v => [v]) (firstn (Z.to_nat n) d), RNum n)
  | OpReadBytes len =>
      let n := Z.to_nat (Z.min len (zlen q)) in
      (skipn n q, RBytes (concat (firstn n q)))
  | OpReset => ([], RUnit)
  | OpCount => (q, RNum (zlen q))
  end.

Fixpoint fifo_run (cap : Z) (q : list (list Z)) (ops : list rb_op)
  : list (list Z) * list rb_out :=
  match ops with
  | [] => (q, [])
  | o :: os =>
      let (q', x) := fifo_step cap q o in
      let (q'', xs) := fifo_run cap q' os in (q'', x :: xs)
  end.
