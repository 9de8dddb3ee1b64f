(** Model of kernel/ringbuf.c and include/tilck/kernel/ringbuf.h.

    Fields are u32 in C, so every sum and difference assigned to them, or
    computed on them, goes through [u32].  Bytes are [Z]; the backing buffer
    is a list of bytes and every [memcpy] on it is checked: an access outside
    the buffer or a failed ASSERT is the outcome [None]. *)
From Verif Require Import Lib.

(** include/tilck/kernel/ringbuf.h:6-14 *)
Record ringbuf := mk_rb {
  rb_read_pos : Z;
  rb_write_pos : Z;
  rb_elems : Z;
  rb_max : Z;
  rb_esize : Z;
  rb_buf : list Z
}.

(** kernel/ringbuf.c:16-27 (the two (u32) casts included) *)
Definition ringbuf_init (max_elems elem_size : Z) (buf : list Z) : ringbuf :=
  mk_rb 0 0 0 (u32 max_elems) (u32 elem_size) buf.

(** include/tilck/kernel/ringbuf.h:16-19 *)
Definition rb_is_empty (r : ringbuf) : bool := rb_elems r =? 0.
(** include/tilck/kernel/ringbuf.h:21-24 *)
Definition rb_is_full (r : ringbuf) : bool := rb_elems r =? rb_max r.

(** include/tilck/kernel/ringbuf.h:31-34 *)
Definition rb_reset (r : ringbuf) : ringbuf :=
  mk_rb 0 0 0 (rb_max r) (rb_esize r) (rb_buf r).

(** kernel/ringbuf.c:34-43; [d] is the element's bytes (elem_size of them) *)
Definition rb_write_elem (r : ringbuf) (d : list Z) : option (ringbuf * bool) :=
  if rb_is_full r then Some (r, false)
  else
    match mem_write (rb_buf r) (u32 (rb_write_pos r * rb_esize r)) d with
    | None => None
    | Some b =>
        Some (mk_rb (rb_read_pos r) (u32 (rb_write_pos r + 1) mod rb_max r)
                    (u32 (rb_elems r + 1)) (rb_max r) (rb_esize r) b, true)
    end.

(** include/tilck/kernel/ringbuf.h:45-54 *)
Definition rb_write_elem1 (r : ringbuf) (v : Z) : option (ringbuf * bool) :=
  if rb_is_full r then Some (r, false)
  else
    match mem_write (rb_buf r) (rb_write_pos r) [v] with
    | None => None
    | Some b =>
        Some (mk_rb (rb_read_pos r) (u32 (rb_write_pos r + 1) mod rb_max r)
                    (u32 (rb_elems r + 1)) (rb_max r) (rb_esize r) b, true)
    end.

(** kernel/ringbuf.c:45-114; [d] is the caller's buffer, [len] its length.
    The result carries the number of bytes stored. *)
Definition rb_write_bytes (r : ringbuf) (d : list Z) : option (ringbuf * Z) :=
  if negb (rb_esize r =? 1) then None                        (* line 49 *)
  else if rb_is_full r then Some (r, 0)
  else
    let len := zlen d in
    if rb_write_pos r <? rb_read_pos r then                  (* lines 85-92 *)
      let al := Z.min len (u32 (rb_read_pos r - rb_write_pos r)) in
      match mem_write (rb_buf r) (rb_write_pos r) (firstn (Z.to_nat al) d) with
      | None => None
      | Some b =>
          Some (mk_rb (rb_read_pos r) (u32 (rb_write_pos r + al))
                      (u32 (rb_elems r + al)) (rb_max r) (rb_esize r) b, al)
      end
    else
      let al := Z.min len (u32 (rb_max r - rb_write_pos r)) in (* 95-98 *)
      match mem_write (rb_buf r) (rb_write_pos r) (firstn (Z.to_nat al) d) with
      | None => None
      | Some b =>
          let wp := (rb_write_pos r + al) mod rb_max r in
          let el := u32 (rb_elems r + al) in
          if al =? len then
            Some (mk_rb (rb_read_pos r) wp el (rb_max r) (rb_esize r) b, al)
          else if negb (wp =? 0) then None                   (* line 107 *)
          else
            let al2 := Z.min (len - al) (rb_read_pos r) in
            match mem_write b 0
                    (firstn (Z.to_nat al2) (skipn (Z.to_nat al) d)) with
            | None => None
            | Some b2 =>
                Some (mk_rb (rb_read_pos r) (u32 (wp + al2)) (u32 (el + al2))
                            (rb_max r) (rb_esize r) b2, al + al2)
            end
      end.

(** kernel/ringbuf.c:116-181; result: the bytes delivered to the caller *)
Definition rb_read_bytes (r : ringbuf) (len : Z) : option (ringbuf * list Z) :=
  if negb (rb_esize r =? 1) then None                        (* line 120 *)
  else if rb_is_empty r then Some (r, [])
  else
    if rb_read_pos r <? rb_write_pos r then                  (* lines 152-159 *)
      let al := Z.min len (u32 (rb_write_pos r - rb_read_pos r)) in
      match mem_read (rb_buf r) (rb_read_pos r) al with
      | None => None
      | Some out =>
          Some (mk_rb (u32 (rb_read_pos r + al)) (rb_write_pos r)
                      (u32 (rb_elems r - al)) (rb_max r) (rb_esize r)
                      (rb_buf r), out)
      end
    else
      let al := Z.min len (u32 (rb_max r - rb_read_pos r)) in (* 162-165 *)
      match mem_read (rb_buf r) (rb_read_pos r) al with
      | None => None
      | Some out =>
          let rp := (rb_read_pos r + al) mod rb_max r in
          let el := u32 (rb_elems r - al) in
          if al =? len then
            Some (mk_rb rp (rb_write_pos r) el (rb_max r) (rb_esize r)
                        (rb_buf r), out)
          else if negb (rp =? 0) then None                   (* line 174 *)
          else
            let al2 := Z.min (len - al) (rb_write_pos r) in
            match mem_read (rb_buf r) 0 al2 with
            | None => None
            | Some out2 =>
                Some (mk_rb (u32 (rp + al2)) (rb_write_pos r) (u32 (el - al2))
                            (rb_max r) (rb_esize r) (rb_buf r), out ++ out2)
            end
      end.

(** kernel/ringbuf.c:183-192; [None] in the second component: returned false *)
Definition rb_read_elem (r : ringbuf) : option (ringbuf * option (list Z)) :=
  if rb_is_empty r then Some (r, None)
  else
    match mem_read (rb_buf r) (u32 (rb_read_pos r * rb_esize r)) (rb_esize r) with
    | None => None
    | Some out =>
        Some (mk_rb (u32 (rb_read_pos r + 1) mod rb_max r) (rb_write_pos r)
                    (u32 (rb_elems r - 1)) (rb_max r) (rb_esize r) (rb_buf r),
              Some out)
    end.

(** include/tilck/kernel/ringbuf.h:56-65 *)
Definition rb_read_elem1 (r : ringbuf) : option (ringbuf * option (list Z)) :=
  if rb_is_empty r then Some (r, None)
  else
    match mem_read (rb_buf r) (rb_read_pos r) 1 with
    | None => None
    | Some out =>
        Some (mk_rb (u32 (rb_read_pos r + 1) mod rb_max r) (rb_write_pos r)
                    (u32 (rb_elems r - 1)) (rb_max r) (rb_esize r) (rb_buf r),
              Some out)
    end.

(** kernel/ringbuf.c:194-206, called with a non-NULL elem_ptr.  The sum
    [max_elems + write_pos - 1] is a u32 expression. *)
Definition rb_unwrite_elem (r : ringbuf) : option (ringbuf * option (list Z)) :=
  if rb_is_empty r then Some (r, None)
  else
    let wp := u32 (rb_max r + rb_write_pos r - 1) mod rb_max r in
    match mem_read (rb_buf r) (u32 (wp * rb_esize r)) (rb_esize r) with
    | None => None
    | Some out =>
        Some (mk_rb (rb_read_pos r) wp (u32 (rb_elems r - 1)) (rb_max r)
                    (rb_esize r) (rb_buf r), Some out)
    end.

(** The operations a client can issue, and their observable results. *)
Inductive rb_op :=
| OpWrite (d : list Z)        (* ringbuf_write_elem *)
| OpWrite1 (v : Z)            (* ringbuf_write_elem1 *)
| OpRead                      (* ringbuf_read_elem *)
| OpRead1                     (* ringbuf_read_elem1 *)
| OpUnwrite                   (* ringbuf_unwrite_elem *)
| OpWriteBytes (d : list Z)   (* ringbuf_write_bytes *)
| OpReadBytes (len : Z)       (* ringbuf_read_bytes *)
| OpReset                     (* ringbuf_reset *)
| OpCount.                    (* ringbuf_get_elems *)

Inductive rb_out :=
| RBool (b : bool)
| RElem (e : option (list Z))
| RNum (n : Z)
| RBytes (d : list Z)
| RUnit.

Definition rb_step (r : ringbuf) (o : rb_op) : option (ringbuf * rb_out) :=
  match o with
  | OpWrite d =>
      match rb_write_elem r d with
      | Some (r', b) => Some (r', RBool b) | None => None end
  | OpWrite1 v =>
      match rb_write_elem1 r v with
      | Some (r', b) => Some (r', RBool b) | None => None end
  | OpRead =>
      match rb_read_elem r with
      | Some (r', e) => Some (r', RElem e) | None => None end
  | OpRead1 =>
      match rb_read_elem1 r with
      | Some (r', e) => Some (r', RElem e) | None => None end
  | OpUnwrite =>
      match rb_unwrite_elem r with
      | Some (r', e) => Some (r', RElem e) | None => None end
  | OpWriteBytes d =>
      match rb_write_bytes r d with
      | Some (r', n) => Some (r', RNum n) | None => None end
  | OpReadBytes n =>
      match rb_read_bytes r n with
      | Some (r', d) => Some (r', RBytes d) | None => None end
  | OpReset => Some (rb_reset r, RUnit)
  | OpCount => Some (r, RNum (rb_elems r))
  end.

Fixpoint rb_run (r : ringbuf) (ops : list rb_op) : option (ringbuf * list rb_out) :=
  match ops with
  | [] => Some (r, [])
  | o :: os =>
      match rb_step r o with
      | None => None
      | Some (r', x) =>
          match rb_run r' os with
          | None => None
          | Some (r'', xs) => Some (r'', x :: xs)
          end
      end
  end.
