(** Model of modules/sysfs/fileops.c.h (files of sysfs), sysfs.c:155-180 (sysfs_syncfs) and
    of the property types of modules/sysfs/types.c.h.

    Handles have increasing numbers: the memory of a closed handle is never used again, and
    reading it is an error (None).  The address of the dirty_node of handle [h] is [h], the
    head of dirty_handles is 0; both use List_Model.  A failed ASSERT is None too.  Hooks
    (lines 22-33, 47-58) and failed allocations (lines 80-81) are left out.  Lengths of reads
    and writes are below [2 ^ (w - 1)], so casts to offt keep them. *)
From Verif Require Import Lib List_Model Itoa_Model.

Section Files.
(** bits of offt; bytes of a property (databuf->buf_sz); what kmalloc'ed memory contains *)
Variable w : Z.
Variable size : Z -> Z.
Variable junk : nat -> Z.

Definition soff (x : Z) : Z := (x + 2 ^ (w - 1)) mod 2 ^ w - 2 ^ (w - 1).
(** CLAMP, include/tilck/common/basic_defs.h:308-315 *)
Definition clamp (v lo hi : Z) : Z := Z.min (Z.max v lo) hi.

(** struct sysfs_handle: the property, data, data_len, h_fpos *)
Record hd := Hd { hp : Z; data : option (list Z); dlen : Z; fpos : Z }.
(** next handle number, list nodes, used bytes of the properties, open handles *)
Record st := St { nxt : Z; mm : mem; props : Z -> list Z; hs : Z -> option hd }.
Definition set_mm s m := St (nxt s) m (props s) (hs s).
Definition set_prop s p l := St (nxt s) (mm s) (fupd (props s) p l) (hs s).
Definition set_h s h x := St (nxt s) (mm s) (props s) (fupd (hs s) h x).

(** sysfs_databuf_load, types.c.h:297-309, into a new buffer: sysfs_load_data, lines 63-97 *)
Definition load (s : st) (p : Z) : list Z * Z :=
  let to_read := Z.min (size p) (zlen (props s p)) in
  let d := firstn (Z.to_nat to_read) (props s p) in
  (d ++ skipn (length d) (map junk (seq 0 (Z.to_nat (size p)))), to_read).
Definition load_data (s : st) (x : hd) : hd := let '(d, n) := load s (hp x) in Hd (hp x) (Some d) n (fpos x).
(** sysfs_databuf_store, types.c.h:311-322; the return value is never negative *)
Definition store (s : st) (p : Z) (src : list Z) (n : Z) : st :=
  set_prop s p (firstn (Z.to_nat (Z.min n (size p))) src).

(** list_is_node_in_list, with its reads through the pointers of the node *)
Definition alive (s : st) (a : Z) : bool := (a =? 0) || match hs s a with Some _ => true | None => false end.
Definition node_in_list (s : st) (h : Z) : option bool :=
  if is_empty h (mm s) then Some false
  else if alive s (pv (mm s) h) && alive s (nx (mm s) h) then Some (in_list h (mm s)) else None.

(** sysfs_flush_data, lines 99-133 *)
Definition flush_data (s : st) (h : Z) (x : hd) (d : list Z) : option st :=
  match node_in_list s h with
  | None => None
  | Some false => Some s
  | Some true =>
      let s := store s (hp x) d (dlen x) in
      Some (set_mm s (node_init h (remove h (mm s))))
  end.

(** sysfs_fsync, lines 156-169 *)
Definition fsync (s : st) (h : Z) : option st :=
  match hs s h with
  | None => None
  | Some x => match data x with Some d => flush_data s h x d | None => Some s end
  end.

(** sysfs_open_file, lines 468-510 *)
Definition open (s : st) (p : Z) : st :=
  let h := nxt s in
  St (h + 1) (node_init h (mm s)) (props s) (fupd (hs s) h (Some (load_data s (Hd p None 0 0)))).

Definition loaded (s : st) (x : hd) : hd := match data x with Some _ => x | None => load_data s x end.
Definition bytes (x : hd) : list Z := match data x with Some d => d | None => [] end.

(** sysfs_file_read, lines 200-214 *)
Definition read (s : st) (h : Z) (x : hd) (len : Z) : option (list Z * st) :=
  let x := loaded s x in
  let rem := dlen x - fpos x in
  if rem <? 0 then None
  else
    let rc := clamp rem 0 len in
    match mem_read (bytes x) (fpos x) rc with
    | None => None
    | Some l => Some (l, set_h s h (Some (Hd (hp x) (data x) (dlen x) (fpos x + rc))))
    end.

(** sysfs_file_write, lines 262-284 *)
Definition write (s : st) (h : Z) (x : hd) (l : list Z) : option (Z * st) :=
  let x := loaded s x in
  let rem := size (hp x) - fpos x in
  if rem <? 0 then None
  else
    let rc := clamp rem 0 (zlen l) in
    match mem_write (bytes x) (fpos x) (firstn (Z.to_nat rc) l) with
    | None => None
    | Some d =>
        let pos := fpos x + rc in
        let n := if dlen x <? pos then pos else dlen x in
        let s := set_h s h (Some (Hd (hp x) (Some d) n pos)) in
        Some (rc, set_mm s (add_tail 0 h (mm s)))
    end.

(** sysfs_file_seek, lines 306-341; whence 0, 1, 2: SEEK_SET, SEEK_CUR, SEEK_END; EINVAL is 22 *)
Definition seek (s : st) (h : Z) (x : hd) (whence off : Z) : Z * st :=
  let len := size (hp x) in
  let go p := if (p <? 0) || ((len =? 0) && (0 <? p)) then (-22, s)
              else (p, set_h s h (Some (Hd (hp x) (data x) (dlen x) p))) in
  if whence =? 0 then go off
  else if whence =? 1 then go (soff (fpos x + off))
  else if whence =? 2 then go (soff (len + off))
  else (-22, s).

(** sysfs_on_close, lines 343-359, sysfs_free_data, lines 135-147; then the handle is freed *)
Definition close (s : st) (h : Z) (x : hd) : option st :=
  match data x with
  | None => Some (set_h s h None)
  | Some d =>
      match flush_data s h x d with
      | None => None
      | Some s =>
          match node_in_list s h with
          | Some false => Some (set_h s h None)
          | _ => None
          end
      end
  end.

(** vfs_dup copies the handle (C63), then sysfs_on_dup, lines 361-393 *)
Definition dup (s : st) (h : Z) (x : hd) : option st :=
  let h2 := nxt s in
  let m := set_pv (set_nx (mm s) h2 (nx (mm s) h)) h2 (pv (mm s) h) in
  let s := St (h2 + 1) m (props s) (fupd (hs s) h2 (Some x)) in
  match data x with
  | None => Some s
  | Some d =>
      match flush_data s h2 x d with
      | None => None
      | Some s =>
          match node_in_list s h2 with
          | Some false => Some (set_h s h2 (Some (Hd (hp x) None 0 (fpos x))))
          | _ => None
          end
      end
  end.

(** sysfs_syncfs, sysfs.c:155-180; None also when the loop does not end *)
Fixpoint syncfs (fuel : nat) (s : st) : option st :=
  if is_empty 0 (mm s) then Some s
  else match fuel with
       | O => None
       | S fuel =>
           let h := nx (mm s) 0 in
           if alive s h && alive s (nx (mm s) h) && alive s (pv (mm s) h) then
             match fsync (set_mm s (node_init h (remove h (mm s)))) h with
             | None => None
             | Some s => syncfs fuel s
             end
           else None
       end.

Inductive op := Open (p : Z) | Read (h len : Z) | Write (h : Z) (l : list Z) | Seek (h whence off : Z)
  | Fsync (h : Z) | Dup (h : Z) | Close (h : Z) | Syncfs.
Inductive ret := Num (z : Z) | Bytes (l : list Z) | Unit | Badf.
Definition with_h (s : st) (h : Z) (f : hd -> option (ret * st)) : option (ret * st) :=
  match hs s h with Some x => f x | None => Some (Badf, s) end.
Definition unit_ (r : option st) : option (ret * st) := option_map (fun s => (Unit, s)) r.
Definition step (s : st) (o : op) : option (ret * st) :=
  match o with
  | Open p => Some (Num (nxt s), open s p)
  | Read h n => with_h s h (fun x => option_map (fun r => (Bytes (fst r), snd r)) (read s h x n))
  | Write h l => with_h s h (fun x => option_map (fun r => (Num (fst r), snd r)) (write s h x l))
  | Seek h wh off => with_h s h (fun x => let '(r, s) := seek s h x wh off in Some (Num r, s))
  | Fsync h => with_h s h (fun x => unit_ (fsync s h))
  | Dup h => with_h s h (fun x => option_map (fun s' => (Num (nxt s), s')) (dup s h x))
  | Close h => with_h s h (fun x => unit_ (close s h x))
  | Syncfs => unit_ (syncfs (Z.to_nat (nxt s)) s)
  end.
Fixpoint run (s : st) (os : list op) : option (list ret * st) :=
  match os with
  | [] => Some ([], s)
  | o :: os =>
      match step s o with
      | None => None
      | Some (r, s) => option_map (fun x => (r :: fst x, snd x)) (run s os)
      end
  end.
Definition init (c : Z -> list Z) : st := St 1 (node_init 0 (Mem (fun _ => 0) (fun _ => 0))) c (fun _ => None).
End Files.

(** sysfs_imm_data_load, types.c.h:259-277, and the reads of an immutable property, fileops.c.h:192-198 *)
Definition imm_load (buf : list Z) (buf_sz off : Z) : option (list Z) :=
  let off := clamp off 0 (zlen buf) in
  mem_read buf off (Z.min (zlen buf - off) buf_sz).
Fixpoint imm_reads (buf : list Z) (pos : Z) (lens : list Z) : option (list (list Z)) :=
  match lens with
  | [] => Some []
  | n :: lens =>
      match imm_load buf n pos with
      | None => None
      | Some l => option_map (cons l) (imm_reads buf (if 0 <? zlen l then pos + zlen l else pos) lens)
      end
  end.

(** sysfs_ulong_store and sysfs_long_store, types.c.h:80-102 and 128-150.  [mem]: the bytes
    from buf on, of which [n] (buf_sz) are the data. *)
Definition num_store (w : Z) (sgn : bool) (v : Z) (mem : list Z) (n : Z) : option Z :=
  match mem_read mem 0 (Z.max n 31) with
  | None => None
  | Some l =>
      match mem_write (repeat 0 32) 0 l with
      | None => None
      | Some tmp =>
          match strtol w sgn tmp 10 with
          | None => None
          | Some r => Some (match p_err r with NoErr => p_val r | _ => v end)
          end
      end
  end.

(** sysfs_bool_store, types.c.h:175-190 *)
Definition bool_store (v : bool) (mem : list Z) : option bool :=
  match mem with
  | c0 :: c1 :: _ =>
      Some (if ((c0 =? 48) || (c1 =? 49)) && ((c1 =? 0) || (c1 =? 10) || (c1 =? 13)) then negb (c0 - 48 =? 0) else v)
  | _ => None
  end.

(** sysfs_config_str_store, types.c.h:216-232: the string in str->buf *)
Fixpoint str_copy (mem : list Z) (lim : nat) : option (list Z) :=
  match mem with
  | [] => None
  | c :: mem =>
      if (c =? 0) || (c =? 10) then Some []
      else match lim with O => Some [] | S lim => option_map (cons c) (str_copy mem lim) end
  end.
Definition config_store (str_sz : Z) (mem : list Z) (n : Z) : option (list Z) :=
  str_copy mem (Z.to_nat (Z.min n (str_sz - 1))).
