(** The program loader: kernel/elf.c:43-121 (load_segment_by_copy), 123-167 (alignment),
    169-223 (load_segment_by_mmap), 355-386 (INTERP, protections), 439-594 (load_elf_program
    after the headers were read), ramfs_mmap (kernel/fs/ramfs/mmap.c.h:10-74).

    Simplifications: the address space is a map from page numbers to frames.  A frame is a
    page of its own (freshly allocated and zeroed, not shared with anything) or a page of the file;
    the content of own pages is indexed by user address.  An allocation of a page or page
    table succeeds or not by page ([al]).  What happens to an address at or above BASE_VA
    is not modelled further: the outcome [Kern].  The zero-mapped part of the stack is pages
    of zeros (copied on write, C61).  p_filesz and p_memsz loops count in u32 in the code;
    page counts of 2^32 are not reached.  Reading a page of the file into itself reads first. *)
From Verif Require Import Lib User_Model.

Definition ENOMEM := -12.
Definition ENOEXEC := -8.
Definition EADDRINUSE := -98.
Definition ESEEK := -22.

(** A program header; p_type: 1 LOAD, 3 INTERP; p_flags: 1 X, 2 W, 4 R *)
Record seg := Seg { p_type : Z; p_off : Z; p_va : Z; p_fsz : Z; p_msz : Z; p_align : Z; p_flags : Z }.
Definition w_ok (g : seg) : bool := Z.testbit (p_flags g) 1.

(** The file: size, pages that have a block, positions vfs_seek accepts, mmap support.  Its
    bytes are part of the state *)
Record filet := File { f_size : Z; f_blk : Z -> bool; f_seek : Z -> bool; f_mmap : bool }.

(** [pt]: page number to frame ([None]: a page of its own, [Some p]: page [p] of the file) and
    the writable bit *)
Record st := St { pt : Z -> option (option Z * bool); mem : Z -> Z; fb : Z -> Z }.

Inductive out := Ok (s : st) (endv : Z) | Err (rc : Z) (s : st) | Kern (v : Z).

(** vfs_read of [k] bytes at [pos] to offset [off] of page [v] *)
Definition put (s : st) (v off pos k : Z) : st :=
  match pt s v with
  | Some (Some p, _) =>
      let a := p * 4096 + off in
      St (pt s) (mem s) (fun x => if (a <=? x) && (x <? a + k) then fb s (pos + (x - a)) else fb s x)
  | _ =>
      let a := v * 4096 + off in
      St (pt s) (fun x => if (a <=? x) && (x <? a + k) then fb s (pos + (x - a)) else mem s x) (fb s)
  end.
(** A new page, kernel/elf.c:75-84 *)
Definition new_page (s : st) (v : Z) : st :=
  St (fun x => if x =? v then Some (None, true) else pt s x)
     (fun x => if x / 4096 =? v then 0 else mem s x) (fb s).

(** The loop, kernel/elf.c:71-108; [n] pages left, [v] the page, [va], [rem] as in the code, [pos] the
    position in the file *)
Fixpoint copy_loop (c : cfg) (al : Z -> bool) (f : filet) (n : nat) (s : st) (v va pos rem endv : Z) : out :=
  match n with
  | O => Ok s endv
  | S n =>
      if base c / 4096 <=? v then Kern v
      else
        match (match pt s v with None => if al v then Some (new_page s v) else None | Some _ => Some s end) with
        | None => Err ENOMEM s
        | Some s =>
            if rem =? 0 then copy_loop c al f n s (v + 1) va pos rem endv
            else
              let off := va mod 4096 in
              let k := Z.min rem (4096 - off) in
              if f_size f <? pos + k
              then Err ENOEXEC (put s v off pos (Z.max 0 (f_size f - pos)))
              else copy_loop c al f n (put s v off pos k) (v + 1) (va + k) (pos + k) (rem - k) endv
        end
  end.

(** kernel/elf.c:112-119 *)
Definition make_ro (s : st) (v n : Z) : st :=
  St (fun x => if (v <=? x) && (x <? v + n)
               then match pt s x with Some (fr, _) => Some (fr, false) | None => None end else pt s x) (mem s) (fb s).

(** Numbers of pages, with the wraps of the code *)
Definition span (c : cfg) (g : seg) : Z := (p_va g + p_msz g - p_va g / 4096 * 4096) mod modulus c.
Definition pages (c : cfg) (g : seg) : Z := ((span c g + 4095) mod modulus c) / 4096.

(** load_segment_by_copy *)
Definition load_copy (c : cfg) (al : Z -> bool) (f : filet) (s : st) (g : seg) : out :=
  if p_msz g =? 0 then Ok s 0
  else if negb (f_seek f (p_off g)) then Err ESEEK s
  else
    let v := p_va g / 4096 in
    let n := pages c g in
    match copy_loop c al f (Z.to_nat n) s v (p_va g) (p_off g) (p_fsz g) ((v * 4096 + n * 4096) mod modulus c) with
    | Ok s e => Ok (if w_ok g then s else make_ro s v n) e
    | o => o
    end.

(** The loop of ramfs_mmap: the blocks [bs], one page each from [v] on; read-only handle *)
Fixpoint mmap_loop (c : cfg) (al : Z -> bool) (bs : list Z) (s : st) (v endv : Z) : out :=
  match bs with
  | [] => Ok s endv
  | b :: bs =>
      if base c / 4096 <=? v then Kern v
      else match pt s v with
           | Some _ => Err EADDRINUSE s
           | None => if al v
                     then mmap_loop c al bs (St (fun x => if x =? v then Some (Some b, false) else pt s x) (mem s) (fb s)) (v + 1) endv
                     else Err ENOMEM s
           end
  end.

(** load_segment_by_mmap *)
Definition load_mmap (c : cfg) (al : Z -> bool) (f : filet) (s : st) (g : seg) : out :=
  if w_ok g then load_copy c al f s g
  else if p_msz g =? 0 then Ok s 0
  else
    let v := p_va g / 4096 in
    let o := p_off g / 4096 in
    let n := pages c g in
    mmap_loop c al (filter (f_blk f) (map (fun k => o + Z.of_nat k) (seq 0 (Z.to_nat n)))) s v
      ((v * 4096 + n * 4096) mod modulus c).

(** check_segment_alignment *)
Definition aligned (g : seg) : bool := (p_align g =? 4096) && (p_off g mod 4096 =? p_va g mod 4096).

(** elf_flags_to_prot: 1 read, 2 write, 4 execute *)
Definition prot (fl : Z) : Z :=
  (if Z.testbit fl 2 then 1 else 0) + (if Z.testbit fl 1 then 2 else 0) + (if Z.testbit fl 0 then 4 else 0).

(** The loop over the headers, kernel/elf.c:465-496; base mappings: address, length, protection *)
Inductive louts := LsOk (s : st) (brk : Z) (ms : list (Z * Z * Z)) | LsErr (rc : Z) (s : st) | LsKern (v : Z).
Fixpoint load_segs (c : cfg) (al : Z -> bool) (f : filet) (s : st) (gs : list seg) (brk : Z) (ms : list (Z * Z * Z)) : louts :=
  match gs with
  | [] => LsOk s brk ms
  | g :: gs =>
      if negb (p_type g =? 1) then load_segs c al f s gs brk ms
      else if negb (aligned g) then LsErr ENOEXEC s
      else match (if f_mmap f then load_mmap c al f s g else load_copy c al f s g) with
           | Ok s e =>
               let sv := p_va g / 4096 * 4096 in
               load_segs c al f s gs (if brk <? e then e else brk)
                 (if sv <? e then ms ++ [(sv, e - sv, prot (p_flags g))] else ms)
           | Err rc s => LsErr rc s
           | Kern v => LsKern v
           end
  end.

(** load_elf_program from the check for INTERP on; [nst]: pages of the stack.  The result: the
    address space, brk, and the base mappings: segments, stack, heap *)
Definition load_elf (c : cfg) (nst : Z) (al : Z -> bool) (f : filet) (s : st) (gs : list seg) : louts :=
  if existsb (fun g => p_type g =? 3) gs then LsErr ENOEXEC s
  else match load_segs c al f s gs 0 [] with
       | LsOk s brk ms =>
           let top := base c / 4096 - nst in
           let ps := map (fun k => top + Z.of_nat k) (seq 0 (Z.to_nat nst)) in
           if forallb (fun v => match pt s v with None => al v | Some _ => false end) ps
           then LsOk (St (fun x => if (top <=? x) && (x <? top + nst) then Some (None, true) else pt s x)
                         (fun x => if (top <=? x / 4096) && (x / 4096 <? top + nst) then 0 else mem s x) (fb s))
                     brk (ms ++ [(top * 4096, nst * 4096, 3); (brk, 0, 3)])
           else LsErr ENOMEM s
       | o => o
       end.
