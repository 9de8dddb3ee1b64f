(** Model of the FAT code on a memory image: common/fat32_base.c and
    include/tilck/common/fat32_base.h (geometry, FAT entries, whole-file read),
    kernel/fs/fat32.c:35-298 (read and seek on an open file) and
    kernel/fs/fat32_mm.c:90-165 (memory mapping).

    - the image is a function from byte offset to byte, [vsz] bytes long; an access outside it
      is [Oob]; the fields of the boot sector in use are a record, [vh];
    - u32 arithmetic wraps ([u32]); pointers are offsets from the start of the image;
    - ASSERTs are checked (debug build): a failed one is [Assert].  Where a theorem shows [Ok],
      the build without assertions does the same;
    - loops over a cluster chain take fuel, [Fuel] when it runs out.
    A division by a zero BPB_BytsPerSec or BPB_SecPerClus is not modelled (Coq's x/0 = 0). *)
From Verif Require Import Lib.

Inductive res (A : Type) := Ok (a : A) | Oob | Assert | Fuel.
Arguments Ok {A}. Arguments Oob {A}. Arguments Assert {A}. Arguments Fuel {A}.
Definition bind {A B} (x : res A) (f : A -> res B) : res B :=
  match x with Ok a => f a | Oob => Oob | Assert => Assert | Fuel => Fuel end.
Notation "'bnd' p <- x ; y" := (bind x (fun p => y))
  (at level 200, p pattern, x at level 100, y at level 200).

(** struct fat_hdr and the head of struct fat32_header2, fat32_base.h:16-64 *)
Record hdr := Hdr { bps : Z; spc : Z; rsvd : Z; nfats : Z; rootent : Z; tot16 : Z;
                    fatsz16 : Z; tot32 : Z; fatsz32 : Z; rootclus : Z }.
Record vol := Vol { vh : hdr; vsz : Z; vm : Z -> Z }.

(** memcpy from / to the image *)
Definition bytes (m : Z -> Z) (a n : Z) : list Z :=
  map (fun i => m (a + Z.of_nat i)) (seq 0 (Z.to_nat n)).
Definition ld (v : vol) (a n : Z) : res (list Z) :=
  if (0 <=? a) && (a + n <=? vsz v) then Ok (bytes (vm v) a n) else Oob.
Definition upd (m : Z -> Z) (a : Z) (d : list Z) : Z -> Z :=
  fun x => if (a <=? x) && (x <? a + zlen d) then znth 0 d (x - a) else m x.
Definition st (v : vol) (a : Z) (d : list Z) : res vol :=
  if (0 <=? a) && (a + zlen d <=? vsz v) then Ok (Vol (vh v) (vsz v) (upd (vm v) a d)) else Oob.
(** little endian *)
Fixpoint le (l : list Z) : Z := match l with [] => 0 | b :: r => b + 256 * le r end.
Definition le2 (x : Z) : list Z := [x mod 256; (x / 256) mod 256].
Definition le4 (x : Z) : list Z :=
  [x mod 256; (x / 256) mod 256; (x / 65536) mod 256; (x / 16777216) mod 256].

(** fat_get_FATSz, fat32_base.h:166-173 *)
Definition FATSz (h : hdr) : Z := if fatsz16 h =? 0 then fatsz32 h else fatsz16 h.
(** fat_get_TotSec, fat32_base.h:175-178 *)
Definition TotSec (h : hdr) : Z := if tot16 h =? 0 then tot32 h else tot16 h.
(** fat_get_root_dir_sectors, fat32_base.h:180-184 *)
Definition root_dir_sectors (h : hdr) : Z := u32 (rootent h * 32 + (bps h - 1)) / bps h.
(** fat_get_cluster_size, fat32_base.h:160-163 *)
Definition cluster_size (h : hdr) : Z := bps h * spc h.
(** fat_get_dir_entries_per_cluster, fat32_base.h:232-236 *)
Definition entries_per_cluster (h : hdr) : Z := u32 (bps h * spc h) / 32.
(** fat_get_cluster_count, fat32_base.c:344-353 *)
Definition cluster_count (h : hdr) : Z :=
  u32 (TotSec h - u32 (rsvd h + u32 (nfats h * FATSz h) + root_dir_sectors h)) / spc h.
(** fat_get_type, fat32_base.c:355-374; fat12_type = 1, fat16_type = 2, fat32_type = 4 *)
Definition fat_type (h : hdr) : Z :=
  if cluster_count h <? 4085 then 1 else if cluster_count h <? 65525 then 2 else 4.

(** fat_get_entry_ptr, fat32_base.c:376-396 *)
Definition entry_ptr (h : hdr) (ft fatN clu : Z) : Z :=
  let FATOffset := u32 (clu * ft) in
  let sec := u32 (fatN * FATSz h + rsvd h + FATOffset / bps h) in
  u32 (sec * bps h) + FATOffset mod bps h.
Definition good_type (ft : Z) : bool := (ft =? 2) || (ft =? 4).
(** fat_read_fat_entry, fat32_base.c:402-410 *)
Definition read_fat (v : vol) (ft fatN clu : Z) : res Z :=
  if good_type ft && (fatN <? nfats (vh v)) then
    let p := entry_ptr (vh v) ft fatN clu in
    if ft =? 2 then bnd d <- ld v p 2; Ok (le d)
    else bnd d <- ld v p 4; Ok (Z.land (le d) 268435455)
  else Assert.
(** fat_write_fat_entry, fat32_base.c:412-437 *)
Definition write_fat (v : vol) (ft fatN clu value : Z) : res vol :=
  if good_type ft && (fatN <? nfats (vh v)) then
    let p := entry_ptr (vh v) ft fatN clu in
    if ft =? 2 then
      if Z.land value 4294901760 =? 0 then st v p (le2 value) else Assert
    else
      if Z.land value 4026531840 =? 0 then
        bnd d <- ld v p 4;
        st v p (le4 (Z.lor (Z.land (le d) 4026531840) value))
      else Assert
  else Assert.

(** fat_get_first_data_sector, fat32_base.c:439-455 *)
Definition first_data_sector (h : hdr) : Z :=
  u32 (rsvd h + u32 (nfats h * FATSz h) + root_dir_sectors h).
(** fat_get_sector_for_cluster, fat32_base.c:457-463 *)
Definition sector_for_cluster (h : hdr) (n : Z) : Z :=
  u32 (u32 (u32 (n - 2) * spc h) + first_data_sector h).
(** fat_get_pointer_to_cluster_data, fat32_base.h:225-230 *)
Definition cluster_ptr (h : hdr) (n : Z) : Z := u32 (sector_for_cluster h n * bps h).
(** fat_get_rootdir, fat32_base.c:465-490: offset of the entries, and cluster (0 on FAT16) *)
Definition rootdir (h : hdr) (ft : Z) : Z * Z :=
  if ft =? 2 then (u32 (bps h * u32 (rsvd h + nfats h * fatsz16 h)), 0)
  else (u32 (bps h * sector_for_cluster h (rootclus h)), rootclus h).

(** fat_is_end_of_clusterchain, fat_is_bad_cluster, fat32_base.h:198-223 *)
Definition is_eoc (ft val : Z) : bool :=
  if ft =? 2 then 65528 <=? val else (268435440 <=? val) && negb (val =? 268435447).
Definition is_bad (ft val : Z) : bool :=
  if ft =? 2 then val =? 65527 else val =? 268435447.

(** struct fat_entry, fat32_base.h:91-117: 32 bytes at offset [e] of the image *)
Definition e_byte (v : vol) (e i : Z) : res Z := bnd d <- ld v (e + i) 1; Ok (le d).
(** fat_get_first_cluster, fat_set_first_cluster, fat32_base.h:186-195 *)
Definition first_cluster (v : vol) (e : Z) : res Z :=
  bnd hi <- ld v (e + 20) 2; bnd lo <- ld v (e + 26) 2;
  Ok (Z.lor (Z.shiftl (le hi) 16) (le lo)).
Definition set_first_cluster (v : vol) (e clu : Z) : res vol :=
  bnd v1 <- st v (e + 20) (le2 (Z.shiftr clu 16)); st v1 (e + 26) (le2 (Z.land clu 65535)).
Definition file_size (v : vol) (e : Z) : res Z := bnd d <- ld v (e + 28) 4; Ok (le d).
Definition is_dir (attr : Z) : bool := Z.testbit attr 4.
Definition is_volid (attr : Z) : bool := Z.testbit attr 3.

(** fat_read_whole_file, fat32_base.c:703-755; [d]: the bytes copied so far ([tot_read] =
    its length).  fsize and the buffer size are size_t: no wrap, the differences are >= 0. *)
Fixpoint rwf (fuel : nat) (v : vol) (fsize bufsize cluster : Z) (d : list Z) : res (list Z) :=
  match fuel with
  | O => Fuel
  | S f =>
      let h := vh v in
      let cs := cluster_size h in
      let rem := Z.min (fsize - zlen d) (bufsize - zlen d) in
      if rem <=? cs then
        (if rem =? 0 then Ok d else bnd x <- ld v (cluster_ptr h cluster) rem; Ok (d ++ x))
      else
        bnd x <- ld v (cluster_ptr h cluster) cs;
        let d1 := d ++ x in
        if 0 <? fsize - zlen d1 then
          bnd fv <- read_fat v (fat_type h) 0 cluster;
          if is_eoc (fat_type h) fv then Ok d1
          else if is_bad (fat_type h) fv then Assert
          else if zlen d1 <? fsize then rwf f v fsize bufsize fv d1 else Ok d1
        else Assert
  end.
Definition read_whole_file (fuel : nat) (v : vol) (e bufsize : Z) : res (list Z) :=
  bnd cl <- first_cluster v e; bnd sz <- file_size v e; rwf fuel v sz bufsize cl [].

(** * The open file, kernel/fs/fat32.c.  offt is a signed integer in [-M, M). *)
Definition sw (M x : Z) : Z := (x + M) mod (2 * M) - M.
(** struct fatfs_handle, include/tilck/kernel/fs/fat32.h:38-46 *)
Record handle := Handle { h_e : Z; h_pos : Z; h_clu : Z }.
Definition EPERM := 1.
Definition EISDIR := 21.
Definition EINVAL := 22.

(** the loop of fat_read, fat32.c:66-104 *)
Fixpoint read_loop (fuel : nat) (M : Z) (v : vol) (fsize bufsize : Z) (d : list Z) (h : handle)
    : res (list Z * handle) :=
  match fuel with
  | O => Fuel
  | S f =>
      let g := vh v in
      let cs := cluster_size g in
      let file_rem := sw M (fsize - h_pos h) in
      let buf_rem := sw M (sw M bufsize - zlen d) in
      let off := Z.rem (h_pos h) (sw M cs) in
      let clu_rem := sw M (cs - off) in
      let n := Z.min clu_rem (Z.min buf_rem file_rem) in
      if n <? 0 then Assert else
      bnd x <- (if n =? 0 then Ok [] else ld v (cluster_ptr g (h_clu h) + off) n);
      let d1 := d ++ x in
      let pos := sw M (h_pos h + n) in
      if n <? clu_rem then Ok (d1, Handle (h_e h) pos (h_clu h))
      else
        bnd fv <- read_fat v (fat_type g) 0 (h_clu h);
        if is_eoc (fat_type g) fv then
          (if pos =? fsize then Ok (d1, Handle (h_e h) pos (h_clu h)) else Assert)
        else if is_bad (fat_type g) fv then Assert
        else read_loop f M v fsize bufsize d1 (Handle (h_e h) pos fv)
  end.
(** fat_read, fat32.c:35-107 (read(): the position is the handle's); negative = -errno *)
Definition fat_read (fuel : nat) (M : Z) (v : vol) (h : handle) (bufsize : Z)
    : res (Z * list Z * handle) :=
  bnd sz <- file_size v (h_e h);
  let fsize := sw M sz in
  bnd a <- e_byte v (h_e h) 11;
  if is_dir a then Ok (- EISDIR, [], h)
  else if fsize <=? h_pos h then Ok (0, [], h)
  else
    bnd (d, h1) <- read_loop fuel M v fsize bufsize [] h;
    Ok (zlen d, d, h1).

(** fat_rewind, fat32.c:110-117 *)
Definition rewind (v : vol) (h : handle) : res handle :=
  bnd c <- first_cluster v (h_e h); Ok (Handle (h_e h) 0 c).
(** the loop of fat_seek_forward, fat32.c:137-165 *)
Fixpoint seek_loop (fuel : nat) (M : Z) (v : vol) (fsize dist moved : Z) (h : handle)
    : res handle :=
  match fuel with
  | O => Fuel
  | S f =>
      let g := vh v in
      let cs := cluster_size g in
      let file_rem := sw M (fsize - h_pos h) in
      let dist_rem := sw M (dist - moved) in
      let off := Z.rem (h_pos h) (sw M cs) in
      let clu_rem := sw M (cs - off) in
      let n := Z.min clu_rem (Z.min dist_rem file_rem) in
      if n <? 0 then Assert else
      let pos := sw M (h_pos h + n) in
      if n <? clu_rem then Ok (Handle (h_e h) pos (h_clu h))
      else
        bnd fv <- read_fat v (fat_type g) 0 (h_clu h);
        if is_eoc (fat_type g) fv then
          (if pos =? fsize then Ok (Handle (h_e h) pos (h_clu h)) else Assert)
        else if is_bad (fat_type g) fv then Assert
        else seek_loop f M v fsize dist (sw M (moved + n)) (Handle (h_e h) pos fv)
  end.
(** fat_seek_forward, fat32.c:119-168 *)
Definition seek_forward (fuel : nat) (M : Z) (v : vol) (h : handle) (dist : Z)
    : res (Z * handle) :=
  bnd sz <- file_size v (h_e h);
  let fsize := sw M sz in
  if dist =? 0 then Ok (h_pos h, h)
  else if fsize <? sw M (h_pos h + dist) then
    let p := sw M (h_pos h + dist) in Ok (p, Handle (h_e h) p 4294967295)
  else bnd h1 <- seek_loop fuel M v fsize dist 0 h; Ok (h_pos h1, h1).
Inductive whence := SEEK_SET | SEEK_CUR | SEEK_END | SEEK_OTHER.
(** fat_seek on a regular file, fat32.c:227-282 *)
Definition fat_seek (fuel : nat) (M : Z) (v : vol) (h : handle) (off : Z) (w : whence)
    : res (Z * handle) :=
  match w with
  | SEEK_SET =>
      if off <? 0 then Ok (- EINVAL, h)
      else bnd h1 <- rewind v h; seek_forward fuel M v h1 off
  | SEEK_END =>
      if 0 <=? off then seek_forward fuel M v h off
      else
        bnd sz <- file_size v (h_e h);
        let o := sw M (sw M sz + off) in
        if o <? 0 then Ok (- EINVAL, h)
        else bnd h1 <- rewind v h; seek_forward fuel M v h1 o
  | SEEK_CUR =>
      if off <? 0 then
        let o := sw M (h_pos h + off) in
        if o <? 0 then Ok (- EINVAL, h)
        else bnd h1 <- rewind v h; seek_forward fuel M v h1 o
      else seek_forward fuel M v h off
  | SEEK_OTHER => Ok (- EINVAL, h)
  end.
(** fat_open, fat32.c:509-520: the handle of a just opened file *)
Definition open_handle (v : vol) (e : Z) : res handle :=
  bnd c <- first_cluster v e; Ok (Handle e 0 c).

(** * fat_mmap, kernel/fs/fat32_mm.c:90-158.  The result is the list of mapped pages, (virtual
    address, offset in the image).  map_pages succeeds (its failure unmaps what was mapped and
    returns -ENOMEM: not modelled). *)
Definition PAGE := 4096.
Fixpoint pages (n : nat) (va off : Z) : list (Z * Z) :=
  match n with O => [] | S k => (va, off) :: pages k (va + PAGE) (off + PAGE) end.
Fixpoint mmap_loop (fuel : nat) (v : vol) (off_begin off_end vaddr off clu : Z)
    (acc : list (Z * Z)) : res (list (Z * Z)) :=
  match fuel with
  | O => Fuel
  | S f =>
      let h := vh v in
      let cs := cluster_size h in
      let clu_end := off + cs in
      if off_end <=? off then Ok acc
      else
        bnd (acc1, vaddr1, off1) <-
          (if off_begin <? clu_end then
             let data := cluster_ptr h clu in
             (* "off = off_begin; data += off_begin - off;" adds 0 *)
             let off0 := if off <? off_begin then off_begin else off in
             let data0 := if off <? off_begin then data + (off_begin - off0) else data in
             let cnt := (Z.min clu_end off_end - off0) / PAGE in
             let o2 := off0 + cnt * PAGE in
             if o2 mod cs =? 0 then
               Ok (acc ++ pages (Z.to_nat cnt) vaddr data0, vaddr + cnt * PAGE, o2)
             else Assert
           else Ok (acc, vaddr, off + cs));
        bnd nx <- read_fat v (fat_type h) 0 clu;
        if is_bad (fat_type h) nx then Assert
        else if is_eoc (fat_type h) nx then Ok acc1
        else mmap_loop f v off_begin off_end vaddr1 off1 nx acc1
  end.
Definition fat_mmap (fuel : nat) (v : vol) (e off len vaddr : Z) : res (list (Z * Z)) :=
  bnd c <- first_cluster v e; mmap_loop fuel v off (off + len) vaddr 0 c [].

(** fat_datetime_to_regular_datetime, kernel/fs/fat32.c:284-299: (year, month, day, hour, min,
    sec); sec is an 8-bit field, no overflow with tenths <= 255 *)
Definition datetime (date time tenth : Z) : Z * Z * Z * Z * Z * Z :=
  (Z.land (Z.shiftr date 9) 127 + 1980, Z.land (Z.shiftr date 5) 15, Z.land date 31,
   Z.land (Z.shiftr time 11) 31, Z.land (Z.shiftr time 5) 63, Z.land time 31 + tenth / 10).
