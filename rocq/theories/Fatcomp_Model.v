(** Model of the compaction and alignment of a FAT volume in memory: common/fat32_base.c:751-925.

    - image, arithmetic and outcomes as in Fat_Model; loops and recursion on fuel;
    - fat_walk as in Fatdir_Model, without long-name context. *)
From Verif Require Import Lib Fat_Model Fatdir_Model.

(** while (fat_read_fat_entry(hdr, ft, 0, ctx->ffc)) ctx->ffc++, fat32_base.c:783-786 *)
Fixpoint scan_ffc (fuel : nat) (v : vol) (ffc : Z) : res Z :=
  match fuel with
  | O => Fuel
  | S f => bnd x <- read_fat v (fat_type (vh v)) 0 ffc;
           if x =? 0 then Ok ffc else scan_ffc f v (u32 (ffc + 1))
  end.
(** moving a cluster, fat32_base.c:790-801 *)
Definition move_cluster (v : vol) (e first last clu ffc next : Z) : res vol :=
  let h := vh v in
  let ft := fat_type h in
  bnd d <- ld v (cluster_ptr h clu) (cluster_size h);
  bnd v1 <- st v (cluster_ptr h ffc) d;
  bnd v2 <- (if clu =? first then set_first_cluster v1 e ffc else write_fat v1 ft 0 last ffc);
  bnd v3 <- write_fat v2 ft 0 ffc next;
  write_fat v3 ft 0 clu 0.
(** the loop over the clusters of an entry, fat32_base.c:778-808 *)
Fixpoint move_chain (fuel : nat) (e first last clu ffc : Z) (v : vol) : res (Z * vol) :=
  match fuel with
  | O => Fuel
  | S f =>
      let ft := fat_type (vh v) in
      bnd next <- read_fat v ft 0 clu;
      bnd ffc1 <- scan_ffc (S f) v ffc;
      bnd (clu1, ffc2, v1) <-
        (if ffc1 <? clu then
           bnd v1 <- move_cluster v e first last clu ffc1 next; Ok (ffc1, u32 (ffc1 + 1), v1)
         else Ok (clu, ffc1, v));
      if is_eoc ft next then Ok (ffc2, v1) else move_chain f e first clu1 next ffc2 v1
  end.
(** fat_compact_walk_cb, fat32_base.c:760-812; [d]: nesting of directories *)
Fixpoint compact_cb (d fuel : nat) (ffc : Z) (v : vol) (e : Z) (long : option (list Z))
    : res (Z * vol * bool) :=
  match d with
  | O => Fuel
  | S d' =>
      bnd first <- first_cluster v e;
      bnd name <- short_name v e;
      if is_dots name then Ok (ffc, v, false)
      else
        bnd (ffc1, v1) <- move_chain fuel e first 0 first ffc v;
        bnd at1 <- e_byte v1 e 11;
        if is_dir at1 then
          bnd clu <- first_cluster v1 e;
          bnd (ffc2, v2) <- walk (compact_cb d' fuel) fuel false clu ffc1 v1;
          Ok (ffc2, v2, false)
        else Ok (ffc1, v1, false)
  end.
(** for (clu = 0; clu < count; clu++) if (!fat_read_fat_entry(..., clu)) break:
    fat32_base.c:820-823 and 843-846; [n] = count - clu *)
Fixpoint first_zero (n : nat) (v : vol) (clu : Z) : res Z :=
  match n with
  | O => Ok clu
  | S n' => bnd x <- read_fat v (fat_type (vh v)) 0 clu;
            if x =? 0 then Ok clu else first_zero n' v (u32 (clu + 1))
  end.
(** fat_compact_clusters, fat32_base.c:814-835 *)
Definition compact (d fuel : nat) (v : vol) : res vol :=
  bnd ffc <- first_zero (Z.to_nat (cluster_count (vh v))) v 0;
  bnd (_, v1) <- walk (compact_cb d fuel) fuel false 0 ffc v;
  Ok v1.
(** fat_get_first_free_cluster_off, fat32_base.c:837-850 *)
Definition first_free_off (v : vol) : res Z :=
  let h := vh v in
  bnd clu <- first_zero (Z.to_nat (cluster_count h)) v 0;
  Ok (u32 (u32 (sector_for_cluster h clu + 1) * bps h)).
(** fat_calculate_used_bytes, fat32_base.c:852-873; [n] = clu *)
Fixpoint last_used (n : nat) (v : vol) : res Z :=
  match n with
  | O => Ok 0
  | S n' => let ft := fat_type (vh v) in
            bnd x <- read_fat v ft 0 (Z.of_nat n');
            if negb (x =? 0) && negb (is_bad ft x) then Ok (Z.of_nat n) else last_used n' v
  end.
Definition used_bytes (v : vol) : res Z :=
  let h := vh v in
  bnd clu <- last_used (Z.to_nat (cluster_count h)) v;
  if clu =? 0 then Ok 0 else Ok (u32 (u32 (sector_for_cluster h clu + 1) * bps h)).
(** fat_is_first_data_sector_aligned, fat32_base.c:875-880 *)
Definition aligned (h : hdr) (page : Z) : bool :=
  u32 (first_data_sector h * bps h) mod page =? 0.
(** fat_align_first_data_sector, fat32_base.c:889-925.  BPB_RsvdSecCnt is a u16. *)
Definition align (v : vol) (page : Z) : res vol :=
  let h := vh v in
  bnd used <- used_bytes v;
  let fdc_off := u32 (first_data_sector h * bps h) in
  let rem := page - fdc_off mod page in
  let rs := rem / bps h in
  let res_data := u32 (rsvd h * bps h) in
  if negb (page mod bps h =? 0) || negb (rem mod bps h =? 0) then Assert
  else if rem =? 0 then Ok v
  else if aligned h page then Assert
  else
    bnd d <- ld v res_data (u32 (used - res_data));
    bnd v1 <- st v (res_data + rem) d;
    let h1 := Hdr (bps h) (spc h) (wrap 16 (rsvd h + rs)) (nfats h) (rootent h) (tot16 h)
                (fatsz16 h) (tot32 h) (fatsz32 h) (rootclus h) in
    if negb (aligned h1 page) then Assert
    else bnd v2 <- st v1 res_data (repeat 0 (Z.to_nat rem)); Ok (Vol h1 (vsz v2) (vm v2)).
