(** FAT volumes as the FAT specification describes them: layout, file allocation table,
    cluster chains, and a file as a sequence of bytes with a position. *)
From Verif Require Import Lib Fat_Model.

(** * Layout (no machine arithmetic) *)
Definition sp_root_sectors (h : hdr) : Z := (rootent h * 32 + bps h - 1) / bps h.
Definition sp_data_sector (h : hdr) : Z := rsvd h + nfats h * FATSz h + sp_root_sectors h.
Definition sp_clusters (h : hdr) : Z := (TotSec h - sp_data_sector h) / spc h.
(** bytes per entry of the table *)
Definition sp_width (h : hdr) : Z := if sp_clusters h <? 65525 then 2 else 4.
(** where things are in the image *)
Definition sp_fat_off (h : hdr) (k c : Z) : Z := (rsvd h + k * FATSz h) * bps h + c * sp_width h.
Definition sp_cluster_off (h : hdr) (c : Z) : Z :=
  (sp_data_sector h + (c - 2) * spc h) * bps h.
Definition valid (h : hdr) (c : Z) : Prop := 2 <= c < sp_clusters h + 2.

Record wf (v : vol) : Prop := {
  wf_bps : In (bps (vh v)) [512; 1024; 2048; 4096];
  wf_spc : 1 <= spc (vh v) <= 128;
  wf_rsvd : 1 <= rsvd (vh v) < 65536;
  wf_nfats : 1 <= nfats (vh v) < 256;
  wf_rootent : 0 <= rootent (vh v) < 65536;
  wf_fatsz16 : 0 <= fatsz16 (vh v);
  wf_fatsz : 1 <= FATSz (vh v);
  (** the data area is inside the volume, the volume inside the image *)
  wf_tot : sp_data_sector (vh v) <= TotSec (vh v);
  wf_size : TotSec (vh v) * bps (vh v) <= vsz v;
  wf_4g : vsz v <= 4294967296;
  (** not FAT12, and the table has an entry for each cluster *)
  wf_type : 4085 <= sp_clusters (vh v);
  wf_table : (sp_clusters (vh v) + 2) * sp_width (vh v) <= FATSz (vh v) * bps (vh v);
  wf_byte : forall a, 0 <= vm v a < 256 }.

(** * The table *)
Definition fat_val (v : vol) (k c : Z) : Z :=
  let p := sp_fat_off (vh v) k c in
  if sp_width (vh v) =? 2 then vm v p + 256 * vm v (p + 1)
  else vm v p + 256 * vm v (p + 1) + 65536 * vm v (p + 2) + 16777216 * (vm v (p + 3) mod 16).
(** end of chain marks *)
Definition sp_eoc (h : hdr) (x : Z) : Prop :=
  if sp_width h =? 2 then 65528 <= x < 65536 else 268435448 <= x < 268435456.
(** [chain v c l]: the clusters from [c] to the end of its chain are [l] *)
Inductive chain (v : vol) : Z -> list Z -> Prop :=
| chain_last c : valid (vh v) c -> sp_eoc (vh v) (fat_val v 0 c) -> chain v c [c]
| chain_cons c l : valid (vh v) c -> chain v (fat_val v 0 c) l -> chain v c (c :: l).
Definition csize (v : vol) : Z := bps (vh v) * spc (vh v).
Definition cdata (v : vol) (c : Z) : list Z := bytes (vm v) (sp_cluster_off (vh v) c) (csize v).
Definition content (v : vol) (l : list Z) : list Z := concat (map (cdata v) l).

(** * Directory entries: 32 bytes at [e] *)
Definition de_cluster (v : vol) (e : Z) : Z :=
  vm v (e + 26) + 256 * vm v (e + 27) + 65536 * vm v (e + 20) + 16777216 * vm v (e + 21).
Definition de_size (v : vol) (e : Z) : Z :=
  vm v (e + 28) + 256 * vm v (e + 29) + 65536 * vm v (e + 30) + 16777216 * vm v (e + 31).
Definition in_image (v : vol) (e : Z) : Prop := 0 <= e /\ e + 32 <= vsz v.
(** a regular file with clusters [l] and bytes [d] *)
Record is_file (v : vol) (e : Z) (l : list Z) (d : list Z) : Prop := {
  f_in : in_image v e;
  f_reg : Z.testbit (vm v (e + 11)) 4 = false;
  f_chain : 0 < de_size v e -> chain v (de_cluster v e) l;
  f_fit : de_size v e <= zlen l * csize v;
  f_data : d = firstn (Z.to_nat (de_size v e)) (content v l) }.

(** * The open file: a position in a sequence of bytes *)
Inductive op := Read (n : Z) | Seek (off : Z) (w : whence).
Inductive out := Data (d : list Z) | Pos (p : Z) | Err (e : Z).
(** Where a seek goes; [None]: before the start *)
Definition seek_to (size pos off : Z) (w : whence) : option Z :=
  let p := match w with
           | SEEK_SET => off | SEEK_CUR => pos + off | SEEK_END => size + off
           | SEEK_OTHER => -1 end in
  if p <? 0 then None else Some p.
Definition sp_step (d : list Z) (pos : Z) (o : op) : out * Z :=
  match o with
  | Read n =>
      let x := firstn (Z.to_nat n) (skipn (Z.to_nat pos) d) in (Data x, pos + zlen x)
  | Seek off w =>
      match seek_to (zlen d) pos off w with
      | Some p => (Pos p, p)
      | None => (Err EINVAL, pos)
      end
  end.
(** calls that can be stated with offt = [-M, M) and stay in it *)
Definition in_range (M : Z) (d : list Z) (pos : Z) (o : op) : Prop :=
  match o with
  | Read n => 0 <= n < M
  | Seek off w => - M <= off < M /\ (w <> SEEK_OTHER -> 
      forall p, seek_to (zlen d) pos off w = Some p -> p < M)
  end.
(** the one case where fat_seek differs: SEEK_END with an offset >= 0 *)
Definition end_seek (o : op) : Prop :=
  match o with Seek off SEEK_END => 0 <= off | _ => False end.
Fixpoint sp_run (d : list Z) (pos : Z) (l : list op) : list out :=
  match l with
  | [] => []
  | o :: r => let '(x, p) := sp_step d pos o in x :: sp_run d p r
  end.
Fixpoint ops_ok (M : Z) (d : list Z) (pos : Z) (l : list op) : Prop :=
  match l with
  | [] => True
  | o :: r => in_range M d pos o /\ ~ end_seek o /\ ops_ok M d (snd (sp_step d pos o)) r
  end.
(** the same calls on the code *)
Definition run1 (fuel : nat) (M : Z) (v : vol) (h : handle) (o : op) : res (out * handle) :=
  match o with
  | Read n => bnd (r, d, h1) <- fat_read fuel M v h n;
              Ok (if r <? 0 then Err (- r) else Data d, h1)
  | Seek off w => bnd (r, h1) <- fat_seek fuel M v h off w;
              Ok (if r <? 0 then Err (- r) else Pos r, h1)
  end.
Fixpoint run (fuel : nat) (M : Z) (v : vol) (h : handle) (l : list op) : res (list out) :=
  match l with
  | [] => Ok []
  | o :: r => bnd (x, h1) <- run1 fuel M v h o; bnd y <- run fuel M v h1 r; Ok (x :: y)
  end.

(** * Time stamps: packed as the FAT specification says, seconds in units of two *)
Definition pack_date (y mo d : Z) : Z := (y - 1980) * 512 + mo * 32 + d.
Definition pack_time (hh mi s : Z) : Z := hh * 2048 + mi * 32 + s / 2.
