(** Moving the data of a FAT volume forward so that it starts at a multiple of a page. *)
From Verif Require Import Lib Fat_Model Fat_Spec Fatcomp_Spec.

(** the same header with [n] more reserved sectors *)
Definition shifted (h : hdr) (n : Z) : hdr :=
  Hdr (bps h) (spc h) (rsvd h + n) (nfats h) (rootent h) (tot16 h) (fatsz16 h) (tot32 h)
    (fatsz32 h) (rootclus h).
(** from the start of the data to the next page *)
Definition gap (h : hdr) (page : Z) : Z := page - (sp_data_sector h * bps h) mod page.
Definition sp_bad (h : hdr) (x : Z) : Prop := x = if sp_width h =? 2 then 65527 else 268435447.
(** [c] is the last cluster in use, the last two of the volume (and the entries 0 and 1) aside *)
Record last (v : vol) (c : Z) : Prop := {
  la_rng : 1 <= c < sp_clusters (vh v);
  la_used : fat_val v 0 c <> 0 /\ ~ sp_bad (vh v) (fat_val v 0 c);
  la_rest : forall x, c < x < sp_clusters (vh v) -> fat_val v 0 x = 0 \/ sp_bad (vh v) (fat_val v 0 x) }.
(** where the sector after it ends *)
Definition used_end (h : hdr) (c : Z) : Z := sp_cluster_off h (c + 1) + bps h.
(** what moving needs: room for it in the image and in the reserved sectors' count *)
Record movable (v : vol) (page c : Z) : Prop := {
  mo_page : 0 < page;
  mo_mult : page mod bps (vh v) = 0;
  mo_not : (sp_data_sector (vh v) * bps (vh v)) mod page <> 0;
  mo_last : last v c;
  mo_room : used_end (vh v) c + gap (vh v) page <= vsz v;
  mo_rsvd : rsvd (vh v) + gap (vh v) page / bps (vh v) < 65536 }.
(** with fewer sectors for data it is still the same kind of volume *)
Record same_kind (h h' : hdr) : Prop := {
  sk_data : sp_data_sector h' <= TotSec h';
  sk_min : 4085 <= sp_clusters h';
  sk_width : sp_width h' = sp_width h }.
