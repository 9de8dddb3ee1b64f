(** C72: the memory image of a new program. *)
From Verif Require Import Lib User_Model User_Spec Elf_Model Elf_Spec Elf_Proofs Elf_Proofs2 Elf_Proofs3 Elf_Refuted.

(** The result for every list of headers of a static program: brk behind the last segment, one mapping per segment, the stack and the empty heap; every page, its frame and its writable bit, every byte. *)
Theorem C72_exact : forall c nst f al s gs,
  good_cfg c -> 0 <= nst -> nst * 4096 <= base c -> (forall x, al x = true) ->
  Forall (fits c nst f) gs -> (f_mmap f = true -> ForallOrdPairs apart_ro gs) -> (forall x, pt s x = None) ->
  exists s', load_elf c nst al f s gs =
      LsOk s' (brk_of gs) (maps_of gs ++ [(base c - nst * 4096, nst * 4096, 3); (brk_of gs, 0, 3)]) /\
    fb s' = fb s /\
    (forall pg, pt s' pg = if in_stack c nst pg then Some (None, true) else frame_of (f_mmap f) gs pg) /\
    (forall a, in_stack c nst (a / 4096) = true -> mem s' a = 0) /\
    (forall a rw, in_stack c nst (a / 4096) = false -> frame_of (f_mmap f) gs (a / 4096) = Some (None, rw) ->
       mem s' a = byte_of (fb s) gs a).
Proof. exact load_exact. Qed.
Print Assumptions C72_exact.

(** Segments that do not share pages: every byte of a segment is the file's, then 0; writable exactly when the segment is; the stack is zero and writable; nothing else is mapped; the file is not changed. *)
Theorem C72_image : forall c nst f al s gs,
  good_cfg c -> 0 <= nst -> nst * 4096 <= base c -> (forall x, al x = true) ->
  Forall (fits c nst f) gs -> ForallOrdPairs apart gs -> (forall x, pt s x = None) ->
  exists s' ms, load_elf c nst al f s gs = LsOk s' (brk_of gs) ms /\ fb s' = fb s /\
    (forall g a, In g gs -> loaded g = true -> p_va g <= a < p_va g + p_msz g ->
       (exists fr, pt s' (a / 4096) = Some (fr, w_ok g)) /\
       (a < p_va g + p_fsz g -> view s' a = Some (fb s (p_off g + (a - p_va g)))) /\
       (p_va g + p_fsz g <= a -> f_mmap f && negb (w_ok g) = false -> view s' a = Some 0)) /\
    (forall a, base c - nst * 4096 <= a < base c -> view s' a = Some 0 /\ pt s' (a / 4096) = Some (None, true)) /\
    (forall pg, in_stack c nst pg = false -> (forall g, In g gs -> touches pg g = false) -> pt s' pg = None).
Proof. exact image. Qed.
Print Assumptions C72_image.

(** A program that asks for an interpreter is refused before anything is mapped. *)
Theorem C72_dynamic : forall c nst al f s gs g,
  In g gs -> p_type g = 3 -> load_elf c nst al f s gs = LsErr ENOEXEC s.
Proof. exact dynamic. Qed.
Print Assumptions C72_dynamic.

(** A segment that is not aligned to 4096, or whose offset is not congruent to its address, is refused. *)
Theorem C72_unaligned : forall c nst al f s gs g s' b' m',
  In g gs -> p_type g = 1 ->
  p_align g <> 4096 \/ p_off g mod 4096 <> p_va g mod 4096 -> load_elf c nst al f s gs <> LsOk s' b' m'.
Proof. exact unaligned. Qed.
Print Assumptions C72_unaligned.

(** A file too short for a segment is refused. *)
Theorem C72_truncated : forall c nst al f s gs g s' b' m',
  good_cfg c -> 0 <= nst -> f_mmap f = false -> In g gs -> loaded g = true -> 0 <= p_va g ->
  0 < p_fsz g <= p_msz g -> p_va g + p_msz g <= base c -> f_size f < p_off g + p_fsz g ->
  load_elf c nst al f s gs <> LsOk s' b' m'.
Proof. exact truncated. Qed.
Print Assumptions C72_truncated.

(** Without mmap: the file never changes and no kernel page is mapped, whatever the headers and allocation failures. *)
Theorem C72_file_safe : forall c nst al f s gs,
  f_mmap f = false -> 0 <= nst -> (forall x, pt s x = None) ->
  match load_elf c nst al f s gs with
  | LsOk s' _ _ => fb s' = fb s /\ forall v, base c / 4096 <= v -> pt s' v = None
  | LsErr _ s' => fb s' = fb s /\ forall v, base c / 4096 <= v -> pt s' v = None
  | LsKern _ => True
  end.
Proof. exact file_safe. Qed.
Print Assumptions C72_file_safe.

(** The addresses of segments are not checked: one at or above BASE_VA is loaded there. *)
Theorem C72_kernel_refuted : forall c al f s g gs brk ms,
  good_cfg c -> p_type g = 1 -> aligned g = true -> base c <= p_va g -> 0 < p_msz g ->
  p_va g + p_msz g + 4096 <= modulus c -> f_seek f (p_off g) = true -> f_mmap f = false \/ w_ok g = true ->
  load_segs c al f s (g :: gs) brk ms = LsKern (p_va g / 4096).
Proof. exact kernel_segment. Qed.
Print Assumptions C72_kernel_refuted.

(** With mmap: a writable segment that begins in the last page of a read-only one is copied into the file of the program. *)
Theorem C72_file_refuted : forall c al f s v p1 p2,
  good_cfg c -> 0 <= v -> v * 4096 + 4096 <= base c -> al v = true -> pt s v = None ->
  f_mmap f = true -> f_blk f p1 = true -> f_seek f (p2 * 4096 + 2048) = true -> p2 * 4096 + 4096 <= f_size f -> 0 <= p1 -> 0 <= p2 ->
  exists s' b m, load_segs c al f s [Seg 1 (p1 * 4096) (v * 4096) 2048 2048 4096 4;
                                     Seg 1 (p2 * 4096 + 2048) (v * 4096 + 2048) 100 100 4096 6] 0 [] = LsOk s' b m /\
    forall k, 0 <= k < 100 -> fb s' (p1 * 4096 + 2048 + k) = fb s (p2 * 4096 + 2048 + k).
Proof. exact file_written. Qed.
Print Assumptions C72_file_refuted.

(** With mmap: the bytes of a read-only segment behind its file part are what the file has there, not 0. *)
Theorem C72_ro_tail_refuted : forall c al f s v p,
  good_cfg c -> 0 <= v -> v * 4096 + 4096 <= base c -> al v = true -> pt s v = None ->
  f_mmap f = true -> f_blk f p = true -> 0 <= p ->
  exists s' b m, load_segs c al f s [Seg 1 (p * 4096) (v * 4096) 1 2 4096 4] 0 [] = LsOk s' b m /\
    view s' (v * 4096 + 1) = Some (fb s (p * 4096 + 1)).
Proof. exact ro_tail. Qed.
Print Assumptions C72_ro_tail_refuted.

(** A segment with more bytes in the file than in memory is accepted: bytes behind its end are loaded, and the rest is not. *)
Theorem C72_sizes_refuted : forall c al f s v,
  good_cfg c -> 0 <= v -> v * 4096 + 4096 <= base c -> al v = true -> pt s v = None -> pt s (v + 1) = None ->
  f_mmap f = false -> f_seek f 0 = true -> 8192 <= f_size f ->
  exists s' b m, load_segs c al f s [Seg 1 0 (v * 4096) 8192 1 4096 6] 0 [] = LsOk s' b m /\
    (forall k, 1 <= k < 4096 -> view s' (v * 4096 + k) = Some (fb s k)) /\ pt s' (v + 1) = None.
Proof. exact bad_sizes. Qed.
Print Assumptions C72_sizes_refuted.

(** With mmap: a hole in the file is skipped, and the pages behind it appear one page too early. *)
Theorem C72_hole_refuted : forall c al f s v,
  good_cfg c -> 0 <= v -> v * 4096 + 8192 <= base c -> al v = true -> pt s v = None -> pt s (v + 1) = None ->
  f_mmap f = true -> f_blk f 0 = false -> f_blk f 1 = true ->
  exists s' b m, load_segs c al f s [Seg 1 0 (v * 4096) 8192 8192 4096 4] 0 [] = LsOk s' b m /\
    view s' (v * 4096) = Some (fb s 4096) /\ view s' (v * 4096 + 4096) = None.
Proof. exact hole_shifts. Qed.
Print Assumptions C72_hole_refuted.

(** A page that also belongs to a read-only segment is read-only for the writable segment too. *)
Theorem C72_shared_ro_refuted : forall c nst al f s gs g pg,
  good_cfg c -> 0 <= nst -> nst * 4096 <= base c -> (forall x, al x = true) ->
  Forall (fits c nst f) gs -> f_mmap f = false -> (forall x, pt s x = None) -> In g gs -> touches pg g = true -> w_ok g = false ->
  exists s' b m fr, load_elf c nst al f s gs = LsOk s' b m /\ pt s' pg = Some (fr, false).
Proof. exact made_ro. Qed.
Print Assumptions C72_shared_ro_refuted.

(** 100 bytes of text at 4096, 50 of data at 8292 with 150 zero bytes behind, two pages of stack *)
Example C72_nonvacuous :
  let gs := [Seg 1 0 4096 100 100 4096 5; Seg 4 0 0 9 9 4 4; Seg 1 100 8292 50 200 4096 6] in
  let f mm := File 150 (fun p => p =? 0) (fun _ => true) mm in
  let s := St (fun _ => None) (fun _ => 255) (fun x => x mod 251) in
  let ok mm := match load_elf i386 2 (fun _ => true) (f mm) s gs with
    | LsOk s' b ms => (b, ms, map (view s') [4096; 4195; 8292; 8341; 8342; 8191 + 4096; 12288; 3221217280], map (pt s') [1; 2; 3; 786431])
    | _ => (0, [], [], []) end in
  let ms := [(4096, 4096, 5); (8192, 4096, 3); (3221217280, 8192, 3); (12288, 0, 3)] in
  let v := [Some 0; Some 99; Some 100; Some 149; Some 0; Some 0; None; Some 0] in
  ok false = (12288, ms, v, [Some (None, false); Some (None, true); None; Some (None, true)]) /\
  ok true = (12288, ms, v, [Some (Some 0, false); Some (None, true); None; Some (None, true)]).
Proof. vm_compute. split; reflexivity. Qed.

(** ... and its headers fulfil the premises *)
Example C72_fits : forall mm,
  let gs := [Seg 1 0 4096 100 100 4096 5; Seg 4 0 0 9 9 4 4; Seg 1 100 8292 50 200 4096 6] in
  Forall (fits i386 2 (File 150 (fun p => p =? 0) (fun _ => true) mm)) gs /\ ForallOrdPairs apart gs.
Proof.
  intros mm gs. split.
  - repeat constructor; cbn; try lia; try discriminate; intros; rewrite Z.eqb_eq; apply Z.div_small; lia.
  - repeat constructor; unfold apart, touches; cbn; intros pg; lia.
Qed.

