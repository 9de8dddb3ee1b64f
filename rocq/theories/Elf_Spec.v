(** The memory image program headers describe. *)
From Verif Require Import Lib User_Model User_Spec Elf_Model.

Definition loaded (g : seg) : bool := (p_type g =? 1) && (0 <? p_msz g).
(** Pages and file bytes of a segment *)
Definition touches (pg : Z) (g : seg) : bool :=
  loaded g && (p_va g / 4096 <=? pg) && (pg <=? (p_va g + p_msz g - 1) / 4096).
Definition in_file (a : Z) (g : seg) : bool := loaded g && (p_va g <=? a) && (a <? p_va g + p_fsz g).

(** The byte at [a]: the file's, from the last segment that has it; 0 without one *)
Definition byte_of (b : Z -> Z) (gs : list seg) (a : Z) : Z :=
  fold_left (fun old g => if in_file a g then b (p_off g + (a - p_va g)) else old) gs 0.
(** The frame of page [pg]; [mm]: read-only segments are pages of the file *)
Definition frame_of (mm : bool) (gs : list seg) (pg : Z) : option (option Z * bool) :=
  fold_left (fun old g =>
    if touches pg g
    then if mm && negb (w_ok g) then Some (Some (p_off g / 4096 + (pg - p_va g / 4096)), false)
         else match old with Some (fr, rw) => Some (fr, rw && w_ok g) | None => Some (None, w_ok g) end
    else old) gs None.
Definition end_of (g : seg) : Z := (p_va g + p_msz g + 4095) / 4096 * 4096.
Definition brk_of (gs : list seg) : Z := fold_left (fun b g => if loaded g then Z.max b (end_of g) else b) gs 0.
Definition maps_of (gs : list seg) : list (Z * Z * Z) :=
  map (fun g => (p_va g / 4096 * 4096, end_of g - p_va g / 4096 * 4096, prot (p_flags g))) (filter loaded gs).

(** What a reader of the address space sees *)
Definition view (s : st) (a : Z) : option Z :=
  match pt s (a / 4096) with
  | None => None
  | Some (None, _) => Some (mem s a)
  | Some (Some p, _) => Some (fb s (p * 4096 + a mod 4096))
  end.

(** The headers of a static program for this kernel: in the user's address space below the
    stack, in the file *)
Definition fits (c : cfg) (nst : Z) (f : filet) (g : seg) : Prop :=
  p_type g <> 3 /\ (p_type g = 1 ->
    aligned g = true /\ 0 <= p_off g /\ 0 <= p_va g /\ 0 <= p_fsz g <= p_msz g /\ p_off g + p_fsz g <= f_size f /\
    f_seek f (p_off g) = true /\ p_va g + p_msz g <= base c - nst * 4096 /\
    (f_mmap f = true -> w_ok g = false -> forall k, 0 <= k < p_msz g -> f_blk f ((p_off g + k) / 4096) = true)).
(** No page belongs to two segments *)
Definition apart (g g' : seg) : Prop := forall pg, touches pg g = true -> touches pg g' = true -> False.
(** ... of which one is read-only *)
Definition apart_ro (g g' : seg) : Prop := w_ok g && w_ok g' = false -> apart g g'.

Definition in_stack (c : cfg) (nst pg : Z) : bool := (base c / 4096 - nst <=? pg) && (pg <? base c / 4096).
