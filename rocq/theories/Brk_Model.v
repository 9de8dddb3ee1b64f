(** Model of brk, kernel/mm/process_mm.c:20-113.

    A page directory is a map from page-aligned virtual addresses to physical pages (or
    none); mem gives the bytes of the physical pages.  Preemption is disabled, so a call
    is one step.  No address computation wraps, because new_brk < MAX_BRK.  The results
    of kmalloc and map_page are given by an oracle.  [owned] is not in the code: the
    pages which kmalloc gave to brk and which were not freed since. *)
From Verif Require Import Lib.

Definition PAGE := 4096.
Record st := St { tab : Z -> option Z; brk : Z; initial_brk : Z; br_vaddr : Z; br_len : Z; mem : Z -> Z -> Z; owned : list Z }.
(** kmalloc fails; kmalloc gives a page and map_page fails; both succeed *)
Inductive answer := NoMem | NoMap (p : Z) | Page (p : Z).

Fixpoint remove_page (p : Z) (l : list Z) : list Z :=
  match l with [] => [] | x :: r => if x =? p then r else x :: remove_page p r end.
(** unmap_page(pdir, p, true) *)
Definition unmap_page (t : Z -> option Z) (o : list Z) (v : Z) : (Z -> option Z) * list Z :=
  match t v with Some p => (fupd t v None, remove_page p o) | None => (t, o) end.
(** the loop of lines 31-33 *)
Fixpoint shrink (fuel : nat) (t : Z -> option Z) (o : list Z) (p brk : Z) : (Z -> option Z) * list Z :=
  match fuel with
  | O => (t, o)
  | S f => if p <? brk then let (t', o') := unmap_page t o p in shrink f t' o' (p + PAGE) brk else (t, o)
  end.
(** the loop of lines 41-47: is a page already mapped? *)
Fixpoint any_mapped (fuel : nat) (t : Z -> option Z) (vaddr new : Z) : bool :=
  match fuel with
  | O => false
  | S f => if vaddr <? new then match t vaddr with Some _ => true | None => any_mapped f t (vaddr + PAGE) new end else false
  end.
(** the loop of lines 53-68 *)
Fixpoint grow (fuel : nat) (t : Z -> option Z) (o : list Z) (vaddr new : Z) (ans : list answer) : (Z -> option Z) * list Z * Z :=
  match fuel with
  | O => (t, o, vaddr)
  | S f =>
      if vaddr <? new then
        match ans with
        | Page p :: ans' => grow f (fupd t vaddr (Some p)) (p :: o) (vaddr + PAGE) new ans'
        | NoMap p :: _ => (t, remove_page p (p :: o), vaddr)     (* kfree2 *)
        | _ => (t, o, vaddr)
        end
      else (t, o, vaddr)
  end.
(** brk_syscall_int, lines 20-72 *)
Definition brk_int (s : st) (new : Z) (ans : list answer) : st :=
  let fuel := Z.to_nat (Z.abs (new - brk s) / PAGE) in
  if new <? brk s then
    let (t, o) := shrink fuel (tab s) (owned s) new (brk s) in St t new (initial_brk s) (br_vaddr s) (br_len s) (mem s) o
  else if any_mapped fuel (tab s) (brk s) new then s
  else let '(t, o, v) := grow fuel (tab s) (owned s) (brk s) new ans in St t v (initial_brk s) (br_vaddr s) (br_len s) (mem s) o.
(** sys_brk, lines 74-113; returns brk afterwards *)
Definition sys_brk (max : Z) (s : st) (new : Z) (ans : list answer) : st * Z :=
  if (new =? 0) || negb (new mod PAGE =? 0) || (new <? initial_brk s) || (new >=? max) || (new =? brk s) then (s, brk s)
  else
    let s1 := brk_int s new ans in
    let s2 := St (tab s1) (brk s1) (initial_brk s1) (br_vaddr s1) (brk s1 - br_vaddr s1) (mem s1) (owned s1) in
    (s2, brk s2).

Inductive op :=
  | Brk (new : Z) (ans : list answer)
  | Write (a v : Z)                         (* the program stores a byte on its heap *)
  | Other (t : Z -> option Z) (m : Z -> Z -> Z).    (* other mappings and memory change *)
Definition page_of (a : Z) : Z := a / PAGE * PAGE.
Definition read (s : st) (a : Z) : option Z := match tab s (page_of a) with Some p => Some (mem s p (a mod PAGE)) | None => None end.
Definition step (max : Z) (s : st) (o : op) : st :=
  match o with
  | Brk new ans => fst (sys_brk max s new ans)
  | Write a v =>
      match tab s (page_of a) with
      | Some p => St (tab s) (brk s) (initial_brk s) (br_vaddr s) (br_len s) (fun q i => if (q =? p) && (i =? a mod PAGE) then v else mem s q i) (owned s)
      | None => s
      end
  | Other t m => St t (brk s) (initial_brk s) (br_vaddr s) (br_len s) m (owned s)
  end.
