(* Page tables, page-frame reference counts and copy-on-write of
   kernel/arch/i386/paging.c and kernel/arch/generic_x86/paging_generic_x86.{h,c}.

   Physical memory is a set of page frames. A page directory, a page table, a
   page of user data are one frame each. Only the user part of a page directory
   (768 entries, BASE_VADDR_PD_IDX) is described: the kernel part is the same in
   all page directories. Virtual and physical addresses are page numbers;
   [lim] is phys_mem_lim in pages. The counters are mathematical integers: a
   count cannot wrap, for 2^20 frames hold at most 2^30 page-table entries. All
   functions run with preemption disabled, hence as one step; the TLB is not
   described (every change is followed by its invalidation, in do_fork by
   set_curr_pdir). A [kmalloc] of one page is an oracle [al]: the frame it
   returns depends on the state, None being out of memory. *)
From Coq Require Import ZArith List Bool Lia.
From Verif Require Import Lib.
Import ListNotations.
Open Scope Z_scope.

Inductive out (A : Type) : Type :=
| Ok (a : A)
| Afail            (* an ASSERT of the code fails *)
| Uaf              (* a freed object, or one of another kind, is used *)
| Bfree.           (* a frame that is not the kernel heap's to give is freed *)
Arguments Ok {A} a.
Arguments Afail {A}.
Arguments Uaf {A}.
Arguments Bfree {A}.

Definition bind {A B} (x : out A) (f : A -> out B) : out B :=
  match x with Ok a => f a | Afail => Afail | Uaf => Uaf | Bfree => Bfree end.
Notation "'bnd' p <- x ; f" := (bind x (fun p => f))
  (at level 200, p pattern, x at level 100, f at level 200).

Definition ENOMEM := -12.
Definition EINVAL := -22.
Definition EADDRINUSE := -98.

(* paging_int.h page_t: pageAddr, rw, and the two bits of [avail],
   PAGE_COW_ORIG_RW and PAGE_SHARED; a non-present entry is None *)
Record pte := Pte { p_f : Z; p_rw : bool; p_cow : bool; p_sh : bool }.

(* what a frame is used for: free for kmalloc, a page of memory handed to
   kmalloc's callers, a frame with an owner outside the page tables (zero page,
   block of a ramfs file, ramdisk), a page table, a page directory *)
Inductive kind := KFree | KPage | KExt | KPt | KPd.

Record st := St {
  kd : Z -> kind;
  de : Z -> Z -> option Z;        (* page directory, index: page table *)
  te : Z -> Z -> option pte;      (* page table, index: entry *)
  rc : Z -> Z;                    (* pageframes_refcount *)
  dt : Z -> Z -> Z }.             (* frame, offset: byte *)

(* phys_mem_lim and the frame of zero_page *)
Record cfg := Cfg { lim : Z; zf : Z }.

Definition set_kd s x k := St (fupd (kd s) x k) (de s) (te s) (rc s) (dt s).
Definition set_de s pd i v :=
  St (kd s) (fupd (de s) pd (fupd (de s pd) i v)) (te s) (rc s) (dt s).
Definition set_te s p j v :=
  St (kd s) (de s) (fupd (te s) p (fupd (te s p) j v)) (rc s) (dt s).
Definition set_rc s f n := St (kd s) (de s) (te s) (fupd (rc s) f n) (dt s).
Definition set_dt s f w := St (kd s) (de s) (te s) (rc s) (fupd (dt s) f w).

Definition NPD := 768.
Definition NPT := 1024.
Definition idx (n : Z) : list Z := map Z.of_nat (seq 0 (Z.to_nat n)).

(* paging_generic_x86.h:46-68 *)
Definition rc_inc (c : cfg) s f := if lim c <=? f then s else set_rc s f (rc s f + 1).
Definition rc_get (c : cfg) s f := if lim c <=? f then 0 else rc s f.
Definition rc_dec (c : cfg) s f : out (st * Z) :=
  if lim c <=? f then Ok (s, 0) else
  if rc s f <=? 0 then Afail else Ok (set_rc s f (rc s f - 1), rc s f - 1).

Definition kfree s f : out st :=
  match kd s f with
  | KPage | KPt | KPd => Ok (set_kd s f KFree)
  | KFree | KExt => Bfree
  end.

(* pdir_get_page_table: the page table behind entry i, None when there is none *)
Definition get_pt s pd i : out (option Z) :=
  match kd s pd with
  | KPd => match de s pd i with
           | None => Ok None
           | Some p => match kd s p with KPt => Ok (Some p) | _ => Uaf end
           end
  | _ => Uaf
  end.

(* paging.c:407-446 map_page_int *)
Definition map_int (c : cfg) (al : st -> option Z) s pd v (e : pte) : out (st * Z) :=
  bnd o <- get_pt s pd (v / NPT);
  let r := match o with
           | Some p => Some (s, p)
           | None => match al s with
                     | None => None
                     | Some p =>
                         let s1 := set_kd s p KPt in
                         let s2 := St (kd s1) (de s1) (fupd (te s1) p (fun _ => None))
                                      (rc s1) (dt s1) in
                         Some (set_de s2 pd (v / NPT) (Some p), p)
                     end
           end in
  match r with
  | None => Ok (s, ENOMEM)
  | Some (s, p) =>
      match te s p (v mod NPT) with
      | Some _ => Ok (s, EADDRINUSE)
      | None => Ok (rc_inc c (set_te s p (v mod NPT) (Some e)) (p_f e), 0)
      end
  end.

(* paging.c:509-556 map_page with PAGING_FL_DO_ALLOC; [zero] is
   PAGING_FL_ZERO_PG. The callers of map_page that allocate the page themselves
   (kernel/elf.c:75-83, kernel/mm/process_mm_base.c:305-316) do the same. *)
Definition map_new (c : cfg) al s pd v (rw sh zero : bool) : out (st * Z) :=
  match al s with
  | None => Ok (s, ENOMEM)
  | Some f =>
      let s := set_kd s f KPage in
      let s := if zero then set_dt s f (fun _ => 0) else s in
      bnd (s, r) <- map_int c al s pd v (Pte f rw false sh);
      if r =? 0 then Ok (s, r) else
      bnd s <- kfree s f;
      Ok (s, r)
  end.

(* paging.c:509-556 map_page, 580-608 map_pages, of a frame that exists already:
   a block of a file, mapped with PAGING_FL_SHARED *)
Definition map_ext (c : cfg) al s pd v f (rw : bool) : out (st * Z) :=
  map_int c al s pd v (Pte f rw false true).

(* paging.c:558-578 map_zero_page *)
Definition map_zero (c : cfg) al s pd v (rw : bool) : out (st * Z) :=
  map_int c al s pd v (Pte (zf c) false rw false).

(* paging.c:256-292 __unmap_page *)
Definition unmap (c : cfg) s pd v (fr perm : bool) : out (st * Z) :=
  bnd o <- get_pt s pd (v / NPT);
  match o with
  | None => if perm then Ok (s, EINVAL) else Afail
  | Some p =>
      match te s p (v mod NPT) with
      | None => if perm then Ok (s, EINVAL) else Afail
      | Some e =>
          let s := set_te s p (v mod NPT) None in
          bnd (s, n) <- rc_dec c s (p_f e);
          if (n =? 0) && fr then
            if p_f e =? zf c then Afail else
            bnd s <- kfree s (p_f e); Ok (s, 0)
          else Ok (s, 0)
      end
  end.

(* paging.c:243-255 set_page_rw(…, false), the way kernel/elf.c:117 makes the
   pages of a read-only segment *)
Definition set_ro s pd v : out st :=
  bnd o <- get_pt s pd (v / NPT);
  match o with
  | None => Afail
  | Some p =>
      match te s p (v mod NPT) with
      | None => Ok s
      | Some e => Ok (set_te s p (v mod NPT) (Some (Pte (p_f e) false (p_cow e) (p_sh e))))
      end
  end.

Inductive cowres := CowOk | CowNot | CowNoMem.

(* paging.c:44-119 handle_potential_cow, on a write to a present page that is
   not writable *)
Definition cow (c : cfg) (al : st -> option Z) s pd v : out (st * cowres) :=
  bnd o <- get_pt s pd (v / NPT);
  match o with
  | None => Ok (s, CowNot)
  | Some p =>
      match te s p (v mod NPT) with
      | None => Ok (s, CowNot)
      | Some e =>
          if negb (p_cow e) then Ok (s, CowNot) else
          if rc_get c s (p_f e) =? 1 then
            if p_f e =? zf c then Afail else
            Ok (set_te s p (v mod NPT) (Some (Pte (p_f e) true false false)), CowOk)
          else
            match al s with
            | None => Ok (s, CowNoMem)
            | Some f =>
                let s := set_kd s f KPage in
                let s := set_dt s f (dt s (p_f e)) in
                if negb (rc_get c s f =? 0) then Afail else
                let s := rc_inc c s f in
                bnd (s, _) <- rc_dec c s (p_f e);
                Ok (set_te s p (v mod NPT) (Some (Pte f true false false)), CowOk)
            end
      end
  end.

Inductive wres := WDone | WFault | WNoMem.

(* a store of one byte by the processor: a present writable page takes it; a
   present page that is not writable faults into handle_potential_cow
   (generic_x86/idt_generic.c:96), and the store is repeated when that resolved
   the fault. WFault is the way to handle_page_fault, WNoMem to
   handle_cow_out_of_mem: neither is described here. *)
Definition write (c : cfg) al s pd v off b : out (st * wres) :=
  bnd o <- get_pt s pd (v / NPT);
  match o with
  | None => Ok (s, WFault)
  | Some p =>
      match te s p (v mod NPT) with
      | None => Ok (s, WFault)
      | Some e =>
          if p_rw e then Ok (set_dt s (p_f e) (fupd (dt s (p_f e)) off b), WDone) else
          bnd (s, r) <- cow c al s pd v;
          match r with
          | CowNot => Ok (s, WFault)
          | CowNoMem => Ok (s, WNoMem)
          | CowOk =>
              match te s p (v mod NPT) with
              | Some e =>
                  if p_rw e then Ok (set_dt s (p_f e) (fupd (dt s (p_f e)) off b), WDone)
                  else Ok (s, WFault)
              | None => Ok (s, WFault)
              end
          end
      end
  end.

(* paging.c:632-635: the page tables given back when one cannot be allocated *)
Fixpoint clone_undo s pd (l : list Z) : out st :=
  match l with
  | [] => Ok s
  | i :: l =>
      match de s pd i with
      | None => clone_undo s pd l
      | Some p => bnd s <- kfree s p; clone_undo s pd l
      end
  end.

(* paging.c:620-643: [l] the indices to go, [d] those done, the last one first *)
Fixpoint clone_alloc (al : st -> option Z) s pd new (l d : list Z) : out (st * bool) :=
  match l with
  | [] => Ok (s, true)
  | i :: l =>
      match de s pd i with
      | None => clone_alloc al s pd new l (i :: d)
      | Some _ =>
          match al s with
          | None =>
              bnd s <- clone_undo s pd d;
              bnd s <- kfree s new;
              Ok (s, false)
          | Some p =>
              clone_alloc al (set_de (set_kd s p KPt) new i (Some p)) pd new l (i :: d)
          end
      end
  end.

(* paging.c:666-672 *)
Definition mark (e : pte) : pte :=
  if p_sh e then e else Pte (p_f e) false (p_cow e || p_rw e) (p_sh e).

(* paging.c:654-675 *)
Fixpoint clone_mark (c : cfg) s p (l : list Z) : out st :=
  match l with
  | [] => Ok s
  | j :: l =>
      match te s p j with
      | None => clone_mark c s p l
      | Some e =>
          if rc_get c s (p_f e) <=? 0 then Afail else
          clone_mark c (rc_inc c (set_te s p j (Some (mark e))) (p_f e)) p l
      end
  end.

(* paging.c:645-679 *)
Fixpoint clone_pts (c : cfg) s pd new (l : list Z) : out st :=
  match l with
  | [] => Ok s
  | i :: l =>
      bnd o <- get_pt s pd i;
      match o with
      | None => clone_pts c s pd new l
      | Some p =>
          bnd o <- get_pt s new i;
          match o with
          | None => Uaf
          | Some q =>
              bnd s <- clone_mark c s p (idx NPT);
              clone_pts c (St (kd s) (de s) (fupd (te s) q (te s p)) (rc s) (dt s)) pd new l
          end
      end
  end.

(* paging.c:610-682 pdir_clone; the result is the new page directory *)
Definition clone (c : cfg) (al : st -> option Z) s pd : out (st * option Z) :=
  match kd s pd with
  | KPd =>
      match al s with
      | None => Ok (s, None)
      | Some new =>
          let s := set_kd s new KPd in
          let s := St (kd s) (fupd (de s) new (de s pd)) (te s) (rc s) (dt s) in
          bnd (s, ok) <- clone_alloc al s pd new (idx NPD) [];
          if negb ok then Ok (s, None) else
          bnd s <- clone_pts c s pd new (idx NPD);
          Ok (s, Some new)
      end
  | _ => Uaf
  end.

(* paging.c:779-788 *)
Fixpoint destroy_pt (c : cfg) s p (l : list Z) : out st :=
  match l with
  | [] => Ok s
  | j :: l =>
      match te s p j with
      | None => destroy_pt c s p l
      | Some e =>
          bnd (s, n) <- rc_dec c s (p_f e);
          if n =? 0 then bnd s <- kfree s (p_f e); destroy_pt c s p l
          else destroy_pt c s p l
      end
  end.

(* paging.c:772-792 *)
Fixpoint destroy_pts (c : cfg) s pd (l : list Z) : out st :=
  match l with
  | [] => Ok s
  | i :: l =>
      bnd o <- get_pt s pd i;
      match o with
      | None => destroy_pts c s pd l
      | Some p =>
          bnd s <- destroy_pt c s p (idx NPT);
          bnd s <- kfree s p;
          destroy_pts c s pd l
      end
  end.

(* paging.c:767-796 pdir_destroy *)
Definition destroy (c : cfg) s pd : out st :=
  bnd s <- destroy_pts c s pd (idx NPD);
  kfree s pd.

(* kernel/fs/ramfs/blocks.c.h:5-26 ramfs_new_block: a page from the kernel heap,
   zeroed, whose frame is retained *)
Definition block_new (al : st -> option Z) s : st * option Z :=
  match al s with
  | None => (s, None)
  | Some f => (set_rc (set_dt (set_kd s f KExt) f (fun _ => 0)) f (rc s f + 1), Some f)
  end.

(* kernel/fs/ramfs/blocks.c.h:28-38 ramfs_destroy_block *)
Definition block_free s f : out st :=
  match kd s f with
  | KExt =>
      if rc s f <=? 0 then Afail
      else Ok (set_kd (set_rc s f (rc s f - 1)) f KFree)
  | _ => Bfree
  end.
