(* What page tables are for: every process sees its own memory. *)
From Coq Require Import ZArith List Bool Lia.
From Verif Require Import Lib Paging_Model.
Import ListNotations.
Open Scope Z_scope.

(* the entry the processor finds when it translates page v in page directory pd *)
Definition pte_at (s : st) (pd v : Z) : option pte :=
  match kd s pd with
  | KPd => match de s pd (v / NPT) with
           | Some p => match kd s p with KPt => te s p (v mod NPT) | _ => None end
           | None => None
           end
  | _ => None
  end.

(* what the process sees at byte [off] of page v: may it write there, is the page
   a shared one and which, the byte *)
Definition see (s : st) (pd v off : Z) : option (bool * option Z * Z) :=
  match pte_at s pd v with
  | None => None
  | Some e => Some (p_rw e || p_cow e, if p_sh e then Some (p_f e) else None, dt s (p_f e) off)
  end.

(* the two pages are one: the same page, or the same shared frame *)
Definition same_page (s : st) (pd v a b : Z) : bool :=
  (a =? pd) && (b =? v) ||
  match see s pd v 0, see s a b 0 with
  | Some (_, Some f, _), Some (_, Some g, _) => f =? g
  | _, _ => false
  end.

(* byte y was written at [off] of page v by pd: everybody sees what they saw, but
   for that byte of that page *)
Definition written (s s' : st) (pd v off y : Z) : Prop :=
  forall a b o, kd s a = KPd ->
    see s' a b o =
    match see s a b o with
    | None => None
    | Some (w, sh, z) => Some (w, sh, if same_page s pd v a b && (o =? off) then y else z)
    end.

(* L lists all the places where frame f is mapped *)
Definition places (s : st) (f : Z) (L : list (Z * Z)) : Prop :=
  NoDup L /\
  forall pd v, In (pd, v) L <-> exists e, pte_at s pd v = Some e /\ p_f e = f.

(* kmalloc returns free memory *)
Definition al_ok (c : cfg) (al : st -> option Z) : Prop :=
  forall s f, al s = Some f -> kd s f = KFree /\ 0 <= f < lim c.

Definition user (v : Z) : Prop := 0 <= v < NPD * NPT.

Inductive op :=
| OMapNew (pd v : Z) (rw sh zero : bool)
| OMapZero (pd v : Z) (rw : bool)
| OMapExt (pd v f : Z) (rw : bool)
| OUnmap (pd v : Z) (fr perm : bool)
| OSetRo (pd v : Z)
| OWrite (pd v off b : Z)
| OFork (pd : Z)
| OExit (pd : Z)
| OBlockNew
| OBlockFree (f : Z).

Definition step (c : cfg) (al : st -> option Z) (s : st) (o : op) : out st :=
  match o with
  | OMapNew pd v rw sh zero => bnd (s, _) <- map_new c al s pd v rw sh zero; Ok s
  | OMapZero pd v rw => bnd (s, _) <- map_zero c al s pd v rw; Ok s
  | OMapExt pd v f rw => bnd (s, _) <- map_ext c al s pd v f rw; Ok s
  | OUnmap pd v fr perm => bnd (s, _) <- unmap c s pd v fr perm; Ok s
  | OSetRo pd v => set_ro s pd v
  | OWrite pd v off b => bnd (s, _) <- write c al s pd v off b; Ok s
  | OFork pd => bnd (s, _) <- clone c al s pd; Ok s
  | OExit pd => destroy c s pd
  | OBlockNew => Ok (fst (block_new al s))
  | OBlockFree f => block_free s f
  end.

(* a process' page directory: [kp] is the kernel's, which has no user pages and
   is cloned to make the first page directory of a program *)
Definition proc (kp : Z) (s : st) (pd : Z) : Prop := kd s pd = KPd /\ pd <> kp.

(* how the kernel uses these functions; a fork finds the memory for the page
   tables of the child, or not even that for its page directory *)
Definition allowed (c : cfg) (kp : Z) (al : st -> option Z) (s : st) (o : op) : Prop :=
  match o with
  | OMapNew pd v _ _ _ | OMapZero pd v _ | OWrite pd v _ _ => proc kp s pd /\ user v
  | OMapExt pd v f _ => proc kp s pd /\ user v /\ kd s f = KExt /\ f <> zf c
  | OUnmap pd v fr perm =>
      proc kp s pd /\ user v /\
      (perm = true \/ pte_at s pd v <> None) /\
      (fr = true \/ forall e, pte_at s pd v = Some e -> kd s (p_f e) = KExt)
  | OSetRo pd v => proc kp s pd /\ user v /\ pte_at s pd v <> None
  | OFork pd => kd s pd = KPd /\
                forall s', clone c al s pd = Ok (s', None) -> al s = None
  | OExit pd => proc kp s pd
  | OBlockNew => True
  | OBlockFree f => kd s f = KExt /\ f <> zf c /\
                    forall pd v e, pte_at s pd v = Some e -> p_f e <> f
  end.

(* after init_paging (generic_x86/paging_generic_x86.c) and the retaining of the
   ramdisk (kernel/fs/fat32_mm.c:34): the frames with an owner have one count *)
Record init (c : cfg) (kp : Z) (s : st) : Prop := {
  n_zf : kd s (zf c) = KExt;
  n_kp : kd s kp = KPd;
  n_de : forall i, de s kp i = None;
  n_kd : forall f, f <> kp -> kd s f = KFree \/ kd s f = KExt;
  n_ram : forall f, kd s f <> KFree -> 0 <= f < lim c;
  n_rc : forall f, rc s f = match kd s f with KExt => 1 | _ => 0 end;
  n_zero : forall o, dt s (zf c) o = 0 }.

(* a history: each step has its own outcome of kmalloc *)
Inductive runs (c : cfg) (kp : Z) : list op -> st -> st -> Prop :=
| runs_nil : forall s, runs c kp [] s s
| runs_cons : forall o l al s s1 s2,
    al_ok c al -> allowed c kp al s o -> step c al s o = Ok s1 ->
    runs c kp l s1 s2 -> runs c kp (o :: l) s s2.

Definition reach (c : cfg) (kp : Z) (s : st) : Prop :=
  exists s0 l, init c kp s0 /\ runs c kp l s0 s.

(* the operations that are a process' own, on its page v *)
Definition touches (o : op) (pd v : Z) : Prop :=
  match o with
  | OMapNew q w _ _ _ | OMapZero q w _ | OMapExt q w _ _ | OUnmap q w _ _
  | OSetRo q w | OWrite q w _ _ => q = pd /\ w = v
  | OExit q => q = pd
  | OFork _ | OBlockNew | OBlockFree _ => False
  end.
