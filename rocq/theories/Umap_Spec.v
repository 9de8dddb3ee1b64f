From Verif Require Import Lib Umap_Model.

Section U.
Variable W : Z.
(** what is mapped at an address: the file, the offset of the byte, the protection *)
Definition at_addr (m : um) (a : Z) : option (option Z * Z * Z) :=
  if (vaddr m <=? a) && (a <? vaddr m + len m) then Some (h m, off m + (a - vaddr m), prot m) else None.
Fixpoint look (l : list um) (a : Z) : option (option Z * Z * Z) :=
  match l with [] => None | m :: r => match at_addr m a with Some x => Some x | None => look r a end end.
Definition aligned (x : Z) : Prop := x mod PAGE = 0.
Definition good (m : um) : Prop :=
  0 < vaddr m /\ 0 < len m /\ vaddr m + len m < W /\ 0 <= off m /\ off m + len m < W /\ aligned (vaddr m) /\ aligned (len m) /\ aligned (off m).
Definition apart (m m' : um) : Prop := vaddr m + len m <= vaddr m' \/ vaddr m' + len m' <= vaddr m.
Fixpoint disjoint (l : list um) : Prop := match l with [] => True | m :: r => Forall (apart m) r /\ disjoint r end.
Definition valid (l : list um) : Prop := Forall good l /\ disjoint l.

(** a range of whole pages inside one mapping *)
Definition inside (l : list um) (v n : Z) : Prop :=
  aligned v /\ 0 < n /\ exists m, In m l /\ vaddr m <= v /\ v + (n + 4095) / PAGE * PAGE <= vaddr m + len m.
(** histories *)
Inductive op := Map (m : um) | Unmap (v n : Z) (oom : bool) | Close (hd : Z).
Definition allowed (l : list um) (o : op) : Prop :=
  match o with
  | Map m => good m /\ Forall (apart m) l        (* the heap gives a range which is not in use, C07 *)
  | Unmap v n _ => inside l v n
  | Close _ => True
  end.
Definition step (l : list um) (o : op) : list um :=
  match o with Map m => add l m | Unmap v n oom => maps (munmap_int W l v n oom) | Close hd => close_handle l hd end.
(** the abstract address space *)
Definition space := Z -> option (option Z * Z * Z).
Definition in_range (v n a : Z) : bool := (v <=? a) && (a <? v + (n + 4095) / PAGE * PAGE).
Definition sstep (f : space) (o : op) (fails : bool) : space :=
  match o with
  | Map m => fun a => match at_addr m a with Some x => Some x | None => f a end
  | Unmap v n _ => if fails then f else fun a => if in_range v n a then None else f a
  | Close hd => fun a => match f a with Some (Some x, o, p) => if x =? hd then None else f a | y => y end
  end.
Definition failed (l : list um) (o : op) : bool := match o with Unmap v n oom => match code (munmap_int W l v n oom) with Ok => false | _ => true end | _ => false end.
Inductive reach : list um -> space -> Prop :=
  | R0 : reach [] (fun _ => None)
  | RS l f o : reach l f -> allowed l o -> reach (step l o) (sstep f o (failed l o)).
End U.
(** the pages a mapping of n bytes at v, from offset off, should have *)
Definition expected (v off n : Z) (blocks : list (Z * Z)) : list (Z * Z) :=
  map (fun b => (v + (fst b - off), snd b)) (filter (fun b => (off <=? fst b) && (fst b <? off + n)) blocks).
(** the blocks of a file without holes from offset o on *)
Fixpoint dense (o : Z) (blocks : list (Z * Z)) : Prop :=
  match blocks with [] => True | (x, _) :: r => x = o /\ dense (o + PAGE) r end.
