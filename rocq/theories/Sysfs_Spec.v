(** Buffered files of sysfs as snapshots: a handle works on its own copy of the contents of
    the property, and what it wrote becomes the contents at fsync or close. *)
From Verif Require Import Lib Itoa_Model Sysfs_Model.

(** the property, the copy (None: made at the next read or write), the position, written
    since the last fsync, and the handle this one was duplicated from, until it is written *)
Record ah := AH { ap : Z; snap : option (list Z); apos : Z; adirty : bool; aorig : option Z }.
Record ast := A { anxt : Z; cont : Z -> list Z; ahs : Z -> option ah }.
Definition copy_of (a : ast) (x : ah) : list Z := match snap x with Some l => l | None => cont a (ap x) end.
Definition ainit (c : Z -> list Z) : ast := A 1 c (fun _ => None).

(** [l] with [b] put at position [n] *)
Definition put (l : list Z) (n : Z) (b : list Z) : list Z :=
  firstn (Z.to_nat n) l ++ b ++ skipn (Z.to_nat n + length b) l.
Definition piece (l : list Z) (n k : Z) : list Z := firstn (Z.to_nat k) (skipn (Z.to_nat n) l).
Definition set_ah (a : ast) h x := A (anxt a) (cont a) (fupd (ahs a) h x).
(** the contents after the handle is flushed *)
Definition saved (a : ast) (x : ah) : Z -> list Z :=
  if adirty x then fupd (cont a) (ap x) (copy_of a x) else cont a.
(** a duplicate with a copy is flushed only while the handle it comes from is open *)
Definition safe (a : ast) (x : ah) : Prop := forall o, snap x <> None -> aorig x = Some o -> ahs a o <> None.

Section Steps.
Variable w : Z.
Variable size : Z -> Z.
Definition target (x : ah) (whence off : Z) : option Z :=
  if whence =? 0 then Some off else if whence =? 1 then Some (apos x + off)
  else if whence =? 2 then Some (size (ap x) + off) else None.
Definition on (o : op) : option Z :=
  match o with Open _ | Syncfs => None | Read h _ | Write h _ | Seek h _ _ | Fsync h | Dup h | Close h => Some h end.
(** Uses which are allowed: no read and no write behind the end of the copy; after a write,
    fsync before the next write or dup; syncfs only when nothing is to be written *)
Inductive astep (a : ast) : op -> ret -> ast -> Prop :=
  | SOpen p : astep a (Open p) (Num (anxt a)) (A (anxt a + 1) (cont a) (fupd (ahs a) (anxt a) (Some (AH p (Some (cont a p)) 0 false None))))
  | SRead h x n l : ahs a h = Some x -> 0 <= n -> l = copy_of a x -> apos x <= zlen l ->
      astep a (Read h n) (Bytes (piece l (apos x) n)) (set_ah a h (Some (AH (ap x) (Some l) (apos x + zlen (piece l (apos x) n)) (adirty x) (aorig x))))
  | SWrite h x b b' l : ahs a h = Some x -> adirty x = false -> l = copy_of a x -> apos x <= zlen l ->
      b' = firstn (Z.to_nat (size (ap x) - apos x)) b ->
      astep a (Write h b) (Num (zlen b')) (set_ah a h (Some (AH (ap x) (Some (put l (apos x) b')) (apos x + zlen b') true None)))
  | SSeek h x wh off t : ahs a h = Some x -> - 2 ^ (w - 1) <= off < 2 ^ (w - 1) -> target x wh off = Some t -> 0 <= t < 2 ^ (w - 1) ->
      astep a (Seek h wh off) (Num t) (set_ah a h (Some (AH (ap x) (snap x) t (adirty x) (aorig x))))
  | SSeekBad h x wh off : ahs a h = Some x -> - 2 ^ (w - 1) <= off < 2 ^ (w - 1) -> (forall t, target x wh off = Some t -> ~ 0 <= t < 2 ^ (w - 1)) ->
      astep a (Seek h wh off) (Num (-22)) a
  | SFsync h x : ahs a h = Some x -> safe a x ->
      astep a (Fsync h) Unit (A (anxt a) (saved a x) (fupd (ahs a) h (Some (AH (ap x) (snap x) (apos x) false (aorig x)))))
  | SDup h x : ahs a h = Some x -> adirty x = false -> safe a x ->
      astep a (Dup h) (Num (anxt a)) (A (anxt a + 1) (cont a) (fupd (ahs a) (anxt a)
        (Some (AH (ap x) None (apos x) false (Some (match aorig x with Some o => o | None => h end))))))
  | SClose h x : ahs a h = Some x -> safe a x ->
      astep a (Close h) Unit (A (anxt a) (saved a x) (fupd (ahs a) h None))
  | SSyncfs : (forall h x, ahs a h = Some x -> adirty x = false) -> astep a Syncfs Unit a
  | SBadf o h : on o = Some h -> ahs a h = None -> astep a o Badf a.
Inductive asteps (a : ast) : list op -> list ret -> ast -> Prop :=
  | SNil : asteps a [] [] a
  | SCons o r a' os rs a'' : astep a o r a' -> asteps a' os rs a'' -> asteps a (o :: os) (r :: rs) a''.
Definition sizes_ok (c : Z -> list Z) : Prop :=
  0 < w /\ forall p, 0 < size p < 2 ^ (w - 1) /\ zlen (c p) <= size p.
End Steps.

(** a text up to its first NUL or newline *)
Fixpoint line (l : list Z) : list Z :=
  match l with [] => [] | c :: l => if (c =? 0) || (c =? 10) then [] else c :: line l end.
